(** C43: error reports.

    [strftime] is the C library's, with its contract for the formats of the table's date entries: the text
    of the all-zero time fits into the buffer. [message strftime p sigs e msg] (ErrorSpec.v) says which
    message [msg] belongs to the error [e]; [writes] (PrintFacts.v) is about the stream and the dynamic
    string versions of the function. *)
From Coq Require Import ZArith String List Ascii Bool Lia.
From Verif Require Import Base IntModel FileModel DateModel GetoptModel ParseModel ParseSpec GetoptProofs ParseIdeal ParseProofs ParseFacts ParseObserve ArgModel KindsSpec PropKinds.
From Verif Require Import DstrModel DstrSpec PrintModel PrintSpec PrintProofs PrintFacts ErrorSpec ErrorProofs.
From Verif Require ExTable.
Import ListNotations.
Open Scope Z_scope.

(** ** One message per recorded error *)
Theorem C43_messages : forall D strftime p (tab : list (entry (body D))) e,
  cstr p -> Forall (fun en => texts_ok (e_hdr en)) tab -> Forall (fun en => date_ok strftime (sigof (e_body en))) tab ->
  zlen (recorded e) = end_count e -> Forall (reportable (table_sig tab)) (recorded e) ->
  exists os msgs, arg_print_errors_ds strftime tab e (Some p) = Ok os /\
    Forall2 (message strftime p (table_sig tab)) (recorded e) msgs /\
    writes os (List.concat msgs) (zlen (List.concat msgs) + 64 * end_count e).
Proof.
  intros D strftime p tab e Cp T DT L R.
  destruct (loop_gives strftime p Cp tab e T DT (List.length (recorded e)) 0 eq_refl R) as (os & msgs & E & M & G).
  exists os, msgs. unfold arg_print_errors_ds. rewrite <- L at 1. unfold zlen at 1. rewrite Nat2Z.id. split; [exact E|]. split; [exact M|].
  eapply gives_writes; [exact G|]. rewrite <- L. unfold zlen. lia.
Qed.

(** What every message looks like: it starts with the program name, ends with a newline, and names the argument or the option. *)
Definition contains (part whole : str) : Prop := exists a b, whole = a ++ part ++ b.
Definition names_entry (h : hdr) (a msg : str) : Prop :=
  contains (quoted a) msg \/ exists d t, (d = h_datatype h \/ d = Some a) /\ shows (tags h d) t /\ contains t msg.
Definition names_error (sigs : list (hdr * ksig)) (e : err) (msg : str) : Prop :=
  match err_owner e with
  | PEntry i => exists h k, nth_error sigs i = Some (h, k) /\ names_entry h (orempty (err_argval e)) msg
  | PEnd =>
      err_code e = ARG_ELIMIT \/ err_code e = ARG_EMALLOC \/ contains (quoted (orempty (err_argval e))) msg \/
      exists c, err_code e = sc c /\ contains (quoted ["-"%char; c]) msg
  end.

Theorem C43_message_form : forall strftime p sigs e msg, message strftime p sigs e msg ->
  (exists rest, msg = p ++ lit ": " ++ rest ++ [NL]) /\ names_error sigs e msg.
Proof.
  intros strftime p sigs e msg M.
  destruct M as [i h k c a msg N M|a|a|a|a|a|c a NR].
  - assert (TG : forall pre d t suf, (d = h_datatype h \/ d = Some (orempty a)) -> shows (tags h d) t -> names_entry h (orempty a) (pre ++ t ++ suf)).
    { intros pre d t suf Dd S. right. exists d, t. split; [exact Dd|]. split; [exact S|]. exists pre, suf. reflexivity. }
    assert (X : (exists rest, msg = p ++ lit ": " ++ rest ++ [NL]) /\ names_entry h (orempty a) msg).
    { set (v := orempty a) in *. clearbody v.
      destruct M as [k v t _ _ S|v t S|k v t _ _ S|v t S|v t S|v t S|v t S|f v s _|v t S]; unfold line.
      - split; [eauto|]. replace (p ++ lit ": " ++ (lit "missing option " ++ t) ++ [NL]) with ((p ++ lit ": missing option ") ++ t ++ [NL]) by (rewrite <- !app_assoc; reflexivity). eapply TG; [|exact S]; auto.
      - split; [exists ((lit "missing option " ++ t) ++ [NL]); rewrite <- !app_assoc; reflexivity|].
        replace ((p ++ lit ": " ++ (lit "missing option " ++ t) ++ [NL]) ++ [NL]) with ((p ++ lit ": missing option ") ++ t ++ [NL; NL]) by (rewrite <- !app_assoc; reflexivity). eapply TG; [|exact S]; auto.
      - split; [eauto|]. replace (p ++ lit ": " ++ (lit "excess option " ++ t) ++ [NL]) with ((p ++ lit ": excess option ") ++ t ++ [NL]) by (rewrite <- !app_assoc; reflexivity). eapply TG; [|exact S]; auto.
      - split; [eauto|]. replace (p ++ lit ": " ++ (lit "extraneous option " ++ t) ++ [NL]) with ((p ++ lit ": extraneous option ") ++ t ++ [NL]) by (rewrite <- !app_assoc; reflexivity). eapply TG; [|exact S]; auto.
      - split; [eauto|]. left. exists (p ++ lit ": invalid argument "), (lit " to option " ++ t ++ [NL]). rewrite <- !app_assoc. reflexivity.
      - split; [eauto|]. left. exists (p ++ lit ": invalid argument "), (lit " to option " ++ t ++ [NL]). rewrite <- !app_assoc. reflexivity.
      - split; [eauto|]. replace (p ++ lit ": " ++ (lit "integer overflow at option " ++ t ++ lit " (" ++ v ++ lit " is too large)") ++ [NL])
          with ((p ++ lit ": integer overflow at option ") ++ t ++ (lit " (" ++ v ++ lit " is too large)" ++ [NL])) by (rewrite <- !app_assoc; reflexivity). eapply TG; [|exact S]; auto.
      - split; [exists ((lit "illegal timestamp format " ++ quoted v) ++ [NL] ++ lit "correct format is " ++ quoted s); rewrite <- !app_assoc; reflexivity|].
        left. exists (p ++ lit ": illegal timestamp format "), ([NL] ++ lit "correct format is " ++ quoted s ++ [NL]). rewrite <- !app_assoc. reflexivity.
      - split; [eauto|]. replace (p ++ lit ": " ++ (lit "illegal value  " ++ t) ++ [NL]) with ((p ++ lit ": illegal value  ") ++ t ++ [NL]) by (rewrite <- !app_assoc; reflexivity). eapply TG; [|exact S]; auto. }
    destruct X as [X1 X2]. split; [exact X1|]. exists h, k. split; [exact N|exact X2].
  - split; [unfold line; eauto|]. left. reflexivity.
  - split; [unfold line; eauto|]. right. left. reflexivity.
  - split; [unfold line; eauto|]. right. right. left. exists (p ++ lit ": unexpected argument "), [NL]. unfold line. cbn [mk_err err_argval]. rewrite <- !app_assoc. reflexivity.
  - split; [unfold line; eauto|]. right. right. left. exists (p ++ lit ": option "), (lit " requires an argument" ++ [NL]). unfold line. cbn [mk_err err_argval]. rewrite <- !app_assoc. reflexivity.
  - split; [unfold line; eauto|]. right. right. left. exists (p ++ lit ": invalid option "), [NL]. unfold line. cbn [mk_err err_argval]. rewrite <- !app_assoc. reflexivity.
  - split; [unfold line; eauto|]. right. right. right. exists c. split; [reflexivity|]. exists (p ++ lit ": invalid option "), [NL]. unfold line. rewrite <- !app_assoc. reflexivity.
Qed.

(** ** After a parse *)
Section Parse.
Context {D : Type}.
Context (strtod : str -> D * nat).
Context (rexmatch : str -> Z -> str -> res bool).
Context (lm : long_model) (sp : seps).
Context (strftime : str -> tm -> option str).
Notation parse := (karg_parse strtod rexmatch lm sp).

Lemma sig_forall (P : hdr -> ksig -> Prop) (t t' : list (entry (body D))) : table_sig t' = table_sig t ->
  Forall (fun en => P (e_hdr en) (sigof (e_body en))) t -> Forall (fun en => P (e_hdr en) (sigof (e_body en))) t'.
Proof.
  revert t. induction t' as [|x t' IH]; intros [|y t] E F; try discriminate; constructor; cbn in E; injection E as E1 E2 E3; inversion_clear F.
  - rewrite E1, E2. assumption.
  - eapply IH; eassumption.
Qed.

Lemma after sigs (tab tab' : list (entry (body D))) en' cap errs p : table_sig tab' = sigs -> table_sig tab = sigs -> 1 <= cap -> cstr p ->
  Forall (fun en => texts_ok (e_hdr en)) tab -> Forall (fun en => date_ok strftime (sigof (e_body en))) tab ->
  end_count en' = Z.min cap (zlen errs) -> recorded en' = shown cap errs -> Forall (reportable sigs) errs ->
  exists os msgs, arg_print_errors_ds strftime tab' en' (Some p) = Ok os /\
    Forall2 (message strftime p sigs) (recorded en') msgs /\ writes os (List.concat msgs) (zlen (List.concat msgs) + 64 * end_count en').
Proof.
  intros S' S C Cp T DT E1 E2 R. subst sigs.
  destruct (C43_messages D strftime p tab' en' Cp) as (os & msgs & E & M & W).
  - apply (sig_forall (fun h _ => texts_ok h) tab); [congruence|exact T].
  - apply (sig_forall (fun _ k => date_ok strftime k) tab); [congruence|exact DT].
  - rewrite E1, E2. apply shown_length. exact C.
  - rewrite E2. apply shown_report. exact R.
  - exists os, msgs. auto.
Qed.

Theorem C43_after_parse :
  forall ints posix cap tab rest jo jc jp fuel argv h s en a0 h' s' tab' en' p, strtod_contract strtod ->
  reached strtod rexmatch lm sp ints tab -> call cap tab en h argv a0 rest fuel -> Forall (safe_value lm ints) rest ->
  parse posix jo jc jp fuel (zlen (a0 :: rest)) argv h s tab en = Ok (h', s', tab', en') ->
  cstr p -> Forall (fun e => texts_ok (e_hdr e)) tab -> Forall (fun e => date_ok strftime (sigof (e_body e))) tab ->
  exists os msgs, arg_print_errors_ds strftime tab' en' (Some p) = Ok os /\
    Forall2 (message strftime p (table_sig tab)) (recorded en') msgs /\
    writes os (List.concat msgs) (zlen (List.concat msgs) + 64 * end_count en').
Proof.
  intros ints posix cap tab rest jo jc jp fuel argv h s en a0 h' s' tab' en' p Hd Ht Hc Hv Hp Cp T DT.
  apply (reached_ready strtod rexmatch lm sp Hd) in Ht.
  destruct (parse_ok_safe strtod rexmatch lm sp Hd _ _ _ _ _ _ _ _ _ _ _ _ _ _ _ _ _ _ Ht Hc Hv Hp) as (evs & pos & errs & Er & Ei & E1 & E2 & _ & _).
  destruct (parse_report strtod rexmatch lm sp posix tab rest evs pos tab' errs) as [S R]; auto.
  { eapply Forall_impl; [|exact Hv]. intros x Hx. exact (proj1 Hx). }
  apply (after (table_sig tab) tab tab' en' cap errs p); auto. exact (proj1 (c_end _ _ _ _ _ _ _ _ Hc)).
Qed.
Theorem C43_after_parse_no_arguments :
  forall ints posix cap tab jo jc jp fuel argv h s en h' s' tab' en' p, strtod_contract strtod ->
  reached strtod rexmatch lm sp ints tab -> wf_end cap en ->
  parse posix jo jc jp fuel 0 argv h s tab en = Ok (h', s', tab', en') ->
  cstr p -> Forall (fun e => texts_ok (e_hdr e)) tab -> Forall (fun e => date_ok strftime (sigof (e_body e))) tab ->
  exists os msgs, arg_print_errors_ds strftime tab' en' (Some p) = Ok os /\
    Forall2 (message strftime p (table_sig tab)) (recorded en') msgs /\
    writes os (List.concat msgs) (zlen (List.concat msgs) + 64 * end_count en').
Proof.
  intros ints posix cap tab jo jc jp fuel argv h s en h' s' tab' en' p Hd Ht He Hp Cp T DT.
  apply (reached_ready strtod rexmatch lm sp Hd) in Ht.
  destruct (parse_none_safe strtod rexmatch lm sp Hd ints posix cap tab jo jc jp fuel argv h s en Ht He) as (h2 & s2 & t2 & en2 & E & _ & _ & errs & Ei & E1 & E2).
  rewrite Hp in E. injection E as <- <- <- <-.
  destruct (parse_empty_report tab tab' errs Ei) as [S R].
  apply (after (table_sig tab) tab tab' en' cap errs p); auto. exact (proj1 He).
Qed.
End Parse.

(** ** Examples *)
Definition ex_strftime (f : str) (t : tm) : option str := Some (lit "00/00/00").
Definition ex_tab : list (entry (body Z)) :=
  [arg_litn (ExTable.o "v") (ExTable.o "verbose") 1 1 None; arg_intn (fun _ => 7) (ExTable.o "n") (ExTable.o "num") None 0 2 None;
   arg_daten (ExTable.o "d") None (ExTable.o "%x") None 0 1 None; arg_strn None None None 1 2 None].
Definition ex_end : arg_end :=
  {| end_max := 6; end_count := 6;
     end_error := [ARG_ERR_MINCOUNT; ARG_ERR_BADINT; ARG_ERR_BADDATE; sc "q"; ARG_ERR_MAXCOUNT; ARG_ELIMIT];
     end_parent := [PEntry 0; PEntry 1; PEntry 2; PEnd; PEntry 3; PEnd];
     end_argval := [None; Some (lit "1x"); Some (lit "today"); None; Some (lit "c"); None] |}.
Definition ex_text : str :=
  lit "prog: missing option -v|--verbose" ++ [NL; NL] ++
  lit "prog: invalid argument ""1x"" to option -n|--num=<int>" ++ [NL] ++
  lit "prog: illegal timestamp format ""today""" ++ [NL] ++ lit "correct format is ""00/00/00""" ++ [NL] ++
  lit "prog: invalid option ""-q""" ++ [NL] ++
  lit "prog: excess option c" ++ [NL] ++
  lit "prog: too many errors to display" ++ [NL].
Definition nonulb (s : str) : bool := negb (existsb (ceqb NUL) s).
Definition textsb (h : hdr) : bool :=
  let f (o : option str) := match o with Some s => nonulb s | None => true end in
  f (h_shortopts h) && f (h_longopts h) && f (h_datatype h) && f (h_glossary h).
Lemma nonulb_ok s : nonulb s = true -> cstr s.
Proof.
  unfold nonulb. intros H K. apply negb_true_iff in H. assert (existsb (ceqb NUL) s = true); [|congruence].
  apply existsb_exists. exists NUL. split; [exact K|reflexivity].
Qed.
Lemma textsb_ok h : textsb h = true -> texts_ok h.
Proof.
  unfold textsb, texts_ok. intros H. apply andb_true_iff in H as [H H4]. apply andb_true_iff in H as [H H3]. apply andb_true_iff in H as [H1 H2].
  repeat split; match goal with |- ocstr ?o => destruct o; cbn; [apply nonulb_ok; assumption|exact I] end.
Qed.
Lemma ex_texts : Forall (fun en => texts_ok (e_hdr en)) ex_tab.
Proof. apply Forall_forall. intros e H. apply textsb_ok. destruct H as [<- | [<- | [<- | [<- | []]]]]; reflexivity. Qed.
Lemma ex_dates : Forall (fun en => date_ok ex_strftime (sigof (e_body en))) ex_tab.
Proof. repeat constructor. exists (lit "00/00/00"). split; [reflexivity|]. clit. Qed.
Lemma ex_reportable : Forall (reportable (table_sig ex_tab)) (recorded ex_end).
Proof.
  set (e0 := arg_rem (D := Z) None None).
  change (recorded ex_end) with
    [mk_err (PEntry 0) ARG_ERR_MINCOUNT None; mk_err (PEntry 1) ARG_ERR_BADINT (Some (lit "1x")); mk_err (PEntry 2) ARG_ERR_BADDATE (Some (lit "today"));
     mk_err PEnd (sc "q") None; mk_err (PEntry 3) ARG_ERR_MAXCOUNT (Some (lit "c")); mk_err PEnd ARG_ELIMIT None].
  repeat apply Forall_cons; try apply Forall_nil; (split; [first [exact I|apply nonulb_ok; reflexivity]|]); cbn [err_owner mk_err].
  - exists (e_hdr (nth 0 ex_tab e0)), SLit. split; [reflexivity|]. cbn. auto.
  - exists (e_hdr (nth 1 ex_tab e0)), SInt. split; [reflexivity|]. cbn. auto.
  - exists (e_hdr (nth 2 ex_tab e0)), (SDate (lit "%x")). split; [reflexivity|]. cbn. auto.
  - right. exists "q"%char. split; [reflexivity|discriminate].
  - exists (e_hdr (nth 3 ex_tab e0)), SStr. split; [reflexivity|]. cbn. auto.
  - left. unfold reserved. cbn. auto.
Qed.
Lemma forall2_length {A B} (R : A -> B -> Prop) l l' : Forall2 R l l' -> List.length l = List.length l'.
Proof. induction 1; cbn; congruence. Qed.
Example C43_messages_example : exists os msgs, arg_print_errors_ds ex_strftime ex_tab ex_end (Some (lit "prog")) = Ok os /\
  Forall2 (message ex_strftime (lit "prog") (table_sig ex_tab)) (recorded ex_end) msgs /\ List.concat msgs = ex_text /\ zlen msgs = 6.
Proof.
  destruct (loop_gives ex_strftime (lit "prog") ltac:(clit) ex_tab ex_end ex_texts ex_dates 6 0 eq_refl ex_reportable) as (os & msgs & E & M & G).
  exists os, msgs. split; [exact E|]. split; [exact M|]. split.
  - destruct G as (_ & <- & _). vm_compute in E. injection E as <-. vm_compute. reflexivity.
  - unfold zlen. rewrite <- (forall2_length _ _ _ M). reflexivity.
Qed.
(** The hypotheses of C43_messages. *)
Example C43_hypotheses : cstr (lit "prog") /\ Forall (fun en => texts_ok (e_hdr en)) ex_tab /\
  Forall (fun en => date_ok ex_strftime (sigof (e_body en))) ex_tab /\ zlen (recorded ex_end) = end_count ex_end /\
  Forall (reportable (table_sig ex_tab)) (recorded ex_end).
Proof. split; [clit|]. split; [exact ex_texts|]. split; [exact ex_dates|]. split; [reflexivity|exact ex_reportable]. Qed.
(** A parse with errors, and its report. *)
Example C43_after_parse_example : exists h' s' tab' en' os,
  ExTable.run ["prog"; "-q"; "--num=1x"; "-o"]%string = Ok (h', s', tab', en') /\
  arg_print_errors_ds ex_strftime tab' en' (Some (lit "prog")) = Ok os /\
  ops_text os = lit "prog: invalid option ""-q""" ++ [NL] ++ lit "prog: invalid argument ""1x"" to option -n|--num=<int>" ++ [NL] ++
    lit "prog: option ""-o"" requires an argument" ++ [NL].
Proof. eexists _, _, _, _, _. split; [vm_compute; reflexivity|]. split; [vm_compute; reflexivity|]. vm_compute. reflexivity. Qed.

(** ** What does not hold *)
(** With a program name of NULL, arg_end's own errors are fine, but those of the entries are undefined. *)
Theorem C43_null_progname_refuted : exists (tab : list (entry (body Z))) e1 e2 os,
  Forall (reportable (table_sig tab)) (recorded e1) /\ Forall (reportable (table_sig tab)) (recorded e2) /\
  arg_print_errors_ds ex_strftime tab e1 None = Ok os /\ arg_print_errors_ds ex_strftime tab e2 None = UB NullDeref.
Proof.
  exists ex_tab.
  exists {| end_max := 1; end_count := 1; end_error := [ARG_ELONGOPT]; end_parent := [PEnd]; end_argval := [Some (lit "--x")] |}.
  exists {| end_max := 1; end_count := 1; end_error := [ARG_ERR_MINCOUNT]; end_parent := [PEntry 0]; end_argval := [None] |}.
  eexists. split; [|split; [|split; [reflexivity|reflexivity]]]; (constructor; [|constructor]).
  - split; [apply nonulb_ok; reflexivity|]. left. unfold reserved. cbn. auto 10.
  - split; [exact I|]. eexists _, _. split; [reflexivity|]. cbn. auto.
Qed.
(** Not one line per error: a missing arg_lit gives an empty line as well. *)
Theorem C43_one_line_refuted : exists (tab : list (entry (body Z))) e os,
  Forall (reportable (table_sig tab)) (recorded e) /\ zlen (recorded e) = 1 /\
  arg_print_errors_ds ex_strftime tab e (Some (lit "p")) = Ok os /\ ops_text os = lit "p: missing option -v|--verbose" ++ [NL; NL].
Proof.
  exists ex_tab. exists {| end_max := 1; end_count := 1; end_error := [ARG_ERR_MINCOUNT]; end_parent := [PEntry 0]; end_argval := [None] |}.
  eexists. split; [|split; [reflexivity|split; [vm_compute; reflexivity|vm_compute; reflexivity]]].
  constructor; [|constructor]. split; [exact I|]. eexists _, _. split; [reflexivity|]. cbn. auto.
Qed.
(** The sample of a correct date is never the one meant, 1999-12-31 23:59:59: the format %F that should
    produce it is not known to arg_strptime, and all fields stay zero. *)
Theorem C43_date_sample_refuted :
  arg_strptime (lit "1999-12-31 23:59:59") (lit "%F %H:%M:%S") tm_zero = Ok (tm_zero, None).
Proof. exact sample_zero. Qed.
(** An unknown option whose character is \x01 to \x05 is reported as something else. *)
Theorem C43_control_character_refuted : exists (tab : list (entry (body Z))) h' s' tab' en' os,
  ExTable.parse false ExTable.jo ExTable.jc ExTable.jp 9 2 1 [BTemp; BArgv [Some (lit "prog"); Some ["-"%char; "001"%char]; None]] ExTable.s0 tab (ExTable.en 4)
    = Ok (h', s', tab', en') /\
  arg_print_errors_ds ex_strftime tab' en' (Some (lit "prog")) = Ok os /\ ops_text os = lit "prog: too many errors to display" ++ [NL].
Proof. exists [arg_litn (ExTable.o "v") None 0 1 None]. eexists _, _, _, _, _. split; [vm_compute; reflexivity|]. split; [vm_compute; reflexivity|]. vm_compute. reflexivity. Qed.

Print Assumptions C43_messages.
Print Assumptions C43_message_form.
Print Assumptions C43_after_parse.
Print Assumptions C43_after_parse_no_arguments.
Print Assumptions C43_null_progname_refuted.
Print Assumptions C43_one_line_refuted.
Print Assumptions C43_date_sample_refuted.
Print Assumptions C43_control_character_refuted.
