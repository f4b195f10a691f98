(** ErrorProofs: the messages of arg_print_errors, and the errors that a parse records. *)
From Coq Require Import ZArith String List Ascii Bool Lia.
From Verif Require Import Base IntModel FileModel DateModel GetoptModel ParseModel ParseSpec GetoptProofs ParseIdeal ParseProofs ParseFacts ParseObserve ArgModel KindsSpec.
From Verif Require Import DstrModel DstrSpec PrintModel PrintSpec PrintProofs PrintFacts ErrorSpec.
Import ListNotations.
Open Scope Z_scope.

(** ** One message *)
Lemma gives_cons x os s t m n : gives [x] s m -> gives os t n -> gives (x :: os) (s ++ t) (m + n).
Proof. exact (gives_app [x] os s t m n). Qed.
Lemma gives_eq os s t m n : gives os s m -> s = t -> m <= n -> gives os t n.
Proof. intros G <- L. exact (gives_weaken _ _ _ _ G L). Qed.
Lemma cstr_nl : cstr [NL].
Proof. intros [E|[]]. discriminate. Qed.
Lemma cstr_orempty a : ocstr a -> cstr (orempty a).
Proof. destruct a; [auto|intros _ []]. Qed.
Ltac cs := repeat (apply cstr_app; split); auto using cstr_nl, cstr_orempty; try clit.
Ltac gcatf := apply gives_catf; [lia|cs].

Lemma catf_gives f s : cstr s -> gives [catf f s] s (Z.of_nat (String.length f)).
Proof. intro C. apply gives_catf; [lia|exact C]. Qed.
Lemma catf_nl_gives f s : cstr s -> gives [catf_nl f s] (s ++ [NL]) (Z.of_nat (String.length f) + 1).
Proof. intro C. apply gives_catf; [lia|]. cs. Qed.

Lemma print_option_gives h dt sf : texts_ok h -> ocstr dt -> cstr sf ->
  exists o t, print_option h dt sf = Ok o /\ shows (tags h dt) t /\ gives o (t ++ sf) 0.
Proof.
  intros (A & B & _ & _) C D.
  destruct (verbose_ok _ _ (h_shortopts h) (h_longopts h) dt false (lit "|") start_holds A B C ltac:(clit)) as [buf [out [E1 [E2 [E3 E4]]]]].
  unfold print_option, arg_print_option_ds. rewrite E1. cbn [bind]. rewrite E2. cbn [bind]. eexists _, out.
  split; [reflexivity|]. split; [exact E3|].
  apply (gives_weaken _ _ (0 + 0)); [|lia]. apply gives_cons; gcat.
Qed.

Section One.
Context {D : Type} (strftime : str -> tm -> option str) (p : str) (Cp : cstr p).

Definition date_ok (k : ksig) : Prop :=
  match k with SDate f => exists s, strftime f tm_zero = Some s /\ cstr s | _ => True end.

Lemma sample_zero : arg_strptime (lit "1999-12-31 23:59:59") (lit "%F %H:%M:%S") tm_zero = Ok (tm_zero, None).
Proof. vm_compute. reflexivity. Qed.

(** The two errors that all kinds but arg_lit share. *)
Lemma count_error_ok h k code a other :
  texts_ok h -> cstr a -> k <> SLit -> k <> SRem ->
  (code = ARG_ERR_MINCOUNT \/ code = ARG_ERR_MAXCOUNT) ->
  exists o msg, count_error h code a other = Ok o /\ entry_message strftime p h k code a (p ++ lit ": " ++ msg) /\ gives o msg 0.
Proof.
  intros T A K1 K2 [-> | ->]; unfold count_error.
  - destruct (print_option_gives h (h_datatype h) [NL] T) as (o & t & E & S & G); [apply T|cs|].
    cbn [Z.eqb ARG_ERR_MINCOUNT Pos.eqb]. rewrite E. cbn [bind]. eexists _, (lit "missing option " ++ t ++ [NL]). split; [reflexivity|]. split.
    + rewrite (app_assoc (lit "missing option ")). exact (em_missing strftime p h k a t K1 K2 S).
    + apply (gives_weaken _ _ (0 + 0)); [|lia]. apply gives_cons; [gcat; clit|exact G].
  - destruct (print_option_gives h (Some a) [NL] T) as (o & t & E & S & G); [exact A|cs|].
    cbn [Z.eqb ARG_ERR_MINCOUNT ARG_ERR_MAXCOUNT Pos.eqb]. rewrite E. cbn [bind]. eexists _, (lit "excess option " ++ t ++ [NL]). split; [reflexivity|]. split.
    + rewrite (app_assoc (lit "excess option ")). exact (em_excess strftime p h k a t K1 K2 S).
    + apply (gives_weaken _ _ (0 + 0)); [|lia]. apply gives_cons; [gcat; clit|exact G].
Qed.

Lemma bad_value_ok h a : texts_ok h -> cstr a ->
  exists o t, bad_value h a = Ok o /\ shows (tags h (h_datatype h)) t /\
    gives o (lit "invalid argument " ++ quoted a ++ lit " to option " ++ t ++ [NL]) 33.
Proof.
  intros T A. unfold bad_value. destruct (print_option_gives h (h_datatype h) [NL] T) as (o & t & E & S & G); [apply T|cs|].
  rewrite E. cbn [bind]. eexists _, t. split; [reflexivity|]. split; [exact S|].
  eapply gives_eq; [apply gives_cons; [apply catf_gives|exact G]| |].
  - cs.
  - unfold quoted. rewrite <- !app_assoc. reflexivity.
  - vm_compute. discriminate.
Qed.

Lemma line_eq s : line p s = p ++ lit ": " ++ s ++ [NL].
Proof. reflexivity. Qed.

Lemma tail_ok h (b : body D) code a : texts_ok h -> cstr a -> date_ok (sigof b) -> sigof b <> SLit -> In code (codes (sigof b)) ->
  exists o msg, kerror_tail strftime h b code a = Ok o /\ entry_message strftime p h (sigof b) code a (p ++ lit ": " ++ msg) /\ gives o msg 60.
Proof.
  intros T A DT NL' IN.
  assert (CE : forall other, sigof b <> SRem -> code = ARG_ERR_MINCOUNT \/ code = ARG_ERR_MAXCOUNT ->
    exists o msg, count_error h code a other = Ok o /\ entry_message strftime p h (sigof b) code a (p ++ lit ": " ++ msg) /\ gives o msg 60).
  { intros other K C. destruct (count_error_ok h (sigof b) code a other T A NL' K C) as (o & msg & E & M & G).
    exists o, msg. split; [exact E|]. split; [exact M|]. eapply gives_weaken; [exact G|lia]. }
  destruct b as [c|q|q|q|q|q|q|]; cbn [sigof codes In] in *; try congruence; try contradiction; unfold kerror_tail.
  - destruct IN as [<- | [<- | [<- | [<- | []]]]]; try (apply CE; [discriminate|auto; fail]).
    + cbn [count_error Z.eqb ARG_ERR_MINCOUNT ARG_ERR_MAXCOUNT ARG_ERR_BADINT Pos.eqb]. unfold count_error.
      cbn [Z.eqb ARG_ERR_MINCOUNT ARG_ERR_MAXCOUNT ARG_ERR_BADINT Pos.eqb].
      destruct (bad_value_ok h a T A) as (o & t & E & S & G). eexists _, _. split; [exact E|]. split; [|eapply gives_weaken; [exact G|lia]].
      replace (lit "invalid argument " ++ quoted a ++ lit " to option " ++ t ++ [NL]) with ((lit "invalid argument " ++ quoted a ++ lit " to option " ++ t) ++ [NL])
        by (rewrite <- !app_assoc; reflexivity).
      exact (em_int strftime p h a t S).
    + unfold count_error. cbn [Z.eqb ARG_ERR_MINCOUNT ARG_ERR_MAXCOUNT ARG_ERR_BADINT ARG_ERR_OVERFLOW Pos.eqb].
      destruct (print_option_gives h (h_datatype h) (lit " ") T) as (o & t & E & S & G); [apply T|cs|].
      rewrite E. cbn [bind]. eexists _, ((lit "integer overflow at option " ++ t ++ lit " (" ++ a ++ lit " is too large)") ++ [NL]). split; [reflexivity|]. split; [exact (em_overflow strftime p h a t S)|].
      eapply gives_eq; [apply gives_app; [gcat; clit|apply gives_app; [exact G|apply catf_nl_gives]]| |].
      * cs.
      * change (lit " (") with (lit " " ++ lit "("). rewrite <- !app_assoc. reflexivity.
      * vm_compute. discriminate.
  - destruct IN as [<- | [<- | [<- | []]]]; try (apply CE; [discriminate|auto; fail]).
    unfold count_error. cbn [Z.eqb ARG_ERR_MINCOUNT ARG_ERR_MAXCOUNT ARG_ERR_BADDOUBLE Pos.eqb].
    destruct (bad_value_ok h a T A) as (o & t & E & S & G). eexists _, _. split; [exact E|]. split; [|eapply gives_weaken; [exact G|lia]].
    replace (lit "invalid argument " ++ quoted a ++ lit " to option " ++ t ++ [NL]) with ((lit "invalid argument " ++ quoted a ++ lit " to option " ++ t) ++ [NL])
      by (rewrite <- !app_assoc; reflexivity).
    exact (em_dbl strftime p h a t S).
  - destruct IN as [<- | [<- | []]]; apply CE; auto; discriminate.
  - destruct IN as [<- | [<- | []]]; apply CE; auto; discriminate.
  - destruct IN as [<- | [<- | [<- | []]]]; try (apply CE; [discriminate|auto; fail]).
    unfold count_error. cbn [Z.eqb ARG_ERR_MINCOUNT ARG_ERR_MAXCOUNT ARG_ERR_BADDATE Pos.eqb].
    rewrite sample_zero. cbn [bind]. destruct DT as (s & ES & CS). rewrite ES.
    eexists _, ((lit "illegal timestamp format " ++ quoted a) ++ [NL] ++ lit "correct format is " ++ quoted s ++ [NL]). split; [reflexivity|]. split.
    + pose proof (em_date strftime p h (date_format q) a s ES) as M. unfold line in M. rewrite <- !app_assoc in *. exact M.
    + eapply gives_eq; [apply gives_cons; [apply catf_nl_gives|apply catf_nl_gives]| |].
      * cs.
      * cs.
      * unfold quoted. rewrite <- !app_assoc. reflexivity.
      * vm_compute. discriminate.
  - destruct IN as [<- | [<- | [<- | []]]]; try (apply CE; [discriminate|auto; fail]).
    unfold count_error. cbn [Z.eqb ARG_ERR_MINCOUNT ARG_ERR_MAXCOUNT ARG_ERR_REGNOMATCH Pos.eqb].
    destruct (print_option_gives h (Some a) [NL] T) as (o & t & E & S & G); [exact A|cs|].
    rewrite E. cbn [bind]. eexists _, (lit "illegal value  " ++ t ++ [NL]). split; [reflexivity|]. split.
    + rewrite (app_assoc (lit "illegal value  ")). exact (em_rex strftime p h a t S).
    + apply (gives_weaken _ _ (0 + 0)); [|lia]. apply gives_cons; [gcat; clit|exact G].
Qed.

Lemma kerror_ok h (b : body D) code a : texts_ok h -> ocstr a -> date_ok (sigof b) -> In code (codes (sigof b)) ->
  exists o msg, kerror strftime h b code a (Some p) = Ok o /\ entry_message strftime p h (sigof b) code (orempty a) msg /\ gives o msg 64.
Proof.
  intros T A DT IN.
  assert (K : sigof b = SLit \/ (sigof b <> SLit /\ kerror strftime h b code a (Some p) =
    (o <- kerror_tail strftime h b code (orempty a) ;; Ok (catf "%s: " (p ++ lit ": ") :: o)))).
  { destruct b; [left; reflexivity|right; split; [discriminate|reflexivity]..|destruct IN]. }
  destruct K as [K|[K E]].
  - destruct b as [c|q|q|q|q|q|q|]; try discriminate. cbn [sigof codes In] in *. cbn [kerror]. unfold arg_lit_errorfn.
    destruct (print_option_gives h (h_datatype h) [NL] T) as (o & t & E & S & G); [apply T|cs|].
    destruct IN as [<- | [<- | []]]; cbn [Z.eqb ARG_ERR_MINCOUNT ARG_ERR_MAXCOUNT Pos.eqb pct_s bind]; rewrite E; cbn [bind].
    + eexists _, _. split; [reflexivity|]. split; [exact (em_missing_lit strftime p h (orempty a) t S)|].
      eapply gives_eq; [apply gives_app; [apply catf_gives|apply gives_app; [exact G|gcat; apply cstr_nl]]| |].
      * cs.
      * unfold line. change (lit ": missing option ") with (lit ": " ++ lit "missing option "). rewrite <- !app_assoc. reflexivity.
      * vm_compute. discriminate.
    + eexists _, _. split; [reflexivity|]. split; [exact (em_excess_lit strftime p h (orempty a) t S)|].
      eapply gives_eq; [apply gives_app; [apply catf_gives|exact G]| |].
      * cs.
      * unfold line. change (lit ": extraneous option ") with (lit ": " ++ lit "extraneous option "). rewrite <- !app_assoc. reflexivity.
      * vm_compute. discriminate.
  - destruct (tail_ok h b code (orempty a) T (cstr_orempty _ A) DT K IN) as (o & msg & E' & M & G).
    rewrite E, E'. cbn [bind]. eexists _, _. split; [reflexivity|]. split; [exact M|].
    eapply gives_eq; [apply gives_cons; [apply catf_gives|exact G]| |].
    + cs.
    + rewrite <- app_assoc. reflexivity.
    + vm_compute. discriminate.
Qed.

Lemma reserved_dec c : {reserved c} + {~ reserved c}.
Proof. unfold reserved. apply in_dec. apply Z.eq_dec. Qed.

Lemma sc_neq c z : ~ reserved (sc c) -> reserved z -> sc c =? z = false.
Proof. intros N R. apply Z.eqb_neq. intros E. rewrite E in N. exact (N R). Qed.

Lemma end_error_ok tab code a : ocstr a -> (reserved code \/ exists c, code = sc c /\ c <> NUL) ->
  exists msg, message strftime p tab (mk_err PEnd code a) msg /\ gives (arg_end_errorfn code a (Some p)) msg 64.
Proof.
  intros A R.
  assert (X : forall s o n, gives [o] s n -> n <= 60 -> gives ([catf "%s: " (p ++ lit ": ")] ++ [o] ++ [OCat [NL]]) (line p s) 64).
  { intros s o n G L. eapply gives_eq; [apply gives_app; [apply catf_gives|apply gives_app; [exact G|gcat; apply cstr_nl]]| |].
    - cs.
    - unfold line. rewrite <- !app_assoc. reflexivity.
    - change (Z.of_nat (String.length "%s: ")) with 4. lia. }
  destruct (reserved_dec code) as [I|N].
  - destruct I as [<- | [<- | [<- | [<- | [<- | []]]]]]; eexists; unfold arg_end_errorfn;
      cbn [Z.eqb ARG_ELIMIT ARG_EMALLOC ARG_ENOMATCH ARG_ELONGOPT ARG_EMISSARG Pos.eqb orempty].
    + split; [apply m_limit|]. eapply X; [gcat; clit|lia].
    + split; [apply m_memory|]. eapply X; [gcat; clit|lia].
    + split; [apply m_nomatch|]. eapply X; [apply (catf_gives _ (lit "unexpected argument """ ++ orempty a ++ lit """")); cs|vm_compute; discriminate].
    + split; [apply m_longopt|]. eapply X; [apply (catf_gives _ (lit "invalid option """ ++ orempty a ++ lit """")); cs|vm_compute; discriminate].
    + split; [apply m_missarg|].
      eapply X; [eapply gives_eq; [apply (catf_gives _ (lit "option """ ++ orempty a ++ lit """ requires an argument")); cs| |apply Z.le_refl]|vm_compute; discriminate].
      unfold quoted. rewrite <- !app_assoc. reflexivity.
  - destruct R as [R|(c & -> & NC)]; [contradiction|]. exists (line p (lit "invalid option " ++ quoted ["-"%char; c])). split; [apply m_short; exact N|].
    unfold arg_end_errorfn. rewrite !sc_neq by (auto; unfold reserved; cbn [In]; auto 10). rewrite chr_sc. cbn [orempty].
    eapply X; [apply (catf_gives _ (lit "invalid option ""-" ++ [c] ++ lit """"))|vm_compute; discriminate].
    cs. intros [E|[]]. congruence.
Qed.

(** ** All messages *)
Lemma aget_zip a : forall b c i e, nth_error (zip3 a b c) i = Some e ->
  nth_error a i = Some (err_code e) /\ nth_error b i = Some (err_owner e) /\ nth_error c i = Some (err_argval e).
Proof.
  induction a as [|x a IH]; intros [|y b] [|z c] i e; try (destruct i; discriminate). destruct i; cbn [zip3 nth_error]; [intros [= <-]; auto|]. apply IH.
Qed.
Lemma aget_nth {A} (l : list A) i x : nth_error l i = Some x -> aget l (Z.of_nat i) = Ok x.
Proof. intros H. unfold aget. destruct (Z.ltb_spec (Z.of_nat i) 0); [lia|]. rewrite Nat2Z.id, H. reflexivity. Qed.
Lemma nth_firstn {A} (l : list A) n i x : nth_error (firstn n l) i = Some x -> nth_error l i = Some x.
Proof. revert n i. induction l as [|y l IH]; intros [|n] [|i]; cbn; auto; try discriminate. apply IH. Qed.

Lemma loop_gives (tab : list (entry (body D))) e : Forall (fun en => texts_ok (e_hdr en)) tab -> Forall (fun en => date_ok (sigof (e_body en))) tab ->
  forall n i, (i + n = List.length (recorded e))%nat ->
  Forall (reportable (table_sig tab)) (skipn i (recorded e)) ->
  exists os msgs, errors_loop strftime n tab e (Z.of_nat i) (Some p) = Ok os /\
    Forall2 (message strftime p (table_sig tab)) (skipn i (recorded e)) msgs /\ gives os (List.concat msgs) (64 * Z.of_nat n).
Proof.
  intros T DT. induction n as [|n IH]; intros i L R.
  - rewrite skipn_all2 by lia. exists [], []. split; [reflexivity|]. split; [constructor|]. apply gives_nil.
  - destruct (nth_error (recorded e) i) as [x|] eqn:N; [|apply nth_error_None in N; lia].
    assert (SK : skipn i (recorded e) = x :: skipn (S i) (recorded e)).
    { clear -N. revert i N. induction (recorded e) as [|y l IH]; intros [|i] N; try discriminate; cbn in *; [congruence|auto]. }
    rewrite SK in R. inversion_clear R as [|? ? Rx R'].
    destruct (IH (S i) ltac:(lia) R') as (os & msgs & E & M & G).
    unfold recorded in N. apply nth_firstn in N. apply aget_zip in N as (N1 & N2 & N3).
    cbn [errors_loop]. rewrite (aget_nth _ _ _ N2), (aget_nth _ _ _ N1), (aget_nth _ _ _ N3). cbn [bind].
    replace (Z.of_nat i + 1) with (Z.of_nat (S i)) by lia.
    destruct x as [ow code a]. cbn [err_owner err_code err_argval] in *. destruct Rx as [CA Rx]. cbn [err_owner err_code err_argval] in *.
    assert (Y : exists o msg, match ow with
           | PEnd => Ok (arg_end_errorfn code a (Some p))
           | PEntry k => match nth_error tab k with None => UB OOBRead | Some en => kerror strftime (e_hdr en) (e_body en) code a (Some p) end
           end = Ok o /\ message strftime p (table_sig tab) (mk_err ow code a) msg /\ gives o msg 64).
    { destruct ow as [|k]; cbn [err_owner] in *.
      - destruct (end_error_ok (table_sig tab) code a CA Rx) as (msg & Mm & Gm). eauto.
      - destruct Rx as (h & k' & Nk & IN). unfold table_sig in Nk. rewrite nth_error_map in Nk.
        destruct (nth_error tab k) as [en|] eqn:Ek; [|discriminate]. injection Nk as <- <-.
        rewrite Forall_forall in T, DT. apply nth_error_In in Ek as Hin.
        destruct (kerror_ok (e_hdr en) (e_body en) code a (T _ Hin) CA (DT _ Hin) IN) as (o & msg & Ee & Me & Ge).
        exists o, msg. split; [exact Ee|]. split; [|exact Ge].
        eapply m_entry; [|exact Me]. unfold table_sig. rewrite nth_error_map, Ek. reflexivity. }
    destruct Y as (o & msg & Eo & Mo & Go). rewrite Eo. cbn [bind]. rewrite E. cbn [bind].
    exists (o ++ os), (msg :: msgs). split; [reflexivity|]. split; [rewrite SK; constructor; assumption|].
    eapply gives_weaken; [exact (gives_app _ _ _ _ _ _ Go G)|lia].
Qed.
End One.

(** ** The errors that a parse records *)
Section Recorded.
Context {D : Type}.
Context (strtod : str -> D * nat).
Context (rexmatch : str -> Z -> str -> res bool).
Context (lm : long_model) (sp : seps).
Notation scan := (kscan strtod rexmatch lm sp).

Lemma apply_suffix_code v e m : fst (apply_suffix v e m) = e \/ fst (apply_suffix v e m) = ARG_ERR_OVERFLOW.
Proof. unfold apply_suffix. destruct (_ || _); auto. Qed.
Lemma int_convert_code s c : int_convert lm s = Ok (inr c) -> c = ARG_ERR_BADINT \/ c = ARG_ERR_OVERFLOW.
Proof.
  unfold int_convert. intros H. apply bind_ok in H as (r & _ & H). destruct r as [[v rest]|]; [|injection H as <-; auto].
  set (e0 := if (INT_MAX <? v) || (v <? INT_MIN) then ARG_ERR_OVERFLOW else 0) in H.
  assert (E0 : e0 = 0 \/ e0 = ARG_ERR_OVERFLOW) by (unfold e0; destruct (_ || _); auto). clearbody e0.
  match type of H with (let '(_, _) := ?x in _) = _ => assert (C : fst x = 0 \/ fst x = ARG_ERR_BADINT \/ fst x = ARG_ERR_OVERFLOW) end.
  { destruct (detectsuffix rest (lit "KB")); [destruct (apply_suffix_code v e0 1024) as [-> | ->]; intuition|].
    destruct (detectsuffix rest (lit "MB")); [destruct (apply_suffix_code v e0 1048576) as [-> | ->]; intuition|].
    destruct (detectsuffix rest (lit "GB")); [destruct (apply_suffix_code v e0 1073741824) as [-> | ->]; intuition|].
    destruct (negb (detectsuffix rest [])); cbn [fst]; intuition. }
  match type of H with (let '(_, _) := ?x in _) = _ => destruct x as [e w] end. cbn [fst] in C.
  destruct (Z.eqb_spec e 0); [discriminate|]. injection H as <-. intuition.
Qed.

Lemma scan_code h b f v b' c : scan h b = Some f -> f v = Ok (b', c) -> sigof b' = sigof b /\ (c = 0 \/ In c (codes (sigof b))).
Proof.
  destruct b as [n|q|q|q|q|q|q|]; cbn [kscan]; intros [= <-]; unfold lift.
  - unfold arg_lit_scanfn. destruct (_ <? _); intros [= <- <-]; cbn; auto.
  - intros H. apply bind_ok in H as ([q' c'] & E & H). injection H as <- <-. cbn [sigof codes]. split; [reflexivity|].
    unfold arg_int_scanfn in E. destruct (int_count q =? h_maxcount h); [injection E as <- <-; cbn; auto 10|].
    destruct v as [s|]; [|injection E as <- <-; auto]. apply bind_ok in E as (r & Er & E). destruct r as [z|z].
    + apply bind_ok in E as (a & _ & E). injection E as <- <-. auto.
    + injection E as <- <-. apply int_convert_code in Er. cbn. intuition.
  - intros H. apply bind_ok in H as ([q' c'] & E & H). injection H as <- <-. cbn [sigof codes]. split; [reflexivity|].
    unfold arg_dbl_scanfn in E. destruct (dbl_count q =? h_maxcount h); [injection E as <- <-; cbn; auto 10|].
    destruct v as [s|]; [|injection E as <- <-; auto]. destruct (strtod s) as [val n]. destruct (_ <? _)%nat; [discriminate|].
    destruct (skipn n s); [apply bind_ok in E as (a & _ & E)|]; injection E as <- <-; cbn; auto 10.
  - intros H. apply bind_ok in H as ([q' c'] & E & H). injection H as <- <-. cbn [sigof codes]. split; [reflexivity|].
    unfold arg_str_scanfn in E. destruct (str_count q =? h_maxcount h); [injection E as <- <-; cbn; auto 10|].
    destruct v as [s|]; [|injection E as <- <-; auto]. apply bind_ok in E as (a & _ & E). injection E as <- <-. auto.
  - intros H. apply bind_ok in H as ([q' c'] & E & H). injection H as <- <-. cbn [sigof codes]. split; [reflexivity|].
    unfold arg_file_scanfn in E. destruct (file_count q =? h_maxcount h); [injection E as <- <-; cbn; auto 10|].
    destruct v as [s|]; [|injection E as <- <-; auto]. apply bind_ok in E as (? & _ & E). apply bind_ok in E as (? & _ & E).
    apply bind_ok in E as (? & _ & E). apply bind_ok in E as (? & _ & E). injection E as <- <-. auto.
  - intros H. apply bind_ok in H as ([q' c'] & E & H). injection H as <- <-. cbn [sigof codes].
    unfold arg_date_scanfn in E. destruct (date_count q =? h_maxcount h); [injection E as <- <-; cbn; auto 10|].
    destruct v as [s|]; [|injection E as <- <-; cbn; auto 10]. apply bind_ok in E as (? & _ & E). apply bind_ok in E as ([t' pend] & _ & E).
    destruct pend as [[|? ?]|]; [apply bind_ok in E as (? & _ & E)|..]; injection E as <- <-; cbn; auto 10.
  - intros H. apply bind_ok in H as ([q' c'] & E & H). injection H as <- <-. cbn [sigof codes]. split; [reflexivity|].
    unfold arg_rex_scanfn in E. destruct (rex_count q =? h_maxcount h); [injection E as <- <-; cbn; auto 10|].
    destruct v as [s|]; [|injection E as <- <-; auto]. apply bind_ok in E as (m & _ & E).
    destruct m; [apply bind_ok in E as (? & _ & E)|]; injection E as <- <-; cbn; auto 10.
Qed.
Lemma check_code h (b : body D) c : kcheck h b = Some c -> c = 0 \/ In c (codes (sigof b)).
Proof.
  destruct b; cbn [kcheck sigof codes]; intros [= <-]; unfold checkfn, arg_int_checkfn; destruct (_ <? _); cbn; auto.
Qed.
Lemma reset_sig h (b b' : body D) : kreset h b = Ok b' -> sigof b' = sigof b.
Proof.
  destruct b; cbn [kreset]; intros H; try (injection H as <-; reflexivity).
  apply bind_ok in H as (q & _ & H). injection H as <-. reflexivity.
Qed.

Lemma ideal_reset_sig (tab : list (entry (body D))) : forall t, ideal_reset kreset tab = Ok t -> table_sig t = table_sig tab.
Proof.
  induction tab as [|e tab IH]; intros t H; cbn in H; [injection H as <-; reflexivity|].
  apply bind_ok in H as (b & Eb & H). apply bind_ok in H as (t' & Et & H). injection H as <-. cbn.
  rewrite (reset_sig _ _ _ Eb). f_equal. apply IH. exact Et.
Qed.

(** Errors of reading. *)
Definition ev_ok (ev : event) : Prop :=
  match ev with
  | EvScan _ v => ocstr v
  | EvErr c v => ocstr v /\ (reserved c \/ exists ch, c = sc ch /\ ch <> NUL)
  end.
Lemma cstr_tl c s : cstr (c :: s) -> cstr s.
Proof. intros H K. apply H. right. exact K. Qed.
Ltac rsv := unfold reserved; cbn [In]; auto 10.
Lemma ev_err c v : ocstr v -> reserved c -> ev_ok (EvErr c v).
Proof. intros V R. split; [exact V|left; exact R]. Qed.
Lemma ev_one ev : ev_ok ev -> Forall ev_ok [ev].
Proof. intros H. constructor; [exact H|constructor]. Qed.
Ltac everr := apply ev_err; [assumption|rsv].
Lemma read_long_ev t a body next : cstr a -> cstr body -> ocstr next -> Forall ev_ok (fst (read_long t a body next)).
Proof.
  intros A B N. unfold read_long. destruct (long_find t (name_part body)) as [[i h]|].
  - assert (V : forall v, value_part body = Some v -> cstr v).
    { intros v. apply (value_part_cstr cstr). exact cstr_tl. exact B. }
    assert (LO : forall v x, ocstr v -> cstr x -> Forall ev_ok (long_occurrence i h v x)).
    { intros v x Hv Hx. unfold long_occurrence. destruct v as [[|c v]|]; try (apply ev_one; exact Hv).
      destruct (h_hasvalue h); [|apply ev_one; exact Hv]. constructor; [everr|apply ev_one; exact Hv]. }
    destruct (long_takes h), (value_part body) as [v|]; cbn [fst];
      try (apply LO; [try exact I; exact (V _ eq_refl)|exact A]); try (apply LO; [exact I|exact A]); try (apply ev_one; everr).
    destruct next as [w|]; cbn [fst]; [apply LO; exact N|apply ev_one; everr].
  - apply ev_one. everr.
Qed.
Lemma read_cluster_ev t a next : cstr a -> ocstr next -> forall cs, cstr cs -> Forall ev_ok (fst (read_cluster t a cs next)).
Proof.
  intros A N. induction cs as [|c cs IH]; intros C; cbn [read_cluster]; [constructor|].
  pose proof (cstr_tl _ _ C) as C'. destruct (ceqb c "-").
  - destruct cs as [|c' cs']; [constructor|]. pose proof (read_long_ev t a (c' :: cs') next A C' N).
    destruct (read_long t a (c' :: cs') next) as [ev u]. auto.
  - destruct (short_find t 0 c) as [[i h]|].
    + destruct (short_takes h).
      * specialize (IH C'). destruct (read_cluster t a cs next) as [ev r]. constructor; cbn; auto.
      * destruct cs; [destruct next|]; cbn [fst]; apply ev_one; [exact N|everr|exact C'].
      * destruct cs; cbn [fst]; apply ev_one; [exact I|exact C'].
    + specialize (IH C'). destruct (read_cluster t a cs next) as [ev r]. constructor; cbn; auto. split; [exact I|].
      right. exists c. split; [reflexivity|]. intros ->. apply C. left. reflexivity.
Qed.
Lemma read_args_ev px t n : forall args, (List.length args <= n)%nat -> Forall cstr args -> Forall ev_ok (fst (read_args px t args)).
Proof.
  induction n; intros args Hn Hc; [destruct args; [constructor|cbn in Hn; lia]|].
  destruct args as [|a rest]; [constructor|]. cbn [read_args]. cbn [List.length] in Hn. inversion_clear Hc as [|? ? Ha Hr].
  destruct (is_positional a).
  - destruct px; [constructor|]. unfold add_positional. cbn [fst]. apply IHn; [lia|exact Hr].
  - destruct (str_eqb a (lit "--")); [constructor|].
    assert (Hnext : ocstr (hd_error rest)) by (destruct Hr; cbn; auto).
    assert (Hta : cstr (tl a)) by (destruct a; [auto|eapply cstr_tl; eauto]).
    pose proof (read_cluster_ev t a (hd_error rest) Ha Hnext (tl a) Hta) as Hcl.
    destruct (read_cluster t a (tl a) (hd_error rest)) as [ev [[|]|]]; cbn [fst] in Hcl.
    + destruct rest as [|v rest']; [exact Hcl|]. inversion_clear Hr. cbn [List.length] in Hn. unfold prepend. cbn [fst].
      apply Forall_app. split; [exact Hcl|]. apply IHn; [lia|assumption].
    + unfold prepend. cbn [fst]. apply Forall_app. split; [exact Hcl|]. apply IHn; [lia|assumption].
    + exact Hcl.
Qed.

(** Errors of the entries. *)
Lemma sig_lupd (tab : list (entry (body D))) : forall i e b, nth_error tab i = Some e -> sigof b = sigof (e_body e) ->
  table_sig (lupd tab i (set_body b e)) = table_sig tab.
Proof.
  induction tab as [|x tab IH]; intros [|i] e b N S; try discriminate; cbn in *.
  - injection N as ->. rewrite S. reflexivity.
  - f_equal. apply IH; assumption.
Qed.
Lemma events_report evs : forall tab errs tab' errs', Forall ev_ok evs -> Forall (reportable (table_sig tab)) errs ->
  ideal_events scan evs (tab, errs) = Ok (tab', errs') -> table_sig tab' = table_sig tab /\ Forall (reportable (table_sig tab)) errs'.
Proof.
  induction evs as [|ev evs IH]; intros tab errs tab' errs' O R H; cbn [ideal_events] in H; [injection H as <- <-; auto|].
  inversion_clear O as [|? ? Oe Oes]. apply bind_ok in H as ([t1 e1] & E & H).
  assert (X : table_sig t1 = table_sig tab /\ Forall (reportable (table_sig tab)) e1).
  { destruct ev as [i v|c v]; cbn [ideal_event ev_ok] in *.
    - destruct (nth_error tab i) as [e|] eqn:N; [|discriminate]. destruct (scan (e_hdr e) (e_body e)) as [f|] eqn:S; [|injection E as <- <-; auto].
      apply bind_ok in E as ([b c] & Ef & E). injection E as <- <-. destruct (scan_code _ _ _ _ _ _ S Ef) as [S1 S2].
      split; [apply sig_lupd; assumption|]. destruct (Z.eqb_spec c 0); [exact R|]. apply Forall_app. split; [exact R|]. constructor; [|constructor].
      split; [exact Oe|]. cbn. exists (e_hdr e), (sigof (e_body e)). unfold table_sig. rewrite nth_error_map, N. split; [reflexivity|]. destruct S2; [contradiction|assumption].
    - injection E as <- <-. split; [reflexivity|]. apply Forall_app. split; [exact R|]. constructor; [|constructor]. exact Oe. }
  destruct X as [X1 X2]. rewrite <- X1 in X2. destruct (IH t1 e1 tab' errs' Oes X2 H) as [Y1 Y2]. rewrite X1 in *. auto.
Qed.

Lemma feed_report (sigs : list (hdr * ksig)) h i : forall args b rej b' l r, nth_error sigs i = Some (h, sigof b) ->
  Forall cstr args -> (forall e, rej = Some e -> reportable sigs e) -> feed scan h i b args rej = Ok (b', l, r) ->
  sigof b' = sigof b /\ Forall cstr l /\ (forall e, r = Some e -> reportable sigs e).
Proof.
  induction args as [|a args IH]; intros b rej b' l r N C R H; cbn [feed] in H; [injection H as <- <- <-; auto|].
  destruct (scan h b) as [f|] eqn:S; [|injection H as <- <- <-; auto].
  apply bind_ok in H as ([b1 c] & Ef & H). destruct (scan_code _ _ _ _ _ _ S Ef) as [S1 S2]. inversion_clear C as [|? ? Ca Cs].
  destruct (Z.eqb_spec c 0).
  - rewrite <- S1 in N |- *. eapply IH; [exact N|exact Cs| |exact H]. discriminate.
  - injection H as <- <- <-. split; [exact S1|]. split; [constructor; assumption|]. intros e [= <-]. split; [exact Ca|]. cbn.
    exists h, (sigof b). split; [exact N|]. destruct S2; [contradiction|assumption].
Qed.
Lemma positional_report sigs : forall todo i args rej t errs, (forall j e, nth_error todo j = Some e -> nth_error sigs (i + j) = Some (e_hdr e, sigof (e_body e))) ->
  Forall cstr args -> (forall e, rej = Some e -> reportable sigs e) -> ideal_positional scan i todo args rej = Ok (t, errs) ->
  table_sig t = table_sig todo /\ Forall (reportable sigs) errs.
Proof.
  assert (U : forall args, Forall cstr args -> Forall (reportable sigs) (map unexpected args)).
  { intros args C. apply Forall_map. eapply Forall_impl; [|exact C]. intros a Ha. split; [exact Ha|]. cbn. left. rsv. }
  induction todo as [|e todo IH]; intros i args rej t errs N C R H; destruct args as [|a args]; cbn [ideal_positional] in H.
  - injection H as <- <-. auto.
  - injection H as <- <-. split; [reflexivity|]. destruct rej as [x|]; [constructor; [auto|]; inversion_clear C; auto|exact (U (a :: args) C)].
  - injection H as <- <-. auto.
  - assert (N' : forall j x, nth_error todo j = Some x -> nth_error sigs (S i + j) = Some (e_hdr x, sigof (e_body x))).
    { intros j x Hj. replace (S i + j)%nat with (i + S j)%nat by lia. apply N. exact Hj. }
    destruct (positional_hdr (e_hdr e)).
    + apply bind_ok in H as ([[b l] r] & Ef & H). apply bind_ok in H as ([t1 er] & Ep & H). injection H as <- <-.
      destruct (feed_report sigs (e_hdr e) i (a :: args) (e_body e) rej b l r) as (S1 & S2 & S3); auto.
      { specialize (N 0%nat e eq_refl). rewrite Nat.add_0_r in N. exact N. }
      destruct (IH (S i) l r t1 er N' S2 S3 Ep) as [T1 T2]. split; [|exact T2].
      cbn. rewrite S1. f_equal. exact T1.
    + apply bind_ok in H as ([t1 er] & Ep & H). injection H as <- <-.
      destruct (IH (S i) (a :: args) rej t1 er N' C R Ep) as [T1 T2]. split; [|exact T2]. cbn. f_equal. exact T1.
Qed.
Lemma check_report sigs : forall (tab : list (entry (body D))) i, (forall j e, nth_error tab j = Some e -> nth_error sigs (i + j) = Some (e_hdr e, sigof (e_body e))) ->
  Forall (reportable sigs) (ideal_check kcheck i tab).
Proof.
  induction tab as [|e tab IH]; intros i N; cbn [ideal_check]; [constructor|]. apply Forall_app. split.
  - destruct (kcheck (e_hdr e) (e_body e)) as [c|] eqn:K; [|constructor]. destruct (Z.eqb_spec c 0); constructor; [|constructor].
    split; [exact I|]. cbn. specialize (N 0%nat e eq_refl). rewrite Nat.add_0_r in N. eexists _, _. split; [exact N|].
    destruct (check_code _ _ _ K); [contradiction|assumption].
  - apply IH. intros j x Hj. replace (S i + j)%nat with (i + S j)%nat by lia. apply N. exact Hj.
Qed.
Lemma sig_nth (tab : list (entry (body D))) : forall j e, nth_error tab j = Some e -> nth_error (table_sig tab) (0 + j) = Some (e_hdr e, sigof (e_body e)).
Proof. intros j e H. unfold table_sig. cbn [Nat.add]. rewrite nth_error_map, H. reflexivity. Qed.

Lemma parse_report posix tab rest evs pos tab' errs : Forall cstr rest ->
  read_args posix (map e_hdr tab) rest = (evs, Finished pos) -> ideal_parse scan kcheck kreset evs pos tab = Ok (tab', errs) ->
  table_sig tab' = table_sig tab /\ Forall (reportable (table_sig tab)) errs.
Proof.
  intros C Hr H. destruct (read_args_carries cstr cstr_tl _ _ _ _ _ C Hr) as [_ Cp].
  pose proof (read_args_ev posix (map e_hdr tab) (List.length rest) rest (le_n _) C) as Oe. rewrite Hr in Oe. cbn [fst] in Oe.
  unfold ideal_parse in H. apply bind_ok in H as (t0 & E0 & H). apply bind_ok in H as ([t1 e1] & E1 & H). apply bind_ok in H as ([t2 e2] & E2 & H).
  apply ideal_reset_sig in E0. destruct (events_report evs t0 [] t1 e1 Oe ltac:(constructor) E1) as [S1 R1].
  destruct (positional_report (table_sig t1) t1 0 pos None t2 e2 (sig_nth t1) Cp ltac:(discriminate) E2) as [S2 R2].
  rewrite S1, E0 in *. injection H as <- <-. split; [exact S2|].
  assert (R : Forall (reportable (table_sig tab)) (e1 ++ e2)) by (apply Forall_app; auto).
  destruct (e1 ++ e2) eqn:E; [|exact R]. rewrite <- S2. apply check_report. apply sig_nth.
Qed.
Lemma parse_empty_report (tab tab' : list (entry (body D))) errs : ideal_parse_empty kcheck kreset tab = Ok (tab', errs) ->
  table_sig tab' = table_sig tab /\ Forall (reportable (table_sig tab)) errs.
Proof.
  unfold ideal_parse_empty. intros H. apply bind_ok in H as (t0 & E0 & H). injection H as <- <-. apply ideal_reset_sig in E0. split; [exact E0|].
  rewrite <- E0. apply check_report. apply sig_nth.
Qed.

Lemma shown_report sigs cap errs : Forall (reportable sigs) errs -> Forall (reportable sigs) (shown cap errs).
Proof.
  intros R. unfold shown. destruct (_ <=? _); [exact R|]. apply Forall_app. split.
  - apply Forall_forall. intros x Hx. rewrite Forall_forall in R. apply R. rewrite <- (firstn_skipn (Z.to_nat (cap - 1)) errs). apply in_or_app. auto.
  - constructor; [|constructor]. split; [exact I|]. cbn. left. rsv.
Qed.
Lemma shown_length cap errs : 1 <= cap -> zlen (shown cap errs) = Z.min cap (zlen errs).
Proof.
  intros C. unfold shown. destruct (Z.leb_spec (zlen errs) cap); [lia|]. rewrite zlen_app, zlen_firstn by lia.
  change (zlen [mk_err PEnd ARG_ELIMIT None]) with 1. lia.
Qed.
End Recorded.
