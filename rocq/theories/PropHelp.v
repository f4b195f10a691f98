(** C46 and C55: the help and error texts of a program with sub-commands. *)
From Coq Require Import ZArith String List Ascii Bool Lia.
From Verif Require Import Base IntModel FileModel DateModel GetoptModel ParseModel ParseSpec GetoptProofs ParseIdeal ParseProofs ParseFacts ParseObserve ArgModel KindsSpec PropKinds.
From Verif Require Import MemModel DstrModel DstrSpec PrintModel PrintSpec PrintProofs PrintFacts PropPrint ErrorSpec ErrorProofs PropErrors.
From Verif Require Import HashModel HashSpec HashProofs CmdModel CmdSpec CmdProofs PropCmd HelpModel.
From Verif Require ExTable.
Import ListNotations.
Open Scope Z_scope.

(** ** The texts *)

(** What is shown of the options: with "|" in the syntax line, with ", " in the list of options. *)
Definition shown_tags (sep : str) (show : hdr -> str) (hs : list hdr) : Prop :=
  forall h, In h hs -> shows (verbose (h_shortopts h) (h_longopts h) (h_datatype h) (h_hasoptvalue h) sep) (show h).

Definition text_line (s : str) : str := s ++ [NL].
Definition usage (module : str) (show : hdr -> str) (hs : list hdr) : str := lit "  " ++ module ++ syntaxv_line show hs ++ [NL].
(** One row: the tags in 23 columns, then the description. *)
Definition option_row (show : hdr -> str) (h : hdr) : str :=
  match h_glossary h with
  | Some g => text_line (lit "  " ++ show h ++ repeat " "%char (23 - List.length (show h)) ++ lit " " ++ g)
  | None => []
  end.
Definition help_text (module cmd : str) (description : option str) (show1 show2 : hdr -> str) (hs : list hdr) : str :=
  match description with Some d => text_line (cmd ++ lit ": " ++ d) | None => [] end ++
  text_line (lit "Usage:") ++ usage module show1 hs ++ text_line (lit " ") ++
  text_line (lit "Available options:") ++ flat_map (option_row show2) hs ++ text_line [].
Definition error_text (module : str) (msgs : list str) (show : hdr -> str) (hs : list hdr) : str :=
  List.concat msgs ++ text_line (lit "Usage: ") ++ usage module show hs ++ text_line [].
Definition greeting (module version : str) : str :=
  text_line (module ++ lit " v" ++ version) ++ text_line (lit "Please type '" ++ module ++ lit " help' to get more information.").

Lemma showv_tags sep hs : cstr sep -> Forall texts_ok hs -> shown_tags sep (showv sep) hs.
Proof. intros S T h H. rewrite Forall_forall in T. apply (showv_ok sep h (T h H) S). Qed.
Lemma cstr_repeat n : cstr (repeat " "%char n).
Proof. intro K. apply repeat_spec in K. discriminate. Qed.
Lemma help_format_good : good_format help_format.
Proof.
  split; [cbn; lia|]. intros s g S G. cbn [help_format gf_text]. unfold pad_right.
  repeat (apply cstr_app; split); auto using cstr_nl, cstr_repeat; clit.
Qed.
Lemma rows_eq show hs : glossary_text (gf_text help_format) show hs = flat_map (option_row show) hs.
Proof.
  unfold glossary_text. induction hs as [|h hs IH]; [reflexivity|]. cbn [flat_map]. rewrite IH. f_equal.
  unfold option_row, text_line. destruct (h_glossary h); [|reflexivity]. cbn [help_format gf_text]. unfold pad_right.
  rewrite <- !app_assoc. reflexivity.
Qed.

(** ** C55: the greeting *)
Theorem C55_get_help : forall module version, cstr module -> cstr version ->
  let out := greeting module version in
  writes (arg_make_get_help_msg module version) out (zlen out + 55).
Proof.
  intros n v N V out.
  assert (G : gives (arg_make_get_help_msg n v) out 55); [|exact (gives_writes _ _ _ _ G (Z.le_refl _))].
  unfold arg_make_get_help_msg. eapply gives_eq.
  - eapply (gives_app [_] [_]); apply catf_nl_gives; cs.
  - unfold out, greeting, text_line. reflexivity.
  - cbn. lia.
Qed.

Section Help.
Context {P C : Type}.
Implicit Types (s : cmds P C) (hist : list (@cop P C)).

(** The description that the registry has for a command. *)
Definition described_as hist (cmd : str) : option str := option_map ci_desc (spec_cops nothing hist cmd).

Lemma help_gives hist module cmd hs rest :
  allowed_cops nothing hist -> cstr module -> cstr cmd -> ocstr (described_as hist cmd) ->
  Forall texts_ok hs -> Forall counts_ok hs ->
  exists s os, do_cops fresh hist = Ok s /\ arg_make_help_msg s module (Some cmd) (table hs SEnd rest) = Ok os /\
    gives os (help_text module cmd (described_as hist cmd) (showv (lit "|")) (showv (lit ", ")) hs) (11 + 11 * zlen hs).
Proof.
  intros AL M CC DC T CT. destruct (history hist AL) as (s & h & t & rows & l & X & G).
  destruct (find_info s _ h t rows l cmd G) as (i & Y & Z).
  destruct (syntaxv_gives hs SEnd rest (Some options_suffix) (or_introl eq_refl) T CT ltac:(cbn [ocstr]; unfold options_suffix; cs)) as [o2 [E2 G2]].
  destruct (glossary_gives hs rest (Some help_format) T ltac:(intros f K; injection K as <-; apply help_format_good)) as [o3 [E3 G3]].
  cbv zeta in G3. rewrite rows_eq in G3. cbn [orempty] in G2.
  assert (FD : zlen (described hs) <= zlen hs).
  { clear. unfold described. induction hs as [|x hs IH]; cbn [filter]; [lia|]. destruct (isome (h_glossary x)); rewrite ?zlen_cons; lia. }
  assert (G1 : exists o1, match i with
            | None => Ok []
            | Some i => x <- sread (w_val (s_mem s)) i ;; Ok [catf_nl "%s: %s" (cmd ++ lit ": " ++ ci_desc x)]
            end = Ok o1 /\ gives o1 (match described_as hist cmd with Some d => text_line (cmd ++ lit ": " ++ d) | None => [] end) 7).
  { destruct i as [i|].
    - destruct Z as (x & E & EE & _). rewrite (sread_ok _ _ _ E). cbn [bind]. eexists. split; [reflexivity|].
      unfold described_as in *. rewrite EE in *. cbn [option_map ocstr] in *. eapply gives_eq; [apply catf_nl_gives; cs|reflexivity|cbn; lia].
    - eexists. split; [reflexivity|]. unfold described_as. rewrite Z. cbn [option_map]. eapply gives_weaken; [apply gives_nil|lia]. }
  destruct G1 as (o1 & E1 & G1).
  exists s. unfold arg_make_help_msg. unfold arg_cmd_info in Y. destruct (table_of s) as [hh| |]; cbn [bind] in *; try discriminate.
  rewrite Y. cbn [bind]. rewrite E1. cbn [bind]. rewrite E2. cbn [bind]. rewrite E3. cbn [bind].
  eexists. split; [exact X|]. split; [reflexivity|]. eapply gives_eq.
  - apply gives_app; [exact G1|]. apply gives_app; [eapply (gives_app [_] [_]); [apply gives_cat; cs|apply catf_gives; cs]|].
    apply gives_app; [exact G2|]. apply gives_app; [exact G3|]. apply gives_cat. cs.
  - unfold help_text, usage, text_line, options_suffix. rewrite <- !app_assoc. reflexivity.
  - cbn [help_format gf_len String.length]. lia.
Qed.

(** ** C55: the help text *)
Theorem C55_help : forall hist module cmd hs rest,
  allowed_cops nothing hist -> cstr module -> cstr cmd -> ocstr (described_as hist cmd) ->
  Forall texts_ok hs -> Forall counts_ok hs ->
  exists s os show1 show2, do_cops fresh hist = Ok s /\ arg_make_help_msg s module (Some cmd) (table hs SEnd rest) = Ok os /\
    shown_tags (lit "|") show1 hs /\ shown_tags (lit ", ") show2 hs /\
    let out := help_text module cmd (described_as hist cmd) show1 show2 hs in writes os out (zlen out + 11 + 11 * zlen hs).
Proof.
  intros hist module cmd hs rest AL M CC DC T CT. destruct (help_gives hist module cmd hs rest AL M CC DC T CT) as (s & os & X & E & G).
  exists s, os, (showv (lit "|")), (showv (lit ", ")). split; [exact X|]. split; [exact E|].
  split; [apply showv_tags; [clit|exact T]|]. split; [apply showv_tags; [clit|exact T]|].
  cbv zeta. eapply gives_writes; [exact G|lia].
Qed.

Context {D : Type} (strftime : str -> tm -> option str).
Implicit Types (tab : list (entry (body D))).
Definition hdrs_of tab : list hdr := map e_hdr tab.

Lemma slots_table tab : slots_of tab = table (hdrs_of tab) SEnd [].
Proof. unfold slots_of, table, hdrs_of. rewrite map_map. reflexivity. Qed.

(** A table and its error record that can be reported (as in C43). *)
Record reportable_errors tab (e : arg_end) : Prop := {
  re_dates : Forall (fun en => date_ok strftime (sigof (e_body en))) tab;
  re_count : zlen (recorded e) = end_count e;
  re_errors : Forall (reportable (table_sig tab)) (recorded e)
}.

Lemma error_gives module tab e : cstr module -> Forall texts_ok (hdrs_of tab) -> Forall counts_ok (hdrs_of tab) -> reportable_errors tab e ->
  exists os msgs, arg_make_syntax_err_msg strftime module tab e = Ok os /\
    Forall2 (message strftime module (table_sig tab)) (recorded e) msgs /\
    gives os (error_text module msgs (showv (lit "|")) (hdrs_of tab)) (4 + 64 * end_count e).
Proof.
  intros M T CT [DT L R].
  assert (TT : Forall (fun en => texts_ok (e_hdr en)) tab) by (unfold hdrs_of in T; rewrite Forall_map in T; exact T).
  destruct (loop_gives strftime module M tab e TT DT (List.length (recorded e)) 0 eq_refl R) as (o1 & msgs & E1 & F & G1).
  destruct (syntaxv_gives (hdrs_of tab) SEnd [] (Some [NL]) (or_introl eq_refl) T CT cstr_nl) as [o2 [E2 G2]]. cbn [orempty] in G2.
  assert (E0 : arg_print_errors_ds strftime tab e (Some module) = Ok o1).
  { unfold arg_print_errors_ds. rewrite <- L. unfold zlen. rewrite Nat2Z.id. exact E1. }
  unfold arg_make_syntax_err_msg. rewrite slots_table, E2, E0. cbn [bind]. eexists _, msgs. split; [reflexivity|]. split; [exact F|]. eapply gives_eq.
  - apply gives_app; [exact G1|]. apply gives_app; [eapply (gives_app [_] [_]); [apply gives_cat; cs|apply catf_gives; cs]|].
    apply gives_app; [exact G2|]. apply gives_cat. cs.
  - unfold error_text, usage, text_line. rewrite <- !app_assoc. reflexivity.
  - rewrite <- L. unfold zlen. cbn [String.length]. lia.
Qed.

(** ** C55: the error text *)
Theorem C55_errors : forall module tab e,
  cstr module -> Forall texts_ok (hdrs_of tab) -> Forall counts_ok (hdrs_of tab) -> reportable_errors tab e ->
  exists os msgs show, arg_make_syntax_err_msg strftime module tab e = Ok os /\
    Forall2 (message strftime module (table_sig tab)) (recorded e) msgs /\ shown_tags (lit "|") show (hdrs_of tab) /\
    let out := error_text module msgs show (hdrs_of tab) in writes os out (zlen out + 4 + 64 * end_count e).
Proof.
  intros module tab e M T CT RE. destruct (error_gives module tab e M T CT RE) as (os & msgs & E & F & G).
  exists os, msgs, (showv (lit "|")). split; [exact E|]. split; [exact F|]. split; [apply showv_tags; [clit|exact T]|].
  cbv zeta. eapply gives_writes; [exact G|lia].
Qed.

(** ** C46: help comes before errors, and errors before nothing *)
Theorem C46_precedence : forall hist module cmd help nerrors tab e exitcode,
  allowed_cops nothing hist -> cstr module -> cstr cmd -> ocstr (described_as hist cmd) ->
  Forall texts_ok (hdrs_of tab) -> Forall counts_ok (hdrs_of tab) -> reportable_errors tab e ->
  exists s os code ret show1 show2 msgs,
    do_cops fresh hist = Ok s /\
    arg_make_syntax_err_help_msg strftime s module (Some cmd) help nerrors tab e exitcode = Ok (os, code, ret) /\
    shown_tags (lit "|") show1 (hdrs_of tab) /\ shown_tags (lit ", ") show2 (hdrs_of tab) /\
    Forall2 (message strftime module (table_sig tab)) (recorded e) msgs /\
    (0 < help -> code = 0 /\ ret = 1 /\
       let out := help_text module cmd (described_as hist cmd) show1 show2 (hdrs_of tab) in
       writes os out (zlen out + 11 + 11 * zlen tab)) /\
    (help <= 0 -> 0 < nerrors -> code = 1 /\ ret = 1 /\
       let out := error_text module msgs show1 (hdrs_of tab) in writes os out (zlen out + 4 + 64 * end_count e)) /\
    (help <= 0 -> nerrors <= 0 -> code = exitcode /\ ret = 0 /\ writes os [] 0).
Proof.
  intros hist module cmd help nerrors tab e exitcode AL M CC DC T CT RE.
  destruct (help_gives hist module cmd (hdrs_of tab) [] AL M CC DC T CT) as (s & os & X & E & G).
  destruct (error_gives module tab e M T CT RE) as (os2 & msgs & E2 & F & G2).
  assert (LZ : zlen (hdrs_of tab) = zlen tab) by (unfold zlen, hdrs_of; rewrite map_length; reflexivity).
  assert (S1 : shown_tags (lit "|") (showv (lit "|")) (hdrs_of tab)) by (apply showv_tags; [clit|exact T]).
  assert (S2 : shown_tags (lit ", ") (showv (lit ", ")) (hdrs_of tab)) by (apply showv_tags; [clit|exact T]).
  exists s. unfold arg_make_syntax_err_help_msg. rewrite slots_table, E, E2. cbn [bind].
  destruct (Z.ltb_spec 0 help) as [H|H]; [|destruct (Z.ltb_spec 0 nerrors) as [N|N]].
  - exists os, 0, 1, (showv (lit "|")), (showv (lit ", ")), msgs. split; [exact X|]. split; [reflexivity|]. split; [exact S1|]. split; [exact S2|].
    split; [exact F|]. split; [|split; lia]. intros _. split; [reflexivity|]. split; [reflexivity|]. cbv zeta. eapply gives_writes; [exact G|lia].
  - exists os2, 1, 1, (showv (lit "|")), (showv (lit ", ")), msgs. split; [exact X|]. split; [reflexivity|]. split; [exact S1|]. split; [exact S2|].
    split; [exact F|]. split; [lia|]. split; [|lia]. intros _ _. split; [reflexivity|]. split; [reflexivity|]. cbv zeta. eapply gives_writes; [exact G2|lia].
  - exists [], exitcode, 0, (showv (lit "|")), (showv (lit ", ")), msgs. split; [exact X|]. split; [reflexivity|]. split; [exact S1|]. split; [exact S2|].
    split; [exact F|]. split; [lia|]. split; [lia|]. intros _ _. split; [reflexivity|]. split; [reflexivity|]. eapply gives_writes; [exact gives_nil|cbn; lia].
Qed.
End Help.

(** ** After a parse: the usual calls *)
Section Parse.
Context {P C D : Type}.
Context (strtod : str -> D * nat).
Context (rexmatch : str -> Z -> str -> res bool).
Context (lm : long_model) (sp : seps).
Context (strftime : str -> tm -> option str).
Notation parse := (karg_parse strtod rexmatch lm sp).

Lemma hdrs_sig (t t' : list (entry (body D))) : table_sig t' = table_sig t -> hdrs_of t' = hdrs_of t.
Proof.
  intro E. assert (X : forall l : list (entry (body D)), hdrs_of l = map fst (table_sig l)).
  { intro l. unfold hdrs_of, table_sig. rewrite map_map. reflexivity. }
  rewrite !X, E. reflexivity.
Qed.

(** With the result of arg_parse as the number of errors the error text is written exactly if errors were recorded. *)
Theorem C46_after_parse :
  forall ints posix cap tab rest jo jc jp fuel argv h s en a0 h' s' tab' en' (hist : list (@cop P C)) module cmd help exitcode,
  strtod_contract strtod ->
  reached strtod rexmatch lm sp ints tab -> call cap tab en h argv a0 rest fuel -> Forall (safe_value lm ints) rest ->
  parse posix jo jc jp fuel (zlen (a0 :: rest)) argv h s tab en = Ok (h', s', tab', en') ->
  allowed_cops nothing hist -> cstr module -> cstr cmd -> ocstr (described_as hist cmd) ->
  Forall texts_ok (hdrs_of tab) -> Forall counts_ok (hdrs_of tab) -> Forall (fun e => date_ok strftime (sigof (e_body e))) tab ->
  exists r os code ret show1 show2 msgs,
    do_cops fresh hist = Ok r /\
    arg_make_syntax_err_help_msg strftime r module (Some cmd) help (end_count en') tab' en' exitcode = Ok (os, code, ret) /\
    shown_tags (lit "|") show1 (hdrs_of tab) /\ shown_tags (lit ", ") show2 (hdrs_of tab) /\
    Forall2 (message strftime module (table_sig tab)) (recorded en') msgs /\
    (0 < help -> code = 0 /\ ret = 1 /\
       let out := help_text module cmd (described_as hist cmd) show1 show2 (hdrs_of tab) in
       writes os out (zlen out + 11 + 11 * zlen tab)) /\
    (help <= 0 -> recorded en' <> [] -> code = 1 /\ ret = 1 /\
       let out := error_text module msgs show1 (hdrs_of tab) in writes os out (zlen out + 4 + 64 * end_count en')) /\
    (help <= 0 -> recorded en' = [] -> code = exitcode /\ ret = 0 /\ writes os [] 0).
Proof.
  intros ints posix cap tab rest jo jc jp fuel argv h s en a0 h' s' tab' en' hist module cmd help exitcode Hd Ht Hc Hv Hp AL M CC DC T CT DT.
  apply (reached_ready strtod rexmatch lm sp Hd) in Ht.
  destruct (parse_ok_safe strtod rexmatch lm sp Hd _ _ _ _ _ _ _ _ _ _ _ _ _ _ _ _ _ _ Ht Hc Hv Hp) as (evs & pos & errs & Er & Ei & E1 & E2 & _ & _).
  destruct (parse_report strtod rexmatch lm sp posix tab rest evs pos tab' errs) as [S R]; auto.
  { eapply Forall_impl; [|exact Hv]. intros x Hx. exact (proj1 Hx). }
  assert (C1 : 1 <= cap) by exact (proj1 (c_end _ _ _ _ _ _ _ _ Hc)).
  assert (HS := hdrs_sig tab tab' S). assert (LT : zlen tab' = zlen tab).
  { assert (X := f_equal (@List.length _) HS). unfold hdrs_of in X. rewrite !map_length in X. unfold zlen. lia. }
  assert (L : zlen (recorded en') = end_count en') by (rewrite E1, E2; apply shown_length; exact C1).
  destruct (@C46_precedence P C D strftime hist module cmd help (end_count en') tab' en' exitcode AL M CC DC) as (r & os & code & ret & s1 & s2 & msgs & X1 & X2 & X3 & X4 & X5 & X6 & X7 & X8).
  - rewrite HS. exact T.
  - rewrite HS. exact CT.
  - constructor.
    + apply (sig_forall (fun _ k => date_ok strftime k) tab); [exact S|exact DT].
    + exact L.
    + rewrite E2. rewrite S. apply shown_report. exact R.
  - exists r, os, code, ret, s1, s2, msgs. rewrite HS, LT, S in *. split; [exact X1|]. split; [exact X2|]. split; [exact X3|]. split; [exact X4|].
    split; [exact X5|]. split; [exact X6|]. split.
    + intros H N. apply X7; [exact H|]. rewrite <- L. destruct (recorded en'); [congruence|]. rewrite zlen_cons. pose proof (zlen_nonneg l). lia.
    + intros H N. apply X8; [exact H|]. rewrite <- L, N. cbn. lia.
Qed.
End Parse.

(** ** Examples *)
Definition ex_hist : list (@cop Z Z) := [Reg (Own (lit "list")) (Some 1) (Own (lit "list all")) 5; Reg (Own (lit "add")) None (Own (lit "add one")) 6; Unreg (Own (lit "add"))].
Definition ex_help : str :=
  lit "list: list all" ++ [NL] ++ lit "Usage:" ++ [NL] ++ lit "  prog [-h|--help] [-n <int>]" ++ [NL] ++ lit " " ++ [NL] ++
  lit "Available options:" ++ [NL] ++ lit "  -h, --help              show this help" ++ [NL] ++ [NL].
Definition ex_hdrs : list hdr :=
  [mk false false (Some "h"%string) (Some "help"%string) None 0 1 (Some "show this help"%string); mk true false (Some "n"%string) None (Some "<int>"%string) 0 1 None].
Example C55_help_example : exists s os m, do_cops fresh ex_hist = Ok s /\
  arg_make_help_msg s (lit "prog") (Some (lit "list")) (table ex_hdrs SEnd []) = Ok os /\
  print_to (fun _ => NUL) false os = Ok (ex_help, m).
Proof.
  eexists _, _, _. split; [vm_compute; reflexivity|]. split; [vm_compute; reflexivity|]. vm_compute. reflexivity.
Qed.
Example C55_help_hypotheses : allowed_cops nothing ex_hist /\ cstr (lit "prog") /\ described_as ex_hist (lit "list") = Some (lit "list all") /\
  described_as ex_hist (lit "add") = None /\ Forall texts_ok ex_hdrs /\ Forall counts_ok ex_hdrs.
Proof.
  split. { cbn [ex_hist allowed_cops allowed_cop registered not_into meant]. repeat split; vm_compute; reflexivity. }
  split; [clit|]. split; [vm_compute; reflexivity|]. split; [vm_compute; reflexivity|].
  split; [repeat (constructor; [apply textsb_ok; reflexivity|]); constructor|].
  repeat (constructor; [unfold counts_ok, INT_MAX; cbn; lia|]). constructor.
Qed.
Definition ex_error : str :=
  ex_text ++ lit "Usage: " ++ [NL] ++ lit "  prog -v|--verbose [-n|--num=<int>] [-n|--num=<int>] [-d %x] <string> [<string>]" ++ [NL] ++ [NL].
Example C46_example : exists s os1 os2 m1 m2, do_cops fresh ex_hist = Ok s /\
  arg_make_syntax_err_help_msg ex_strftime s (lit "prog") (Some (lit "list")) 0 6 ex_tab ex_end 9 = Ok (os1, 1, 1) /\
  print_to (fun _ => NUL) false os1 = Ok (ex_error, m1) /\
  arg_make_syntax_err_help_msg ex_strftime s (lit "prog") (Some (lit "nope")) 1 6 ex_tab ex_end 9 = Ok (os2, 0, 1) /\
  print_to (fun _ => NUL) false os2 = Ok (lit "Usage:" ++ [NL] ++ lit "  prog -v|--verbose [-n|--num=<int>] [-n|--num=<int>] [-d %x] <string> [<string>]" ++ [NL] ++
    lit " " ++ [NL] ++ lit "Available options:" ++ [NL; NL], m2) /\
  arg_make_syntax_err_help_msg ex_strftime s (lit "prog") (Some (lit "list")) 0 0 ex_tab ex_end 9 = Ok ([], 9, 0).
Proof.
  eexists _, _, _, _, _. split; [vm_compute; reflexivity|]. split; [vm_compute; reflexivity|]. split; [vm_compute; reflexivity|].
  split; [vm_compute; reflexivity|]. split; [vm_compute; reflexivity|]. vm_compute. reflexivity.
Qed.
Example C46_hypotheses : reportable_errors ex_strftime ex_tab ex_end.
Proof. constructor; apply C43_hypotheses. Qed.

(** ** Before arg_cmd_init, or without a command name, the help text cannot be made: a NULL pointer is followed. *)
Theorem C55_not_initialised_refuted : forall module cmd t, arg_make_help_msg (@cmds0 Z Z) module cmd t = UB NullDeref.
Proof. reflexivity. Qed.
Theorem C55_no_command_refuted : forall module t, arg_make_help_msg (@fresh Z Z) module None t = UB NullDeref.
Proof. reflexivity. Qed.

Print Assumptions C55_get_help.
Print Assumptions C55_help.
Print Assumptions C55_errors.
Print Assumptions C46_precedence.
Print Assumptions C46_after_parse.
Print Assumptions C55_not_initialised_refuted.
Print Assumptions C55_no_command_refuted.
