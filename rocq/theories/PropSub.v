(** C92: programs with sub-commands. Whatever has been registered, unregistered and answered before, a command line is answered as
    the registrations in force and its own words say. *)
From Verif Require Import Base IntModel IntSpec IntProofs FileModel FileSpec DateModel DateSpec GetoptModel ParseModel ParseSpec GetoptProofs ParseIdeal ParseProofs ParseFacts ParseObserve ParseSafe ParseLemmas ArgModel KindsSpec KindsProofs PropKinds CommandSpec CommandProofs PropCommand ReportSpec ReportProofs PropReport.
From Verif Require Import MemModel DstrModel DstrSpec PrintModel PrintProofs PrintFacts ErrorSpec ErrorProofs PropErrors HashModel HashSpec HashProofs CmdModel CmdSpec CmdProofs PropCmd ProgramModel PropProgram HelpModel SubModel SubSpec.
From Verif Require PrintSpec PropPrint PropTable TableModel PropHelp ExTable.
From Coq Require Import ZArith List Ascii String Bool Lia.
Import ListNotations.
Open Scope Z_scope.

Section Sub.
Context {D C : Type}.
Context (strtod : str -> D * nat).
Context (rexmatch : str -> Z -> str -> res bool).
Context (sp : seps).
Context (strftime : str -> tm -> option str).
Context (module version : str) (posix : bool).
Notation lm := Long64.
Notation table := (list (entry (body D))).
Notation command := (command D C).
Notation answers := (answers strtod rexmatch sp strftime module version posix).
Notation good_line := (good_line strtod rexmatch sp strftime module posix).
Notation good_session := (good_session strtod rexmatch sp strftime module posix).
Notation gives_answers := (gives_answers strtod rexmatch sp strftime module version posix).
Notation answer := (answer strtod rexmatch lm sp strftime).
Notation respond := (respond strtod rexmatch lm sp strftime).
Notation session := (session strtod rexmatch lm sp strftime).
Notation report := (report strtod rexmatch lm sp).
Hypothesis Hd : strtod_contract strtod.
Hypothesis Hm : cstr module.
Hypothesis Hv : cstr version.
Hypothesis Lm : zlen module <= 1000.
Hypothesis Lv : zlen version <= 1000.

Lemma messages_bound p (tab : table) rest evs pos held errs msgs : zlen p <= 1000 -> (forall a, In a rest -> zlen a <= 20000000) -> dates_fit strftime (table_sig tab) ->
  reading (map e_hdr tab) posix rest evs pos -> report tab evs pos held errs ->
  Forall2 (message strftime p (table_sig tab)) (shown 20 errs) msgs -> zlen (List.concat msgs) <= 400028000.
Proof.
  intros Hn Ha Hs Hrd Hr M. destruct (reading_fit 20000000 ltac:(lia) _ _ _ _ _ Hrd) as [F1 F2]; [apply Forall_forall; exact Ha|].
  pose proof (report_fit strtod rexmatch sp 20000000 ltac:(lia) tab evs pos held errs F1 F2 Hr) as Fe.
  assert (Fs : Forall (fun e => zlen (orempty (err_argval e)) <= 20000000) (shown 20 errs) /\ zlen (shown 20 errs) <= 20).
  { unfold shown. destruct (Z.leb_spec (zlen errs) 20); [split; auto|]. split.
    - apply Forall_app. split; [apply Forall_forall; intros e He; rewrite Forall_forall in Fe; apply Fe; rewrite <- (firstn_skipn (Z.to_nat (20 - 1)) errs); apply in_app_iff; left; exact He|constructor; [cbn; lia|constructor]].
    - rewrite zlen_app. unfold zlen at 1. rewrite firstn_length. change (zlen [mk_err PEnd ARG_ELIMIT None]) with 1. lia. }
  destruct Fs as [Fs Ls]. assert (H : zlen (List.concat msgs) <= 20001400 * zlen (shown 20 errs)); [|lia].
  clear Ls Fe Hr. induction M as [|e msg es msgs M1 M IH]; [cbn; lia|]. inversion_clear Fs. cbn [List.concat]. rewrite zlen_app, zlen_cons.
  pose proof (message_fit strftime _ _ _ _ Hs M1). specialize (IH ltac:(assumption)). lia.
Qed.

Lemma greeting_prints junk legacy : exists m, print_to junk legacy (arg_make_get_help_msg module version) = Ok (PropHelp.greeting module version, m) /\ forall b, mget m b = None.
Proof.
  destruct (PropHelp.C55_get_help module version Hm Hv) as [W _]. apply W.
  unfold PropHelp.greeting, PropHelp.text_line. rewrite !zlen_app. repeat match goal with |- context [zlen (lit ?s)] => let n := eval vm_compute in (zlen (lit s)) in change (zlen (lit s)) with n end.
  change (zlen [NL]) with 1. lia.
Qed.

(** What is written prints as [t], with whatever is in fresh memory, and is released. *)
Definition prints (os : list op) (t : str) : Prop := forall junk legacy, exists m, print_to junk legacy os = Ok (t, m) /\ forall b, mget m b = None.

Lemma responds : forall (hist : list (@cop command C)) l s, allowed_cops nothing hist -> good_line (spec_cops nothing hist) l ->
  exists r os code blocks s' t, do_cops fresh hist = Ok r /\ respond r module version posix s l = Ok (os, code, blocks, s') /\ prints os t /\
    answers (spec_cops nothing hist) (l_words l) t code /\ forall b, blocks b = None.
Proof.
  intros hist l s AL Hl. destruct (history hist AL) as (r & hh & t & rows & lst & X & G). exists r. set (e := spec_cops nothing hist) in *.
  assert (Gp : prints (arg_make_get_help_msg module version) (PropHelp.greeting module version)) by (intros junk legacy; apply greeting_prints).
  unfold SubModel.respond, SubSpec.good_line in *. destruct (l_words l) as [|n rest] eqn:El.
  { do 5 eexists. split; [exact X|]. split; [reflexivity|]. split; [exact Gp|]. split; [apply greets; exact I|reflexivity]. }
  destruct (find_info r _ hh t rows lst n G) as (j & Y & Z0). rewrite Y. fold e in Z0. cbn [bind].
  destruct j as [j|]; [|do 5 eexists; split; [exact X|]; split; [reflexivity|]; split; [exact Gp|]; split; [apply greets; exact Z0|reflexivity]].
  destruct Z0 as (i & E1 & E2 & _). destruct (Hl i E2) as (k & ints & evs & pos & Ek & GC & Ab & Ht & Hc & Hs & Hlen & Hrd).
  unfold arg_cmd_dispatch. rewrite Y. cbn [bind]. rewrite (sread_ok _ _ _ E1). cbn [bind]. rewrite Ek. cbn [bind].
  destruct GC as [Cn Cd Sh Tx Ct Dt Df [Sm1 Sm2]]. set (tab := k_table k) in *. set (hs := map e_hdr tab) in *.
  destruct (C61_report strtod rexmatch sp Hd ints posix 20 tab rest (l_opts l) (l_chars l) (l_ptrs l) (l_fuel l) (l_argv l) (l_heap l) s (l_end l) n evs pos Ht Hc Hs Hrd)
    as (h' & s' & tab' & en' & held & errs & Ep & Hr & Hh & Ec & Er).
  destruct (switch_count strtod rexmatch sp tab _ evs pos held errs tab' Sh Hr Hh) as (nh & Ch & Ph & Zh).
  destruct (free_ok (List.length tab)) as (mb & tb & Ef & Hb).
  assert (Hsig : table_sig tab' = table_sig tab).
  { pose proof (reached_ready strtod rexmatch lm sp Hd _ _ Ht) as Hrdy. destruct (parse_ok_safe strtod rexmatch lm sp Hd _ _ _ _ _ _ _ _ _ _ _ _ _ _ _ _ _ _ Hrdy Hc Hs Ep) as (ev2 & p2 & er2 & Er2 & Ei2 & _).
    apply (parse_report strtod rexmatch lm sp posix tab rest ev2 p2 tab' er2); auto. eapply Forall_impl; [|exact Hs]. intros x Hx. exact (proj1 Hx). }
  assert (HS : PropHelp.hdrs_of tab' = hs) by (apply PropHelp.hdrs_sig; exact Hsig).
  assert (Tx' : Forall PrintSpec.texts_ok hs) by (apply Forall_map; exact Tx).
  assert (Ct' : Forall PrintSpec.counts_ok hs) by (apply Forall_map; exact Ct).
  assert (De : PropHelp.described_as hist n = Some (ci_desc i)) by (unfold PropHelp.described_as; fold e; rewrite E2; reflexivity).
  assert (Main : forall os code,
    (x <- arg_make_syntax_err_help_msg strftime r module (Some n) nh (end_count en') tab' en' EXIT_SUCCESS ;;
     let '(os, exitcode, ret) := x in if ret =? 0 then '(t, code) <- k_work k (ci_ctx i) (zlen (n :: rest)) tab' ;; Ok (os ++ [OCat t], code) else Ok (os, exitcode)) = Ok (os, code) ->
    (exists t, prints os t /\ answers e (n :: rest) t code) ->
    exists os code blocks s' t, do_cops fresh hist = Ok r /\ procedure strtod rexmatch lm sp strftime r module n posix s k l (ci_ctx i) = Ok (os, code, blocks, s') /\ prints os t /\
      answers e (n :: rest) t code /\ forall b, blocks b = None).
  { intros os code Ea (t1 & P1 & An). unfold procedure. rewrite El. fold tab. rewrite Ep. cbn [bind]. rewrite Ch. cbn [bind].
    destruct (arg_make_syntax_err_help_msg strftime r module (Some n) nh (end_count en') tab' en' EXIT_SUCCESS) as [[[o1 c1] r1]| |]; cbn [bind] in Ea |- *; try discriminate.
    rewrite Ea. cbn [bind]. rewrite Ef. cbn [bind]. do 5 eexists. split; [exact X|]. split; [reflexivity|]. split; [exact P1|]. split; [exact An|exact Hb]. }
  unfold arg_make_syntax_err_help_msg in Main. rewrite PropHelp.slots_table, HS in Main.
  destruct (Z.ltb_spec 0 nh) as [Hn|Hn].
  - destruct (PropHelp.help_gives hist module n hs [] AL Hm Cn) as (r2 & os & X2 & Eo & Go); [rewrite De; exact Cd|exact Tx'|exact Ct'|].
    rewrite X in X2. injection X2 as <-. rewrite Eo in Main. cbn [bind] in Main. change (1 =? 0) with false in Main. cbv iota in Main.
    apply (Main _ _ eq_refl). rewrite De in Go. destruct (gives_writes _ _ _ _ Go (Z.le_refl _)) as [W _].
    eexists. split; [intros junk legacy; apply W; unfold small in Sm1; lia|]. apply (helps _ _ _ _ _ _ _ e n rest i k evs pos (PropPrint.showv (lit "|")) (PropPrint.showv (lit ", "))); auto.
    + intros K. apply Zh in K. lia.
    + apply PropHelp.showv_tags; [clit|exact Tx'].
    + apply PropHelp.showv_tags; [clit|exact Tx'].
  - assert (Oh : occurrences (k_help k) evs = []) by (apply Zh; lia).
    destruct (Z.ltb_spec 0 (end_count en')) as [He|He].
    + assert (RE : PropHelp.reportable_errors strftime tab' en').
      { constructor.
        - apply (sig_forall (fun _ k => date_ok strftime k) tab); [exact Hsig|exact Dt].
        - rewrite Ec, Er. apply shown_length. lia.
        - pose proof (reached_ready strtod rexmatch lm sp Hd _ _ Ht) as Hrdy. destruct (parse_ok_safe strtod rexmatch lm sp Hd _ _ _ _ _ _ _ _ _ _ _ _ _ _ _ _ _ _ Hrdy Hc Hs Ep) as (ev2 & p2 & er2 & Er2 & Ei2 & _ & E4 & _).
          rewrite E4, Hsig. apply shown_report. apply (parse_report strtod rexmatch lm sp posix tab rest ev2 p2 tab' er2); auto. eapply Forall_impl; [|exact Hs]. intros x Hx. exact (proj1 Hx). }
      destruct (PropHelp.error_gives strftime module tab' en' Hm) as (os & msgs & Eo & F & Go); [rewrite HS; exact Tx'|rewrite HS; exact Ct'|exact RE|].
      rewrite Eo in Main. cbn [bind] in Main. change (1 =? 0) with false in Main. cbv iota in Main. apply (Main _ _ eq_refl).
      rewrite HS in Go. rewrite Hsig, Er in F. pose proof (messages_bound module tab rest evs pos held errs msgs Lm Hlen Df Hrd Hr F) as B.
      assert (Lc : end_count en' <= 20) by (rewrite Ec; lia).
      destruct (gives_writes _ _ _ _ Go (Z.le_refl _)) as [W _]. eexists. split.
      { intros junk legacy. apply W. unfold PropHelp.error_text in *. cbn [List.concat app] in Sm2. rewrite zlen_app. lia. }
      apply (complains_ _ _ _ _ _ _ _ e n rest i k evs pos held errs msgs (PropPrint.showv (lit "|"))); auto.
      * intros ->. change (zlen (@nil err)) with 0 in Ec. lia.
      * apply PropHelp.showv_tags; [clit|exact Tx'].
    + cbn [bind] in Main. change (0 =? 0) with true in Main. cbv iota in Main.
      assert (Hz : end_count en' = 0) by (pose proof (zlen_nonneg errs); lia).
      destruct (proj1 (C59_accepted_iff strtod rexmatch sp Hd ints posix 20 tab rest (l_opts l) (l_chars l) (l_ptrs l) (l_fuel l) (l_argv l) (l_heap l) s (l_end l) n Ht Hc Hs)) as (os & pos' & runs & Hsp & Hsh); [exists h', s', tab', en'; auto|].
      destruct (C59_accepted_values strtod rexmatch sp Hd ints posix 20 tab rest (l_opts l) (l_chars l) (l_ptrs l) (l_fuel l) (l_argv l) (l_heap l) s (l_end l) n os pos' runs Ht Hc Hs Hsp Hsh) as (h2 & s2 & t2 & en2 & Ep2 & _ & Hval).
      rewrite Ep in Ep2. injection Ep2 as <- <- <- <-.
      assert (Ev : evs = evs_of os).
      { apply spells_iff in Hsp. apply reading_iff in Hrd. fold hs in Hsp. rewrite Hsp in Hrd. congruence. }
      rewrite Ev, given_evs in Oh. destruct (Ab os pos' runs tab' Hsp Oh Hsh (conj Hsig Hval)) as (out & code & Ew & Co & So).
      rewrite Ew in Main. cbn [bind] in Main. apply (Main _ _ eq_refl). exists out. cbn [app]. split.
      * destruct (gives_writes _ _ _ (zlen out) (gives_cat out Co) ltac:(lia)) as [W _]. intros junk legacy. apply W. exact So.
      * apply (does _ _ _ _ _ _ _ e n rest i k os pos' runs tab' out code); auto. split; auto.
Qed.

(** One line, after any allowed history of registrations and whatever the scanner did before. *)
Theorem C92_line : forall (hist : list (@cop command C)) l legacy s,
  allowed_cops nothing hist -> good_line (spec_cops nothing hist) l ->
  exists r o s', do_cops fresh hist = Ok r /\ answer r module version posix legacy s l = Ok (o, s') /\
    answers (spec_cops nothing hist) (l_words l) (o_text o) (o_code o) /\ clean o.
Proof.
  intros hist l legacy s AL Hl. destruct (responds hist l s AL Hl) as (r & os & code & blocks & s' & t & X & E & P & An & B).
  destruct (P (l_junk l) legacy) as (m & Pm & N). exists r. do 2 eexists. split; [exact X|]. unfold SubModel.answer. rewrite E. cbn [bind]. rewrite Pm. cbn [bind].
  split; [reflexivity|]. split; [exact An|]. split; [exact B|]. cbn [o_left]. constructor; auto.
Qed.

(** The same words get the same answer, whatever was answered before and whatever is in memory. *)
Lemma loop_same (tab : table) p e1 e2 : recorded e1 = recorded e2 -> forall n i, (i + n <= List.length (recorded e1))%nat ->
  errors_loop strftime n tab e1 (Z.of_nat i) p = errors_loop strftime n tab e2 (Z.of_nat i) p.
Proof.
  intros R. induction n as [|n IH]; intros i L; [reflexivity|].
  destruct (nth_error (recorded e1) i) as [x|] eqn:N; [|apply nth_error_None in N; lia]. assert (N' := N). rewrite R in N'.
  unfold recorded in N, N'. apply nth_firstn in N, N'. apply aget_zip in N as (N1 & N2 & N3). apply aget_zip in N' as (M1 & M2 & M3).
  cbn [errors_loop]. rewrite (aget_nth _ _ _ N2), (aget_nth _ _ _ N1), (aget_nth _ _ _ N3), (aget_nth _ _ _ M2), (aget_nth _ _ _ M1), (aget_nth _ _ _ M3). cbn [bind].
  replace (Z.of_nat i + 1) with (Z.of_nat (S i)) by lia. rewrite (IH (S i)) by lia. reflexivity.
Qed.
Lemma procedure_same (r : cmds command C) n k (i : C) rest ints l1 l2 s1 s2 os1 c1 b1 t1 os2 c2 b2 t2 :
  l_words l1 = n :: rest -> l_words l2 = n :: rest -> reached strtod rexmatch lm sp ints (k_table k) -> Forall (safe_value lm ints) rest ->
  call 20 (k_table k) (l_end l1) (l_heap l1) (l_argv l1) n rest (l_fuel l1) -> call 20 (k_table k) (l_end l2) (l_heap l2) (l_argv l2) n rest (l_fuel l2) ->
  procedure strtod rexmatch lm sp strftime r module n posix s1 k l1 i = Ok (os1, c1, b1, t1) ->
  procedure strtod rexmatch lm sp strftime r module n posix s2 k l2 i = Ok (os2, c2, b2, t2) -> os1 = os2 /\ c1 = c2.
Proof.
  intros W1 W2 Ht Hs C1 C2 P1 P2. unfold procedure in P1, P2. rewrite W1 in P1. rewrite W2 in P2.
  apply bind_ok in P1 as ([[[h1 g1] tab1] en1] & K1 & P1). apply bind_ok in P2 as ([[[h2 g2] tab2] en2] & K2 & P2).
  pose proof (reached_ready strtod rexmatch lm sp Hd _ _ Ht) as Hrdy.
  destruct (parse_ok_safe strtod rexmatch lm sp Hd _ _ _ _ _ _ _ _ _ _ _ _ _ _ _ _ _ _ Hrdy C1 Hs K1) as (v1 & p1 & e1 & R1 & I1 & N1 & X1 & _).
  destruct (parse_ok_safe strtod rexmatch lm sp Hd _ _ _ _ _ _ _ _ _ _ _ _ _ _ _ _ _ _ Hrdy C2 Hs K2) as (v2 & p2 & e2 & R2 & I2 & N2 & X2 & _).
  rewrite R1 in R2. injection R2 as <- <-. rewrite I1 in I2. injection I2 as <- <-.
  assert (Ec : end_count en1 = end_count en2) by congruence. assert (Er : recorded en1 = recorded en2) by congruence.
  assert (Em : forall h c, arg_make_syntax_err_help_msg strftime r module (Some n) h (end_count en1) tab1 en1 c = arg_make_syntax_err_help_msg strftime r module (Some n) h (end_count en2) tab1 en2 c).
  { intros h c. unfold arg_make_syntax_err_help_msg. rewrite Ec. destruct (0 <? h); [reflexivity|]. destruct (0 <? end_count en2); [|reflexivity].
    assert (Ep : arg_print_errors_ds strftime tab1 en1 (Some module) = arg_print_errors_ds strftime tab1 en2 (Some module)).
    { unfold arg_print_errors_ds. rewrite Ec. apply (loop_same tab1 (Some module) en1 en2 Er _ 0%nat).
      rewrite X1. assert (L := shown_length 20 e1 ltac:(lia)). unfold zlen in L. rewrite N2. unfold zlen. lia. }
    unfold arg_make_syntax_err_msg. rewrite Ep. reflexivity. }
  apply bind_ok in P1 as (hc & H1 & P1). rewrite H1 in P2. cbn [bind] in P2. rewrite Em in P1.
  apply bind_ok in P1 as ([[o c] rt] & H2 & P1). rewrite H2 in P2. cbn [bind] in P2.
  apply bind_ok in P1 as ([o' c'] & H3 & P1). rewrite H3 in P2. cbn [bind] in P2.
  apply bind_ok in P1 as ([bl tb] & H4 & P1). rewrite H4 in P2. cbn [bind] in P2. injection P1 as <- <- _ _. injection P2 as <- <- _ _. auto.
Qed.
Theorem C92_same_words : forall (hist : list (@cop command C)) l1 l2 legacy1 legacy2 s1 s2,
  allowed_cops nothing hist -> good_line (spec_cops nothing hist) l1 -> good_line (spec_cops nothing hist) l2 -> l_words l1 = l_words l2 ->
  exists r o1 o2 t1 t2, do_cops fresh hist = Ok r /\ answer r module version posix legacy1 s1 l1 = Ok (o1, t1) /\ answer r module version posix legacy2 s2 l2 = Ok (o2, t2) /\
    o_text o1 = o_text o2 /\ o_code o1 = o_code o2.
Proof.
  intros hist l1 l2 g1 g2 s1 s2 AL H1 H2 Hw.
  destruct (responds hist l1 s1 AL H1) as (r & os1 & c1 & b1 & s1' & t1 & X & E1 & P1 & _). destruct (responds hist l2 s2 AL H2) as (r' & os2 & c2 & b2 & s2' & t2 & X' & E2 & P2 & _).
  rewrite X in X'. injection X' as <-.
  assert (Eq : os1 = os2 /\ c1 = c2).
  { unfold SubModel.respond in E1, E2. rewrite <- Hw in E2. unfold SubSpec.good_line in H1, H2. rewrite <- Hw in H2. destruct (l_words l1) as [|n rest] eqn:El; [split; congruence|].
    destruct (history hist AL) as (r' & hh & t & rows & lst & X' & G). rewrite X in X'. injection X' as <-.
    destruct (find_info r _ hh t rows lst n G) as (j & Y & Z0). rewrite Y in E1, E2. cbn [bind] in E1, E2. destruct j as [j|]; [|split; congruence].
    destruct Z0 as (i & F1 & F2 & _). destruct (H1 i F2) as (k & ints & evs & pos & Ek & _ & _ & Ht & Hc & Hs & _). destruct (H2 i F2) as (k2 & ints2 & evs2 & pos2 & Ek2 & _ & _ & _ & Hc2 & _).
    rewrite Ek in Ek2. injection Ek2 as <-.
    unfold arg_cmd_dispatch in E1, E2. rewrite Y in E1, E2. cbn [bind] in E1, E2. rewrite (sread_ok _ _ _ F1) in E1, E2. cbn [bind] in E1, E2. rewrite Ek in E1, E2. cbn [bind] in E1, E2.
    eapply (procedure_same r n k (ci_ctx i) rest ints l1 l2); eauto. }
  destruct Eq as [<- <-]. destruct (P1 (l_junk l1) g1) as (m1 & Q1 & _). destruct (P1 (l_junk l2) g2) as (m2 & Q2 & _).
  exists r. do 4 eexists. split; [exact X|]. unfold SubModel.answer. rewrite E1, E2. cbn [bind]. rewrite Q1, Q2. cbn [bind]. split; [reflexivity|]. split; [reflexivity|]. auto.
Qed.

(** The greeting says how to get more information. In a program that has not registered a command of that name, this gets the
    greeting again, and the exit code of a failure. *)
Theorem C92_hint_refuted : forall (hist : list (@cop command C)) l legacy s,
  allowed_cops nothing hist -> spec_cops nothing hist (lit "help") = None -> l_words l = [lit "help"] ->
  exists r o s', do_cops fresh hist = Ok r /\ answer r module version posix legacy s l = Ok (o, s') /\
    o_text o = (module ++ lit " v" ++ version ++ [NL]) ++ (lit "Please type '" ++ module ++ lit " help' to get more information." ++ [NL]) /\ o_code o = 1.
Proof.
  intros hist l legacy s AL Hn Hw. destruct (C92_line hist l legacy s AL) as (r & o & s' & X & E & An & _).
  { unfold SubSpec.good_line. rewrite Hw. intros i Hi. congruence. }
  exists r, o, s'. split; [exact X|]. split; [exact E|]. rewrite Hw in An. generalize dependent (lit "help"). intros n Hn Hw An. inversion An; subst; try congruence.
  split; [|reflexivity]. unfold PropHelp.greeting, PropHelp.text_line. rewrite <- !app_assoc. reflexivity.
Qed.

Lemma cops_app : forall (a b : list (@cop command C)) r, do_cops r (a ++ b) = (r <- do_cops r a ;; do_cops r b).
Proof. induction a as [|o a IH]; intros b r; [reflexivity|]. cbn [app do_cops]. destruct (do_cop r o); cbn [bind]; auto. Qed.
Lemma allowed_app : forall (a : list (@cop command C)) e o, allowed_cops e a -> allowed_cop (spec_cops e a) o -> allowed_cops e (a ++ [o]).
Proof. induction a as [|x a IH]; intros e o H1 H2; cbn [app allowed_cops] in *; [auto|]. destruct H1. split; auto. Qed.

Theorem C92_session : forall legacy s items, good_session nothing items ->
  exists outs (r r' : cmds command C), session fresh module version posix legacy s items = Ok (outs, r) /\ gives_answers nothing items outs /\
    arg_cmd_uninit r = Ok r' /\
    (forall i, sget (w_ht (s_mem r')) i = None) /\ (forall i, sget (w_tab (s_mem r')) i = None) /\ (forall i, sget (w_node (s_mem r')) i = None) /\
    (forall i, sget (w_key (s_mem r')) i = None) /\ (forall i, sget (w_val (s_mem r')) i = None).
Proof.
  intros legacy s items Hg.
  assert (H : forall (items : list (item D C)) (hist : list (@cop command C)) r s, allowed_cops nothing hist -> do_cops fresh hist = Ok r -> good_session (spec_cops nothing hist) items ->
    exists outs r' hist', session r module version posix legacy s items = Ok (outs, r') /\ gives_answers (spec_cops nothing hist) items outs /\
      allowed_cops nothing hist' /\ do_cops fresh hist' = Ok r').
  { clear s items Hg. intros items. induction items as [|[o|l] items IH]; intros hist r s AL X Hg; cbn [SubSpec.good_session] in Hg.
    - exists [], r, hist. split; [reflexivity|]. split; [constructor|auto].
    - destruct Hg as [Ho Hg]. assert (AL' := allowed_app hist _ o AL Ho). destruct (history _ AL') as (r1 & _ & _ & _ & _ & X1 & _).
      assert (E := X1). rewrite cops_app, X in E. cbn [bind do_cops] in E. destruct (do_cop r o) as [r2| |] eqn:Eo; cbn [bind] in E; try discriminate. injection E as ->.
      assert (Es : spec_cops nothing (hist ++ [o]) = spec_cop (spec_cops nothing hist) o) by (unfold spec_cops; rewrite fold_left_app; reflexivity).
      destruct (IH (hist ++ [o]) r1 s AL' X1) as (outs & r' & hist' & E1 & E2 & E3); [rewrite Es; exact Hg|].
      exists outs, r', hist'. cbn [SubModel.session]. rewrite Eo. cbn [bind]. split; [exact E1|]. split; [constructor; rewrite <- Es; exact E2|exact E3].
    - destruct Hg as [Hl Hg]. destruct (C92_line hist l legacy s AL Hl) as (r1 & o & s' & X1 & Ea & An & Cl). rewrite X in X1. injection X1 as <-.
      destruct (IH hist r s' AL X Hg) as (outs & r' & hist' & E1 & E2 & E3). exists (o :: outs), r', hist'. cbn [SubModel.session]. rewrite Ea. cbn [bind]. rewrite E1. cbn [bind].
      split; [reflexivity|]. split; [constructor; assumption|exact E3]. }
  destruct (H items [] fresh s I eq_refl Hg) as (outs & r & hist & E1 & E2 & AL & X).
  destruct (C35_registry_released hist AL) as (r0 & r' & X0 & U & R). rewrite X in X0. injection X0 as <-.
  exists outs, r, r'. auto.
Qed.
End Sub.

(** ** What arg_cmd_dispatch does not check: a name that is not registered, and a command registered without procedure. A null
    pointer is followed (or, with assertions, the program ends). *)
Theorem C92_unregistered_refuted : forall {P C A R} (call : P -> A -> C -> R) hist n args, allowed_cops nothing hist ->
  match spec_cops nothing hist n with None => True | Some i => ci_proc i = None end ->
  exists r, do_cops fresh hist = Ok r /\ arg_cmd_dispatch call r n args = UB NullDeref.
Proof.
  intros P C A R call hist n args AL H. destruct (history hist AL) as (r & h & t & rows & l & X & G). exists r. split; [exact X|].
  destruct (find_info r _ h t rows l n G) as (j & Y & Z). unfold arg_cmd_dispatch. rewrite Y. cbn [bind].
  destruct j as [j|]; [|reflexivity]. destruct Z as (x & E1 & E2 & _). rewrite (sread_ok _ _ _ E1). cbn [bind]. rewrite E2 in H. rewrite H. reflexivity.
Qed.

(** ** Examples *)
Notation some s := (Some (lit s)).
Definition ex_list : command Z Z :=
  {| k_table := [arg_lit0 (some "h") (some "help") (some "show this help"); arg_lit0 (some "v") (some "verbose") None; arg_intn (fun _ => 7) (some "n") (some "num") None 0 1 None];
     k_help := 0; k_work := fun ctx _ tab => v <- count_of tab 1 ;; n <- count_of tab 2 ;; Ok (lit "list" ++ when v (lit " -v") ++ when n (lit " -n") ++ [NL], ctx) |}.
Definition ex_line (words : list string) : line :=
  {| l_words := map lit words; l_argv := 1; l_heap := ExTable.heap0 words; l_end := ExTable.en 20; l_fuel := S (ParseFacts.total (map lit (tl words)));
     l_opts := ExTable.jo; l_chars := ExTable.jc; l_ptrs := ExTable.jp; l_junk := fun _ => "z"%char |}.
Definition ex_lines : list (list string) := [["list"; "-v"; "-n5"]; ["list"; "-q"; "--he"; "-n"]; ["list"; "-nx"; "y"]; ["add"]; []]%string.
Definition ex_items : list (item Z Z) :=
  [Line (ex_line ["list"%string]); Change (Reg (Own (lit "list")) (Some ex_list) (Own (lit "list all")) 5)] ++ map (fun w => Line (ex_line w)) ex_lines ++
  [Change (Reg (Own (lit "list")) (Some ex_list) (Own (lit "again")) 6); Line (ex_line ["list"%string]); Change (Unreg (Own (lit "list"))); Line (ex_line ["list"%string])].
Notation ex_session := (session ExTable.strtod ExTable.rexmatch Long64 unix_seps (fun (_ : str) (_ : tm) => @None str) (@fresh (command Z Z) Z) (lit "prog") (lit "1.2.3") false false ExTable.s0 ex_items).
Definition ex_greeting : str := ln "prog v1.2.3" ++ ln "Please type 'prog help' to get more information.".
Definition ex_help : str :=
  ln "list: list all" ++ ln "Usage:" ++ ln "  prog [-h|--help] [-v|--verbose] [-n|--num=<int>]" ++ ln " " ++ ln "Available options:" ++ ln "  -h, --help              show this help" ++ ln "".
Definition ex_errors : str :=
  ln "prog: invalid argument ""x"" to option -n|--num=<int>" ++ ln "prog: unexpected argument ""y""" ++ ln "Usage: " ++ ln "  prog [-h|--help] [-v|--verbose] [-n|--num=<int>]" ++ ln "".
Example C92_case_session : match ex_session with Ok (outs, _) => map (fun o => (o_text o, o_code o)) outs | _ => [] end =
  [(ex_greeting, 1); (ln "list -v -n", 5); (ex_help, 0); (ex_errors, 1); (ex_greeting, 1); (ex_greeting, 1); (ln "list", 6); (ex_greeting, 1)].
Proof. vm_compute. reflexivity. Qed.
Lemma ex_hyps i words evs pos : ci_proc i = Some ex_list -> cstr (ci_desc i) -> zlen (ci_desc i) <= 256 -> ExTable.strs_cstr (map lit words) = true -> forallb suffixes_convert (map lit words) = true ->
  (forall a, In a (map lit words) -> zlen a <= 20000000) -> reading (map e_hdr (k_table ex_list)) false (map lit words) evs pos ->
  exists k ints evs pos, ci_proc i = Some k /\ good_command (fun (_ : str) (_ : tm) => None) (lit "prog") i k (lit "list") /\
    able_to ExTable.strtod ExTable.rexmatch unix_seps false i k (lit "list") (map lit words) /\ reached ExTable.strtod ExTable.rexmatch Long64 unix_seps ints (k_table k) /\
    call 20 (k_table k) (ExTable.en 20) (ExTable.heap0 ("list"%string :: words)) 1 (lit "list") (map lit words) (S (ParseFacts.total (map lit words))) /\
    Forall (safe_value Long64 ints) (map lit words) /\ (forall a, In a (map lit words) -> zlen a <= 20000000) /\ reading (map e_hdr (k_table k)) false (map lit words) evs pos.
Proof.
  intros Hk Cd Ld Cs Sv Hl Hrd. exists ex_list, true, evs, pos. split; [exact Hk|]. split.
  { constructor; auto.
    - clit.
    - do 2 eexists. repeat split; try reflexivity; try lia. intros [K1 K2]; discriminate.
    - repeat (constructor; [apply textsb_ok; reflexivity|]). constructor.
    - repeat (constructor; [unfold PrintSpec.counts_ok, INT_MAX; cbn; lia|]). constructor.
    - repeat (apply Forall_cons; [exact I|]). constructor.
    - intros h fmt s K. repeat (destruct K as [K|K]; [discriminate|]). contradiction.
    - split; [|vm_compute; discriminate]. unfold small, PropHelp.help_text, PropHelp.text_line. rewrite !zlen_app. 
      match goal with |- context [zlen (PropHelp.usage ?m ?s ?t)] => let n := eval vm_compute in (zlen (PropHelp.usage m s t)) in change (zlen (PropHelp.usage m s t)) with n end.
      match goal with |- context [zlen (flat_map ?m ?t)] => let n := eval vm_compute in (zlen (flat_map m t)) in change (zlen (flat_map m t)) with n end.
      match goal with |- context [zlen (map ?m ?t)] => let n := eval vm_compute in (zlen (map m t)) in change (zlen (map m t)) with n end.
      repeat match goal with |- context [zlen (lit ?s)] => let n := eval vm_compute in (zlen (lit s)) in change (zlen (lit s)) with n end. change (zlen [NL]) with 1. change (zlen (@nil ascii)) with 0. lia. }
  split.
  { intros os p runs tab' _ _ (_ & Lr & _) V. 
    destruct runs as [|r0 [|r1 [|r2 [|r3 runs]]]]; try discriminate Lr.
    cbn [k_work ex_list]. rewrite (valued_count _ _ _ _ _ _ _ 1 _ r1 V eq_refl eq_refl ltac:(discriminate)), (valued_count _ _ _ _ _ _ _ 2 _ r2 V eq_refl eq_refl ltac:(discriminate)). cbn [bind].
    do 2 eexists. split; [reflexivity|]. unfold when. repeat match goal with |- context [if ?b then _ else _] => destruct b end; (split; [intros K; vm_compute in K; repeat (destruct K as [K|K]; [discriminate|]); contradiction|vm_compute; discriminate]). }
  split; [apply reached_new; repeat (apply Forall_cons; [split; [constructor; unfold foolproof; cbn; lia|split; [exact I|try discriminate; reflexivity]]|]); constructor|].
  split; [apply program_call; [vm_compute; reflexivity|exact Cs]|]. split; [apply safe_values; assumption|]. auto.
Qed.
Notation ex_good := (good_session ExTable.strtod ExTable.rexmatch unix_seps (fun (_ : str) (_ : tm) => @None str) (lit "prog") false).
Example C92_case_hypotheses : ex_good (@nothing (command Z Z) Z) ex_items /\ cstr (lit "prog") /\ cstr (lit "1.2.3") /\ zlen (lit "prog") <= 1000 /\ zlen (lit "1.2.3") <= 1000.
Proof.
  split; [|repeat split; try clit; vm_compute; discriminate].
  assert (Hline : forall e words evs pos, (forall i, e (lit "list") = Some i -> ci_proc i = Some ex_list /\ cstr (ci_desc i) /\ zlen (ci_desc i) <= 256) ->
    ExTable.strs_cstr (map lit words) = true -> forallb suffixes_convert (map lit words) = true -> forallb (fun a => zlen a <=? 20000000) (map lit words) = true ->
    read_args false (map e_hdr (k_table ex_list)) (map lit words) = (evs, Finished pos) ->
    good_line ExTable.strtod ExTable.rexmatch unix_seps (fun (_ : str) (_ : tm) => @None str) (lit "prog") false e (ex_line ("list"%string :: words))).
  { intros e words evs pos He H1 H2 H3 H4 i Hi. destruct (He i Hi) as (K1 & K2 & K3). apply (ex_hyps i words evs pos); auto.
    - intros a Ha. rewrite forallb_forall in H3. apply Z.leb_le. auto.
    - apply reading_iff. exact H4. }
  assert (Hnone : forall (e : @registry (command Z Z) Z) n words, e (lit n) = None -> good_line ExTable.strtod ExTable.rexmatch unix_seps (fun (_ : str) (_ : tm) => @None str) (lit "prog") false e (ex_line (n :: words))).
  { intros e n words He i Hi. cbn [tl] in *. rewrite He in Hi. discriminate. }
  assert (Hreg : forall e d c, zlen (lit d) < 256 -> allowed_cop (P := command Z Z) (C := Z) e (Reg (Own (lit "list")) (Some ex_list) (Own (lit d)) c)).
  { intros e d c H. cbn [allowed_cop registered not_into meant]. repeat split; auto. }
  assert (Hsame : forall (e : @registry (command Z Z) Z) p d c i, spec_cop e (Reg (Own (lit "list")) p (Own (lit d)) c) (lit "list") = Some i -> i = {| ci_name := lit "list"; ci_desc := lit d; ci_proc := p; ci_ctx := c |}).
  { intros e p d c i H. cbn [spec_cop meant] in H. unfold upd in H. rewrite str_eqb_refl in H. injection H as <-. reflexivity. }
  unfold ex_items, ex_lines. cbn [app map SubSpec.good_session].
  set (e0 := @nothing (command Z Z) Z). set (e1 := spec_cop e0 _). set (e2 := spec_cop e1 _). set (e3 := spec_cop e2 _).
  assert (D1 : forall i, e1 (lit "list") = Some i -> ci_proc i = Some ex_list /\ cstr (ci_desc i) /\ zlen (ci_desc i) <= 256).
  { intros i H. apply Hsame in H. subst i. cbn [ci_proc ci_desc]. split; [reflexivity|]. split; [clit|vm_compute; discriminate]. }
  assert (D2 : forall i, e2 (lit "list") = Some i -> ci_proc i = Some ex_list /\ cstr (ci_desc i) /\ zlen (ci_desc i) <= 256).
  { intros i H. apply Hsame in H. subst i. cbn [ci_proc ci_desc]. split; [reflexivity|]. split; [clit|vm_compute; discriminate]. }
  split; [apply Hnone; reflexivity|]. split; [apply Hreg; vm_compute; reflexivity|].
  do 3 (split; [eapply Hline; [exact D1|reflexivity|reflexivity|reflexivity|vm_compute; reflexivity]|]).
  split; [apply Hnone; reflexivity|]. split; [exact I|]. split; [apply Hreg; vm_compute; reflexivity|].
  split; [eapply Hline; [exact D2|reflexivity|reflexivity|reflexivity|vm_compute; reflexivity]|].
  split; [exact I|]. split; [apply Hnone; reflexivity|exact I].
Qed.
Definition ex_state : gst := {| optind := 1; optopt := 0; optreset := true; optarg := None; place_off := 0; GetoptModel.place := []; nonopt_start := -1;
  nonopt_end := -1; posixly := 1; getoptval := 0; nargv := [] |}.
Definition ex_other (words : list string) : line :=
  {| l_words := map lit words; l_argv := 1; l_heap := ExTable.heap0 words; l_end := ExTable.en 20; l_fuel := 5 + ParseFacts.total (map lit (tl words));
     l_opts := ExTable.jo; l_chars := fun _ => "q"%char; l_ptrs := fun _ => Some (lit "no"); l_junk := fun _ => "u"%char |}.
Definition ex_hist : list (@cop (command Z Z) Z) := [Reg (Own (lit "list")) (Some ex_list) (Own (lit "list all")) 5; Reg (Own (lit "none")) None (Own (lit "nothing")) 5].
Notation ex_run legacy s l := (match do_cops fresh ex_hist with
  | Ok r => match answer ExTable.strtod ExTable.rexmatch Long64 unix_seps (fun (_ : str) (_ : tm) => @None str) r (lit "prog") (lit "1.2.3") false legacy s l with Ok (o, _) => Some (o_text o, o_code o) | _ => None end
  | _ => None end).
Example C92_case_same : ex_run false ExTable.s0 (ex_line ["list"; "-nx"; "y"]%string) = Some (ex_errors, 1) /\ ex_run true ex_state (ex_other ["list"; "-nx"; "y"]%string) = Some (ex_errors, 1) /\
  good_line ExTable.strtod ExTable.rexmatch unix_seps (fun (_ : str) (_ : tm) => @None str) (lit "prog") false (spec_cops nothing ex_hist) (ex_line ["list"; "-nx"; "y"]%string) /\
  allowed_cops nothing ex_hist.
Proof.
  split; [vm_compute; reflexivity|]. split; [vm_compute; reflexivity|]. split.
  - intros i Hi. assert (i = {| ci_name := lit "list"; ci_desc := lit "list all"; ci_proc := Some ex_list; ci_ctx := 5 |}) as ->.
    { unfold ex_hist, spec_cops in Hi. cbn [fold_left spec_cop meant] in Hi. unfold upd in Hi. change (str_eqb (lit "none") (lit "list")) with false in Hi. cbv iota in Hi.
      change (str_eqb (lit "list") (lit "list")) with true in Hi. cbv iota in Hi. injection Hi as <-. reflexivity. }
    apply (ex_hyps _ ["-nx"; "y"]%string [EvScan 2 (Some (lit "x"))] [lit "y"]).
    + reflexivity.
    + cbn [ci_desc]. clit.
    + cbn [ci_desc]. vm_compute. discriminate.
    + vm_compute. reflexivity.
    + vm_compute. reflexivity.
    + intros a Ha. repeat (destruct Ha as [<-|Ha]; [vm_compute; discriminate|]). contradiction.
    + apply reading_iff. vm_compute. reflexivity.
  - unfold ex_hist. cbn [allowed_cops allowed_cop registered not_into meant]. repeat split; vm_compute; reflexivity.
Qed.
Example C92_case_unregistered : spec_cops nothing ex_hist (lit "add") = None /\ (exists i, spec_cops nothing ex_hist (lit "none") = Some i /\ ci_proc i = None) /\
  match do_cops fresh ex_hist with Ok r => map (fun n => arg_cmd_dispatch (fun (_ : command Z Z) (_ : unit) (_ : Z) => true) r (lit n) tt) ["add"; "none"; "list"]%string | _ => [] end = [UB NullDeref; UB NullDeref; Ok true].
Proof. split; [vm_compute; reflexivity|]. split; [eexists; split; [reflexivity|reflexivity]|]. vm_compute. reflexivity. Qed.

(** ** The usage line that a command shows names the program but not the command: the command line that it describes is not one of
    that command's. *)
Theorem C92_usage_line_refuted : exists text after,
  ex_run false ExTable.s0 (ex_line ["list"; "--help"]%string) = Some (text ++ ln "Usage:" ++ ln "  prog [-h|--help] [-v|--verbose] [-n|--num=<int>]" ++ after, 0) /\
  ex_run false ExTable.s0 (ex_line ["--help"]%string) = Some (ex_greeting, 1) /\ ex_run false ExTable.s0 (ex_line ["-v"; "-n5"]%string) = Some (ex_greeting, 1).
Proof. exists (ln "list: list all"), (ln " " ++ ln "Available options:" ++ ln "  -h, --help              show this help" ++ ln ""). split; [vm_compute; reflexivity|]. split; vm_compute; reflexivity. Qed.
Example C92_case_hint : spec_cops nothing ex_hist (lit "help") = None /\ ex_run false ExTable.s0 (ex_line ["help"%string]) = Some (ex_greeting, 1).
Proof. split; vm_compute; reflexivity. Qed.

Print Assumptions C92_line.
Print Assumptions C92_same_words.
Print Assumptions C92_session.
Print Assumptions C92_hint_refuted.
Print Assumptions C92_unregistered_refuted.
Print Assumptions C92_usage_line_refuted.
