(** The parse of NestModel.v with quiet reset and check functions is that of ShareSpec.v. *)
From Verif Require Import Base IntModel GetoptModel PermuteProofs ParseModel ParseSpec LongOnlySpec LongOnlyFacts OptTables GetoptProofs ParseIdeal ParseProofs ParseFacts ParseObserve ReportSpec ReportProofs ShareModel ShareSpec ShareProofs NestModel NestSpec.
From Coq Require Import ZArith List Ascii String Bool Lia.
Import ListNotations.
Open Scope Z_scope.

Section Nest.
Context {G : Type}.
(** The same to the program, whatever the scanner is like before and after. *)
Definition to_program (F : gst -> G -> res (gst * G * Z)) (f : G -> res (G * Z)) : Prop :=
  forall s g, sim (fun gc st => let '(s', g', c') := st in gc = (g', c')) (f g) (F s g).
Lemma call_to_program F f : to_program F f -> to_program (call F) f.
Proof.
  intros H s g. specialize (H s g). unfold call. destruct (f g) as [[g1 c]| |], (F s g) as [[[s' g'] c']| |]; cbn in *; auto.
Qed.
Lemma keep_self s : set_nargv (nargv s) (set_getoptval (getoptval s) s) = s.
Proof. destruct s; reflexivity. Qed.
Lemma call_plain (f : G -> res (G * Z)) s g : call (plain f) s g = ('(g, c) <- f g ;; Ok (s, g, c)).
Proof. unfold call, plain. destruct (f g) as [[g1 c]| |]; cbn [bind]; auto. rewrite keep_self. reflexivity. Qed.

Context (tab : list hdr).
Context (scan0 : nat -> option (option str -> G -> res (G * Z))).
Context (checkf resetf : nat -> option (gst -> G -> res (gst * G * Z))).
Context (check0 reset0 : nat -> option (G -> res (G * Z))).
Context (Hcn : forall i, checkf i = None <-> check0 i = None) (Hcs : forall i F f, checkf i = Some F -> check0 i = Some f -> to_program F f).
Context (Hrn : forall i, resetf i = None <-> reset0 i = None) (Hrs : forall i F f, resetf i = Some F -> reset0 i = Some f -> to_program F f).
Context (cap : Z) (posix : bool).
Notation act := (doings scan0 check0 reset0).
Notation Rn errs := (fun (st : G * list err) (st' : gst * G * arg_end) => Rg (G := G) cap errs st (snd (fst st'), snd st')).

Lemma nest_reset_ok : forall t i s g, sim (fun g' (st : gst * G) => snd st = g') (all_reset act (seq i (List.length t)) g) (nest_reset resetf i t s g).
Proof.
  induction t as [|h t IH]; intros i s g; cbn [List.length seq all_reset nest_reset]; [reflexivity|].
  unfold answer, doings. cbn [acts]. pose proof (Hrn i) as Hn. pose proof (Hrs i) as Hq.
  destruct (resetf i) as [F|], (reset0 i) as [f|].
  - specialize (call_to_program _ _ (Hq _ _ eq_refl eq_refl) s g) as Hc. destruct (f g) as [[g1 c]| |], (call F s g) as [[[s1 g1'] c']| |]; cbn in Hc |- *; try contradiction; auto.
    injection Hc as <- <-. apply IH.
  - destruct Hn as [_ Hn]. discriminate (Hn eq_refl).
  - destruct Hn as [Hn _]. discriminate (Hn eq_refl).
  - cbn [bind]. apply IH.
Qed.
Lemma nest_check_ok : forall t i s g en errs, rep cap en errs -> sim (Rn errs) (all_checked act (seq i (List.length t)) g) (nest_check checkf i t s g en).
Proof.
  induction t as [|h t IH]; intros i s g en errs HR; cbn [List.length seq all_checked nest_check].
  - split; cbn; [auto|]. rewrite app_nil_r. auto.
  - assert (H1 : sim (Rn errs) (answer act (CCheck i) (PEntry i) None g)
        (match checkf i with Some f => '(s, g, c) <- call f s g ;; if c =? 0 then Ok (s, g, en) else en <- arg_register_error en (PEntry i) c None ;; Ok (s, g, en) | None => Ok (s, g, en) end)).
    { unfold answer, doings. cbn [acts]. pose proof (Hcn i) as Hn. pose proof (Hcs i) as Hq. destruct (checkf i) as [F|], (check0 i) as [f|].
      - specialize (call_to_program _ _ (Hq _ _ eq_refl eq_refl) s g) as Hc. destruct (f g) as [[g1 c]| |], (call F s g) as [[[s1 g1'] c']| |]; cbn in Hc |- *; try contradiction; auto.
        injection Hc as <- <-. destruct (c =? 0).
        + split; cbn; [auto|]. rewrite app_nil_r. auto.
        + destruct (register_rep cap en errs (PEntry i) c None HR) as (en' & -> & HR'). split; cbn; auto.
      - destruct Hn as [_ Hn]. discriminate (Hn eq_refl).
      - destruct Hn as [Hn _]. discriminate (Hn eq_refl).
      - split; cbn; [auto|]. rewrite app_nil_r. auto. }
    eapply sim_bind; [exact H1|]. intros [g1 e1] [[s1 g1'] en1] [Eg HR1]. cbn in Eg, HR1. subst g1'.
    pose proof (IH (S i) s1 g1 _ _ HR1) as H2. destruct (all_checked act (seq (S i) (List.length t)) g1) as [[g2 e2]| |], (nest_check checkf (S i) t s1 g1 en1) as [[[s2 g2'] en2]| |]; cbn in H2 |- *; try contradiction; auto.
    destruct H2 as [Eg HR2]. cbn in Eg, HR2. split; cbn; auto. rewrite app_assoc. exact HR2.
Qed.

Notation scanf := (plain_scan scan0).
Lemma nest_scanfn_ok i s g en : nest_scanfn tab scanf i s g en = ('(g, en) <- call_scanfn tab scan0 i (optarg s) g en ;; Ok (s, g, en)).
Proof.
  unfold nest_scanfn, call_scanfn, plain_scan. destruct (aget tab i); cbn [bind]; auto. destruct (scan0 (Z.to_nat i)) as [f|]; cbn [bind]; auto.
  rewrite call_plain. destruct (f (optarg s) g) as [[g1 c]| |]; cbn [bind]; auto. destruct (c =? 0); cbn [bind]; auto.
  destruct (arg_register_error en (PEntry (Z.to_nat i)) c (optarg s)); reflexivity.
Qed.
Lemma nest_switch_ok c s g en : nest_switch tab scanf c s g en = ('(g, en) <- switch tab scan0 c s g en ;; Ok (s, g, en)).
Proof.
  unfold nest_switch, switch. destruct (c =? 0); [|destruct (c =? 63); [destruct (optopt s =? 0)|destruct (c =? 58)]].
  - destruct (aget tab (getoptval s)) as [e| |]; cbn [bind]; auto.
    match goal with |- bind ?m _ = bind (bind ?m _) _ => destruct m; cbn [bind]; auto end. apply nest_scanfn_ok.
  - destruct (nargv_get s (optind s - 1)); cbn [bind]; auto. destruct (arg_register_error en PEnd ARG_ELONGOPT _); reflexivity.
  - destruct (arg_register_error en PEnd (optopt s) None); reflexivity.
  - destruct (nargv_get s (optind s - 1)); cbn [bind]; auto. destruct (arg_register_error en PEnd ARG_EMISSARG _); reflexivity.
  - cbv zeta. destruct (find_shortoption tab 0 (chr c) =? -1); [destruct (arg_register_error en PEnd c None); reflexivity|]. apply nest_scanfn_ok.
Qed.
Lemma nest_tagged_ok longonly nargc so lo : forall F s g en, nest_tagged tab scanf posix longonly F nargc so lo s g en = tagged tab scan0 posix longonly F nargc so lo s g en.
Proof.
  induction F as [|F IH]; intros s g en; cbn [nest_tagged tagged]; auto.
  destruct (getopt_in longonly posix _ nargc so lo s) as [[c s1]| |]; cbn [bind]; auto. destruct (c =? -1); auto.
  rewrite nest_switch_ok. destruct (switch tab scan0 c s1 g en) as [[g1 en1]| |]; cbn [bind]; auto.
Qed.

(** The arguments from optind on. *)
Definition at_args (argc : Z) (s : gst) (args : list str) : Prop :=
  argc = zlen (nargv s) /\ exists dn, nargv s = dn ++ args /\ optind s = zlen dn.
Lemma at_nil argc s : at_args argc s [] -> (argc <=? optind s) = true.
Proof. intros (-> & dn & E & ->). rewrite E, app_nil_r. apply Z.leb_le. lia. Qed.
Lemma at_cons argc s a args : at_args argc s (a :: args) -> (argc <=? optind s) = false /\ nargv_get s (optind s) = Ok (Some a) /\ at_args argc (set_optind (optind s + 1) s) args.
Proof.
  intros (-> & dn & E & Ei). rewrite Ei. rewrite E. unfold nargv_get. rewrite E.
  assert (Hl : zlen (dn ++ a :: args) = zlen dn + 1 + zlen args) by (unfold zlen; rewrite app_length; cbn [List.length]; lia).
  pose proof (zlen_nonneg args). rewrite Hl. split; [apply Z.leb_gt; lia|]. split.
  - destruct (Z.eqb_spec (zlen dn) (zlen dn + 1 + zlen args)); [lia|]. unfold aget. pose proof (zlen_nonneg dn). destruct (Z.ltb_spec (zlen dn) 0); [lia|].
    unfold zlen. rewrite Nat2Z.id, nth_error_app2, Nat.sub_diag by lia. reflexivity.
  - split; [cbn [nargv set_optind]; rewrite E; lia|]. exists (dn ++ [a]). cbn [nargv set_optind optind]. rewrite E, <- app_assoc. split; auto. unfold zlen. rewrite app_length. cbn [List.length]. lia.
Qed.
Lemma nest_rest_ok argc : forall args s en F, at_args argc s args -> (List.length args < F)%nat ->
  sim (fun en (st : gst * arg_end) => snd st = en) (untagged_rest args en) (nest_rest F argc s en).
Proof.
  induction args as [|a args IH]; intros s en F Ha HF; (destruct F as [|F]; [lia|]); cbn [untagged_rest nest_rest].
  - rewrite (at_nil _ _ Ha). reflexivity.
  - destruct (at_cons _ _ _ _ Ha) as (-> & -> & Hb). cbn [bind]. destruct (arg_register_error en PEnd ARG_ENOMATCH (Some a)); cbn; auto. apply IH; [exact Hb|cbn in HF; lia].
Qed.
Lemma at_len argc s args : at_args argc s args -> Z.to_nat (argc - optind s) = List.length args.
Proof. intros (-> & dn & E & ->). rewrite E. unfold zlen. rewrite app_length. lia. Qed.
Notation Rst := (fun (st : G * arg_end) (st' : gst * G * arg_end) => fst st = snd (fst st') /\ snd st = snd st').
Lemma nest_untagged_ok argc : forall F todo i args last s g en, at_args argc s args -> (args = [] -> last = None) ->
  sim Rst (untagged scan0 F i todo args last g en) (nest_untagged scanf F i todo argc last s g en).
Proof.
  induction F as [|F IH]; intros todo i args last s g en Ha Hl; cbn [untagged nest_untagged]; [exact I|].
  destruct todo as [|h todo].
  - destruct args as [|a args].
    + rewrite Hl by auto. cbn [bind untagged_rest]. rewrite (at_len _ _ _ Ha). cbn [List.length nest_rest]. rewrite (at_nil _ _ Ha). cbn. auto.
    + destruct (at_cons _ _ _ _ Ha) as (_ & _ & Hb). destruct last as [[[p c] v]|].
      * destruct (arg_register_error en p c v) as [en1| |]; cbn [bind]; try (cbn; auto; fail). cbn [tl].
        eapply sim_bind; [apply nest_rest_ok; [exact Hb|rewrite (at_len _ _ _ Hb); lia]|]. intros e [s1 e1] H. cbn in H. subst e1. cbn. auto.
      * cbn [bind]. eapply sim_bind; [apply nest_rest_ok; [exact Ha|rewrite (at_len _ _ _ Ha); lia]|]. intros e [s1 e1] H. cbn in H. subst e1. cbn. auto.
  - destruct args as [|a args].
    + rewrite (at_nil _ _ Ha). cbn. auto.
    + destruct (at_cons _ _ _ _ Ha) as (-> & Hg & Hb). destruct (h_longopts h); [apply IH; [auto|discriminate]|]. destruct (h_shortopts h); [apply IH; [auto|discriminate]|].
      unfold plain_scan at 1. destruct (scan0 i) as [f|]; [|apply IH; [auto|discriminate]].
      rewrite Hg. cbn [bind]. rewrite call_plain. destruct (f (Some a) g) as [[g1 c]| |]; cbn [bind]; try (cbn; auto; fail).
      destruct (c =? 0); [apply IH; auto|]. rewrite Hg. cbn [bind]. apply IH; [auto|discriminate].
Qed.

Context (junko : nat -> rawopt) (junkc : nat -> ascii).
Lemma nest_finishes longonly fuel s g en a0 rest evs pos :
  wf_end cap en -> Forall good_hdr tab -> Forall cstr rest ->
  read_args_in longonly posix tab rest = (evs, Finished pos) -> (List.length evs < fuel)%nat ->
  sim (fun (st : G * list err) (st' : gst * G * arg_end) => fst st = snd (fst st') /\ rep cap (snd st') (snd st)) (share_spec act tab evs pos g)
      (nest_parse_in tab scanf checkf resetf posix junko junkc longonly fuel (a0 :: rest) s g en).
Proof.
  intros Hen Hgood Hcstr Hread Hfuel.
  pose proof (read_args_in_events_ok longonly tab posix rest) as Hok. rewrite Hread in Hok. cbn [fst] in Hok.
  unfold share_spec, nest_parse_in. eapply sim_bind; [apply nest_reset_ok|]. intros g0 [s0 g0'] Eg. cbn in Eg. subst g0'.
  set (args := a0 :: rest) in *. set (argc := zlen args).
  assert (Hargc : 0 < argc) by (unfold argc, args; rewrite zlen_cons; pose proof (zlen_nonneg rest); lia).
  destruct (Z.eqb_spec argc 0); [lia|].
  assert (Hlong : Forall good_longopts tab) by (eapply Forall_impl; [|exact Hgood]; intros ? []; auto).
  assert (Hshort : Forall good_shortopts tab) by (eapply Forall_impl; [|exact Hgood]; intros ? []; auto).
  rewrite (alloc_longoptions_ok _ _ _ Hlong). cbn [bind].
  rewrite (alloc_shortoptions_ok _ _ (short_string_cstr _ Hshort)). cbn [bind].
  destruct (turns_read posix longonly tab argc s0 a0 rest evs pos Hgood Hcstr eq_refl Hread) as (sf & (Hlen & dnf & Hdn & Hnargv & Hind) & Hturns).
  specialize (Hturns fuel Hfuel). unfold opts, lo in Hturns. fold args in Hturns.
  cbv zeta. rewrite nest_tagged_ok. rewrite (turns_tagged _ scan0 _ _ _ _ _ _ _ _ _ Hturns). clear Hturns.
  pose proof (sim_every tab scan0 check0 (fun i => match reset0 i with Some f => Some (fun g => '(g, _) <- f g ;; Ok g) | None => None end) cap evs Hok g0 [] (arg_end_resetfn en) (reset_rep cap en Hen)) as Hev.
  fold act in Hev. change (acts scan0 check0 _) with act in Hev.
  destruct (all_options act evs g0) as [[g1 errs1]| |];
    destruct (every tab scan0 evs g0 (arg_end_resetfn en)) as [[g1' en1]| |]; cbn in Hev; try contradiction; cbn [bind].
  2:{ cbn. auto. } 2:{ cbn. auto. }
  destruct Hev as [E1 HR1]. cbn in E1, HR1. subst g1'.
  assert (Hat : at_args argc sf pos) by (split; [symmetry; exact Hlen|exists dnf; auto]).
  assert (Hfu : (List.length tab + List.length pos < S (List.length tab + List.length args + fuel))%nat).
  { assert (List.length pos <= List.length args)%nat; [|lia]. unfold argc, zlen in Hlen. rewrite Hnargv, app_length in Hlen. lia. }
  pose proof (sim_untagged scan0 check0 (fun i => match reset0 i with Some f => Some (fun g => '(g, _) <- f g ;; Ok g) | None => None end) cap tab 0 pos None g1 en1 errs1 _ HR1 ltac:(auto) Hfu) as Hp.
  pose proof (nest_untagged_ok argc (S (List.length tab + List.length args + fuel)) tab 0 pos None sf g1 en1 Hat ltac:(auto)) as Hq.
  cbn [pend_of] in Hp. change (takers 0 tab) with (without_options tab) in Hp. change (acts scan0 check0 _) with act in Hp.
  destruct (all_positional act (without_options tab) pos None g1) as [[g2 errs2]| |];
    destruct (untagged scan0 _ 0 tab pos None g1 en1) as [[g2' en2]| |]; cbn [sim] in Hp; try contradiction;
    destruct (nest_untagged scanf _ 0 tab argc None sf g1 en1) as [[[s2 g2''] en2']| |]; cbn [sim fst snd] in Hq; try contradiction; cbn [bind]; try (cbn; congruence).
  destruct Hp as [E2 HR2]. cbn in E2, HR2. subst g2'. destruct Hq as [<- <-].
  assert (Hcount : (end_count en2 =? 0) = match errs1 ++ errs2 with [] => true | _ => false end).
  { rewrite (r_count _ _ _ HR2). pose proof (r_cap _ _ _ HR2). destruct (errs1 ++ errs2) as [|x y].
    { change (zlen (@nil err)) with 0. apply Z.eqb_eq. lia. }
    rewrite zlen_cons. pose proof (zlen_nonneg y). apply Z.eqb_neq. lia. }
  rewrite Hcount. destruct (errs1 ++ errs2) as [|x y].
  - pose proof (nest_check_ok tab 0 s2 g2 en2 [] HR2) as Hc.
    destruct (all_checked act (seq 0 (List.length tab)) g2) as [[g3 e3]| |], (nest_check checkf 0 tab s2 g2 en2) as [[[s3 g3'] en3]| |]; cbn in Hc |- *; try contradiction; auto.
  - cbn. auto.
Qed.
End Nest.

Lemma quiet_to_program {G} (F : gst -> G -> res (gst * G * Z)) f : quiet F f -> to_program F f.
Proof.
  induction 1 as [f|F f K k HF IF HK IK|F f HF IF|tab scan0 checkf check0 resetf reset0 cap posix jo jc fuel a0 rest en evs pos Hen Hg Hc Hfu Hr Hcn Hcs IHc Hrn Hrs IHr]; intros s g.
  - unfold plain. destruct (f g) as [[g1 c]| |]; cbn; auto.
  - eapply sim_bind; [apply IF|]. intros [g1 c] [[s1 g1'] c'] E. injection E as <- <-. apply IK.
  - apply IF.
  - apply reading_iff in Hr. rewrite <- read_args_default in Hr.
    pose proof (read_args_in_len false posix tab rest) as Hl. rewrite Hr in Hl. cbn in Hl.
    pose proof (nest_finishes tab scan0 checkf resetf check0 reset0 Hcn IHc Hrn IHr cap posix jo jc false fuel s g en a0 rest evs pos Hen Hg Hc Hr ltac:(lia)) as Hn.
    unfold parsing, nest_parse.
    destruct (share_spec (doings scan0 check0 reset0) tab evs pos g) as [[g1 e1]| |],
      (nest_parse_in tab (plain_scan scan0) checkf resetf posix jo jc false fuel (a0 :: rest) s g en) as [[[s1 g1'] en1]| |]; cbn in Hn |- *; try contradiction; auto.
    destruct Hn as [-> HR]. rewrite (r_count _ _ _ HR). reflexivity.
Qed.
