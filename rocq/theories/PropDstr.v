(** PropDstr: the dynamic string (C28, C29, C30). *)
From Coq Require Import ZArith List Ascii Bool Lia String.
From Verif Require Import Base ParseModel MemModel DstrModel DstrSpec DstrProofs.
Import ListNotations.
Open Scope Z_scope.

Definition tlen (a : abs) : Z := match text a with Some t => zlen t | None => 0 end.

(** The static strings of a client program, in order. *)
Definition statics (os : list op) : list str :=
  flat_map (fun o => match o with OSet (Some t) FStatic => [t] | _ => [] end) os.

Definition frame (st : list (nat * str)) : list (nat * mblock) := map (fun p => (fst p, client FStatic (snd p))) st.

Lemma frame_app a b : frame (a ++ b) = frame a ++ frame b.
Proof. apply map_app. Qed.
Lemma frame_fst st : map fst (frame st) = map fst st.
Proof. unfold frame. rewrite map_map. reflexivity. Qed.

Lemma inv_perm m ds a F F' : Permutation.Permutation F F' -> Inv m ds a F -> Inv m ds a F'.
Proof.
  intros P [LV FR SB LG SH]. constructor; auto.
  - eapply perm_live; [|exact LV]. apply Permutation.perm_skip. apply Permutation.Permutation_app_head.
    apply Permutation.Permutation_map. assumption.
  - intros b k K. apply FR. apply Permutation.Permutation_sym in P. eapply Permutation.Permutation_in; eauto.
Qed.

Lemma weight_nonneg a o : allowed a o -> 0 <= weight o.
Proof.
  destruct o as [[t|] f|t|c|[n|] out| |]; cbn [weight allowed]; intro H; try lia; try apply zlen_nonneg.
  destruct H as [_ H]. pose proof (H n eq_refl). pose proof (zlen_nonneg out). lia.
Qed.

Lemma tlen_op a o : allowed a o -> tlen (spec_op a o) <= tlen a + weight o.
Proof.
  intro H. assert (W := weight_nonneg a o H). unfold tlen.
  assert (Z1 : 0 <= match text a with Some t => zlen t | None => 0 end) by (destruct (text a); [apply zlen_nonneg|lia]).
  destruct o as [[t|] f|t|c|[n|] out| |]; cbn [spec_op append text weight] in *.
  - lia.
  - change (zlen (@nil ascii)) with 0. lia.
  - destruct (text a); [rewrite zlen_app; lia|lia].
  - destruct (text a); [|lia]. rewrite zlen_app. cbn [upto_nul]. destruct (ceqb c NUL); [change (zlen (@nil ascii)) with 0|change (zlen [c]) with 1]; lia.
  - destruct (text a); [|lia]. rewrite zlen_app. assert (X := upto_len out). destruct H as [_ H]. pose proof (H n eq_refl). unfold zlen in *. lia.
  - destruct (text a); lia.
  - change (zlen (@nil ascii)) with 0. lia.
  - destruct (held a); [lia|]. destruct (text a); lia.
Qed.

Lemma run_op_ok junk legacy m ds a st o :
  Inv m ds a (frame st) -> allowed a o -> tlen a + weight o <= 536870912 ->
  exists m' ds' s, run_op junk legacy m ds o = Ok (m', ds', s) /\ Inv m' ds' (spec_op a o) (frame (st ++ s))
    /\ map snd s = statics [o].
Proof.
  intros I AL BD. unfold tlen in BD.
  assert (Z1 : 0 <= match text a with Some t => zlen t | None => 0 end) by (destruct (text a); [apply zlen_nonneg|lia]).
  destruct o as [[t|] f|t|c|[n|] out| |]; cbn [run_op allowed weight] in *.
  - (* set *)
    assert (I1 := inv_new _ _ _ _ (match f with FDynamic => true | _ => false end) (t ++ [NUL]) I).
    cbn [mnew fst] in I1. unfold mnew. fold (client f t) in *.
    set (m1 := {| mget := _; mnext := _; mlog := _ |}) in *.
    destruct (set_some_ok junk m1 ds a (frame st) (mnext m) t f I1 AL) as [m' [ds' [E [S X]]]]; [lia|].
    rewrite E. cbn [bind]. destruct f as [| | |n].
    + exists m', ds', [(mnext m, t)]. split; [reflexivity|]. split; [|reflexivity].
      rewrite frame_app. eapply inv_perm; [|exact X]. apply Permutation.Permutation_cons_append.
    + eexists _, ds', []. split; [reflexivity|]. split; [|reflexivity]. rewrite app_nil_r. exact X.
    + exists m', ds', []. split; [reflexivity|]. split; [|reflexivity]. rewrite app_nil_r. exact X.
    + exists m', ds', []. split; [reflexivity|]. split; [|reflexivity]. rewrite app_nil_r. exact X.
  - destruct (set_null_ok junk m ds a (frame st) f I) as [m' [ds' [E [I' _]]]]. rewrite E. cbn [bind].
    exists m', ds', []. split; [reflexivity|]. split; [|reflexivity]. rewrite app_nil_r. exact I'.
  - (* cat *)
    destruct AL as [CS TX]. destruct (text a) as [u|] eqn:T; [|congruence].
    assert (I1 := inv_new _ _ _ _ false (t ++ [NUL]) I). cbn [mnew fst] in I1. unfold mnew.
    set (m1 := {| mget := _; mnext := _; mlog := _ |}) in *.
    destruct (cat_ok junk m1 ds a _ (mnext m) _ t u I1 (or_introl eq_refl)) as [m' [ds' [E [I' [_ N]]]]]; auto; [|lia|].
    { cbn [b_data]. apply scan0_app. assumption. }
    rewrite E. cbn [bind]. eexists _, ds', []. split; [reflexivity|]. split; [|reflexivity]. rewrite app_nil_r.
    apply (inv_del _ _ _ _ _ _ I' N).
  - destruct (text a) as [u|] eqn:T; [|congruence].
    destruct (catc_ok junk m ds a _ c u I T) as [m' [ds' [E [I' _]]]]; [lia|]. rewrite E. cbn [bind].
    exists m', ds', []. split; [reflexivity|]. split; [|reflexivity]. rewrite app_nil_r. exact I'.
  - destruct AL as [TX NN]. specialize (NN n eq_refl). destruct (text a) as [u|] eqn:T; [|congruence].
    destruct (catf_ok junk legacy m ds a _ u n out I T NN) as [m' [ds' [E [I' _]]]]; [lia|]. rewrite E. cbn [bind].
    exists m', ds', []. split; [reflexivity|]. split; [|reflexivity]. rewrite app_nil_r. exact I'.
  - cbn [arg_dstr_catf bind]. exists m, ds, []. split; [reflexivity|]. split; [|reflexivity]. rewrite app_nil_r. exact I.
  - destruct (reset_ok m ds a _ I) as [m' [ds' [E [I' _]]]]. rewrite E. cbn [bind].
    exists m', ds', []. split; [reflexivity|]. split; [|reflexivity]. rewrite app_nil_r. exact I'.
  - destruct (free_ok m ds a _ I) as [m' [E I']]. rewrite E. cbn [bind].
    eexists m', _, []. split; [reflexivity|]. split; [|reflexivity]. rewrite app_nil_r. exact I'.
Qed.

Lemma run_ops_ok junk legacy os : forall m ds a st,
  Inv m ds a (frame st) -> all_allowed a os -> tlen a + total os <= 536870912 ->
  exists m' ds' s, run_ops junk legacy m ds os st = Ok (m', ds', st ++ s) /\ Inv m' ds' (fold_left spec_op os a) (frame (st ++ s))
    /\ map snd s = statics os.
Proof.
  induction os as [|o os IH]; intros m ds a st I AL BD; cbn [run_ops].
  - exists m, ds, []. rewrite app_nil_r. auto.
  - destruct AL as [A1 A2]. assert (T1 := tlen_op a o A1). cbn [total fold_right] in BD. fold (total os) in BD.
    assert (T0 : 0 <= total os).
    { clear - A2. revert A2. generalize (spec_op a o). induction os as [|p os IH]; intros b H; cbn [total fold_right]; [lia|].
      destruct H as [H1 H2]. apply IH in H2. apply weight_nonneg in H1. unfold total in H2. lia. }
    destruct (run_op_ok junk legacy m ds a st o I A1) as [m1 [ds1 [s1 [E1 [I1 M1]]]]]; [lia|].
    rewrite E1. cbn [bind].
    destruct (IH m1 ds1 (spec_op a o) (st ++ s1) I1 A2) as [m2 [ds2 [s2 [E2 [I2 M2]]]]]; [lia|].
    exists m2, ds2, (s1 ++ s2). rewrite app_assoc. split; [exact E2|]. split; [exact I2|].
    rewrite map_app, M1, M2. cbn [statics flat_map]. rewrite app_nil_r. reflexivity.
Qed.

Lemma run_ok junk legacy os :
  all_allowed abs0 os -> total os <= 536870912 ->
  exists m ds st, run junk legacy os = Ok (m, ds, st) /\ Inv m ds (spec_ops os) (frame st) /\ map snd st = statics os.
Proof.
  intros AL BD. destruct (create_ok junk) as [m [ds [E I]]]. unfold run. rewrite E. cbn [bind].
  destruct (run_ops_ok junk legacy os m ds abs0 [] I AL) as [m' [ds' [s [E' [I' M]]]]].
  { unfold tlen. cbn [text abs0]. change (zlen (@nil ascii)) with 0. lia. }
  exists m', ds', s. auto.
Qed.

(** C28: after any allowed sequence of calls the text is the one given by plain concatenation (in total at
    most 2^29 bytes are passed in). *)
Theorem C28_text : forall junk legacy os,
  all_allowed abs0 os -> total os <= 536870912 ->
  exists m ds st, run junk legacy os = Ok (m, ds, st) /\
    forall t, text (spec_ops os) = Some t -> rd_str m (arg_dstr_cstr ds) = Ok t.
Proof.
  intros junk legacy os AL BD. destruct (run_ok junk legacy os AL BD) as [m [ds [st [E [I _]]]]].
  exists m, ds, st. split; [exact E|]. intros t T. apply (text_read _ _ _ _ _ I T).
Qed.

(** C29: no undefined behaviour; after destruction the only live blocks are the client's static strings,
    which are unchanged; client release procedures have been called exactly as specified. *)
Theorem C29_nothing_leaked : forall junk legacy os,
  all_allowed abs0 os -> total os <= 536870912 ->
  exists m ds st m', run junk legacy os = Ok (m, ds, st) /\ arg_dstr_destroy m ds = Ok m' /\
    map snd st = statics os /\ NoDup (map fst st) /\
    (forall i, mget m' i <> None <-> In i (map fst st)) /\
    (forall b t, In (b, t) st -> mget m' b = Some {| b_heap := false; b_data := t ++ [NUL] |}) /\
    mlog m' = give_back (spec_ops os).
Proof.
  intros junk legacy os AL BD. destruct (run_ok junk legacy os AL BD) as [m [ds [st [E [I M]]]]].
  destruct (destroy_ok m ds _ _ I) as [m' [E' [LV [FR LG]]]]. rewrite frame_fst in LV.
  exists m, ds, st, m'. split; [exact E|]. split; [exact E'|]. split; [exact M|]. split; [apply (live_nodup _ _ LV)|].
  split; [apply (live_iff _ _ LV)|]. split; [|exact LG].
  intros b t K. apply (FR b (client FStatic t)). unfold frame. apply (in_map (fun p => (fst p, client FStatic (snd p)))) in K. exact K.
Qed.

(** Every string handed over with a client procedure is given back exactly once, in order. *)
Definition handed_over (os : list op) : list (nat * str) :=
  flat_map (fun o => match o with OSet (Some t) (FProc n) => [(n, t)] | _ => [] end) os.

Lemma give_back_handed os : forall a,
  (forall f t, held a = Some (f, t) -> f = FDynamic \/ exists n, f = FProc n) ->
  give_back (fold_left spec_op os a) = give_back a ++ handed_over os.
Proof.
  induction os as [|o os IH]; intros a H; cbn [fold_left handed_over flat_map].
  - rewrite app_nil_r. reflexivity.
  - assert (K : forall f t, held (spec_op a o) = Some (f, t) -> f = FDynamic \/ exists n, f = FProc n).
    { intros f t. destruct o as [[u|] g|u|c|[n|] out| |]; cbn [spec_op append held]; try discriminate.
      - destruct g as [| | |n]; try discriminate.
        + destruct (200 <? zlen u); [|discriminate]. intro E. injection E as <- _. auto.
        + intro E. injection E as <- _. auto.
        + intro E. injection E as <- _. eauto.
      - apply H. }
    rewrite (IH _ K). clear IH K. fold (handed_over os). rewrite app_assoc. f_equal.
    destruct o as [[u|] g|u|c|[n|] out| |]; unfold give_back at 1; cbn [spec_op append held log]; try (rewrite app_nil_r; reflexivity).
    + destruct g as [| | |n]; try (rewrite app_nil_r; reflexivity); [|reflexivity].
      destruct (200 <? zlen u); rewrite app_nil_r; reflexivity.
Qed.

Theorem C29_released_once : forall junk legacy os,
  all_allowed abs0 os -> total os <= 536870912 ->
  exists m ds st m', run junk legacy os = Ok (m, ds, st) /\ arg_dstr_destroy m ds = Ok m' /\ mlog m' = handed_over os.
Proof.
  intros junk legacy os AL BD. destruct (C29_nothing_leaked junk legacy os AL BD) as [m [ds [st [m' [E [E' [_ [_ [_ [_ LG]]]]]]]]]].
  exists m, ds, st, m'. split; [exact E|]. split; [exact E'|]. rewrite LG. unfold spec_ops.
  rewrite give_back_handed; [reflexivity|]. intros f t K. discriminate.
Qed.

(** C30: whatever the length of the format and of the formatted text, arg_dstr_catf terminates and appends
    all of it, for both kinds of vsnprintf. *)
Lemma allowed_app os : forall a o, all_allowed a os -> allowed (fold_left spec_op os a) o -> all_allowed a (os ++ [o]).
Proof.
  induction os as [|p os IH]; intros a o H K; cbn [app all_allowed fold_left] in *; [auto|].
  destruct H as [H1 H2]. split; [exact H1|]. apply IH; assumption.
Qed.
Lemma total_app os o : total (os ++ [o]) = total os + weight o.
Proof. unfold total. induction os as [|p os IH]; cbn [app fold_right]; [lia|]. rewrite IH. lia. Qed.

Lemma upto_nul_id s : cstr s -> upto_nul s = s.
Proof.
  induction s as [|c s IH]; intro H; cbn [upto_nul]; [reflexivity|].
  destruct (ceqb_spec c NUL) as [E|E]; [exfalso; apply H; left; assumption|].
  rewrite IH; [reflexivity|]. intro K. apply H. right. assumption.
Qed.

Theorem C30_formatted_append : forall junk legacy os flen out t,
  all_allowed abs0 os -> text (spec_ops os) = Some t -> cstr out -> 0 <= flen ->
  total os + flen + zlen out <= 536870912 ->
  exists m ds st m' ds',
    run junk legacy os = Ok (m, ds, st) /\
    arg_dstr_catf junk legacy m ds (Some flen) out = Ok (m', ds') /\
    rd_str m' (arg_dstr_cstr ds') = Ok (t ++ out).
Proof.
  intros junk legacy os flen out t AL T CS FL BD.
  assert (T0 : 0 <= zlen out) by apply zlen_nonneg.
  destruct (run_ok junk legacy os AL) as [m [ds [st [E [I _]]]]]; [lia|].
  assert (TL : zlen t <= total os).
  { assert (X : forall os a, all_allowed a os -> tlen (fold_left spec_op os a) <= tlen a + total os).
    { clear. induction os as [|o os IH]; intros a H; cbn [fold_left total fold_right]; [lia|].
      destruct H as [H1 H2]. apply IH in H2. apply tlen_op in H1. unfold total in H2. lia. }
    specialize (X os abs0 AL). unfold spec_ops in T. unfold tlen at 1 in X. rewrite T in X. exact X. }
  destruct (catf_ok junk legacy m ds _ _ t flen out I T FL) as [m' [ds' [E' [I' _]]]]; [lia|].
  exists m, ds, st, m', ds'. split; [exact E|]. split; [exact E'|].
  apply (text_read _ _ _ _ _ I'). unfold append. cbn [text]. rewrite T. rewrite upto_nul_id by assumption. reflexivity.
Qed.

Lemma cat_last_app junk legacy s os : forall m0 d0 l m ds st,
  run_ops junk legacy m0 d0 (os ++ [OCat s]) l = Ok (m, ds, st) -> d_app ds <> None.
Proof.
  induction os as [|o os IH]; intros m0 d0 l m ds st E; cbn [app run_ops] in E.
  - apply bind_ok in E. destruct E as [[[m1 d1] s1] [E1 E2]]. injection E2 as <- <- <-.
    cbn [run_op mnew] in E1. apply bind_ok in E1. destruct E1 as [[m2 d2] [E1 E3]]. injection E3 as <- <- <-.
    unfold arg_dstr_cat in E1. apply bind_ok in E1. destruct E1 as [y1 [_ E1]]. apply bind_ok in E1. destruct E1 as [y2 [_ E1]].
    apply bind_ok in E1. destruct E1 as [y3 [_ E1]]. apply bind_ok in E1. destruct E1 as [[y4 y5] [E4 E1]].
    apply bind_ok in E1. destruct E1 as [y6 [_ E1]]. apply bind_ok in E1. destruct E1 as [y7 [_ E1]].
    apply bind_ok in E1. destruct E1 as [y8 [_ E1]]. injection E1 as _ <-.
    unfold setup_append_buf in E4. apply bind_ok in E4. destruct E4 as [[z1 z2] [_ E4]].
    apply bind_ok in E4. destruct E4 as [z3 [_ E4]]. apply bind_ok in E4. destruct E4 as [[z4 z5] [_ E4]].
    apply bind_ok in E4. destruct E4 as [[z6 z7] [_ E4]]. destruct (d_app z7) eqn:AZ; [|discriminate].
    injection E4 as _ <-. cbn [d_app upd_data]. congruence.
  - apply bind_ok in E. destruct E as [[[m1 d1] s1] [E1 E2]]. exact (IH _ _ _ _ _ _ E2).
Qed.

(** C28: the text can be set to a part of itself once something has been appended, because the new text is
    copied before the old buffer is released... *)
Theorem C28_set_part_of_text : forall junk legacy os s t j,
  all_allowed abs0 os -> text (spec_ops os) = Some t -> cstr s -> total os + zlen s <= 536870912 ->
  0 <= j <= zlen (t ++ s) ->
  exists m ds st m' ds',
    run junk legacy (os ++ [OCat s]) = Ok (m, ds, st) /\
    arg_dstr_set junk m ds (Some (padd (arg_dstr_cstr ds) j)) FVolatile = Ok (m', ds') /\
    rd_str m' (arg_dstr_cstr ds') = Ok (skipn (Z.to_nat j) (t ++ s)).
Proof.
  intros junk legacy os s t j AL T CS BD JB.
  destruct (run_ok junk legacy (os ++ [OCat s])) as [m [ds [st [E [I _]]]]].
  { apply allowed_app; [exact AL|]. cbn [allowed]. split; [exact CS|]. unfold spec_ops in T. congruence. }
  { rewrite total_app. cbn [weight]. lia. }
  exists m, ds, st.
  unfold spec_ops in I. rewrite fold_left_app in I. cbn [fold_left spec_op] in I. fold (spec_ops os) in I.
  rewrite (append_text _ t s T) in I. set (u := t ++ s) in *.
  assert (CU := text_cstr _ _ _ _ _ I eq_refl).
  (* the text is in the append buffer *)
  assert (AP : exists x k, d_app ds = Some x /\ d_data ds = (x, 0) /\ d_free ds = FStatic /\ (0 < k)%nat /\ in_block m x (u ++ repeat NUL k)).
  { assert (X : d_app ds <> None).
    { unfold run in E. apply bind_ok in E. destruct E as [[m0 d0] [_ E]]. exact (cat_last_app _ _ _ _ _ _ _ _ _ _ E). }
    destruct (i_shape _ _ _ _ I) as [_ SH]. destruct (d_app ds) as [x|]; [|congruence].
    destruct SH as [S1 [S2 [v [k [T1 [T2 [T3 [T4 _]]]]]]]]. cbn [appended text] in T1. injection T1 as <-. exists x, k. auto. }
  destruct AP as [x [k [A1 [A2 [A3 [A4 A5]]]]]].
  unfold arg_dstr_cstr. rewrite A2. unfold padd. cbn [fst snd]. rewrite Z.add_0_l.
  set (v := skipn (Z.to_nat j) u).
  assert (JN : (Z.to_nat j <= List.length u)%nat) by (unfold zlen in JB; lia).
  assert (CV : cstr v).
  { intro K. apply CU. rewrite <- (firstn_skipn (Z.to_nat j) u). apply in_or_app. right. exact K. }
  assert (RD : forall m', mget m' x = mget m x -> rd_str m' (x, j) = Ok v).
  { intros m' G. unfold rd_str, rd, mblk. cbn [fst snd]. rewrite G. unfold in_block in A5. rewrite A5. cbn [bind b_data].
    destruct (Z.leb_spec 0 j); [|lia]. destruct (Z.leb_spec j (zlen (u ++ repeat NUL k))).
    2:{ rewrite zlen_app in *. pose proof (zlen_nonneg (repeat NUL k)). lia. }
    cbn [andb bind]. rewrite skipn_app. replace (Z.to_nat j - List.length u)%nat with 0%nat by lia. cbn [skipn].
    rewrite scan0_zeros by assumption. reflexivity. }
  assert (LV := i_live _ _ _ _ I). assert (OW : own ds = [x]) by (unfold own; rewrite A1, A3; reflexivity).
  assert (XS : x <> d_self ds) by (apply (live_disjoint _ _ _ _ LV); rewrite OW; left; reflexivity).
  assert (XL : (x < mnext m)%nat) by (apply (live_next _ _ LV); rewrite OW; right; left; reflexivity).
  assert (VL : zlen v <= 536870912).
  { assert (zlen v <= zlen u) by (unfold zlen, v; rewrite skipn_length; lia).
    assert (zlen u <= total os + zlen s); [|lia]. unfold u. rewrite zlen_app.
    assert (X : forall os a, all_allowed a os -> tlen (fold_left spec_op os a) <= tlen a + total os).
    { clear. induction os as [|o os IH]; intros a H; cbn [fold_left total fold_right]; [lia|].
      destruct H as [H1 H2]. apply IH in H2. apply tlen_op in H1. unfold total in H2. lia. }
    specialize (X os abs0 AL). unfold spec_ops in T. unfold tlen at 1 in X. rewrite T in X. unfold tlen in X. cbn [text abs0] in X.
    change (zlen (@nil ascii)) with 0 in X. lia. }
  assert (PL : live m (own ds ++ d_self ds :: map fst (frame st))).
  { eapply perm_live; [|exact LV]. apply Permutation.Permutation_middle. }
  rewrite arg_dstr_set_eq. rewrite (RD m eq_refl). cbn [bind].
  rewrite c_int_ok by (unfold INT_MIN, INT_MAX; pose proof (zlen_nonneg v); lia). cbn [bind].
  destruct (ARG_DSTR_SIZE <? zlen v) eqn:SZ; [apply Z.ltb_lt in SZ as BIG|apply Z.ltb_ge in SZ as SMALL].
  - cbn [xmalloc mnew d_data upd_data].
    set (fr := fresh junk (zlen v + 1)).
    set (m0 := {| mget := _; mnext := _; mlog := _ |}).
    assert (I0 := inv_new _ _ _ _ true fr I). change (fst (mnew m true fr)) with m0 in I0.
    assert (GN : mget m0 (mnext m) = Some {| b_heap := true; b_data := fr |}) by (apply (i_frame _ _ _ _ I0); left; reflexivity).
    destruct (frame_ne _ _ _ _ (mnext m) _ I0 (or_introl eq_refl)) as [NS0 NO0].
    assert (G0 : forall i, i <> mnext m -> mget m0 i = mget m i).
    { intros i K. unfold m0. cbn [mget]. destruct (Nat.eqb_spec i (mnext m)); [congruence|reflexivity]. }
    rewrite (strcpy_ok m0 (mnext m) _ (x, j) v GN); [|apply RD; apply G0; lia|cbn [fst]; lia|].
    2:{ cbn [b_data]. unfold fr. rewrite fresh_len; pose proof (zlen_nonneg v); lia. }
    cbn [bind b_heap b_data].
    set (bl := {| b_heap := true; b_data := v ++ NUL :: skipn (S (List.length v)) fr |}).
    destruct (set_tail_ok m ds _ (frame st) (mset m0 (mnext m) (Some bl)) (mnext m, 0) FDynamic (frame st) (Some (FDynamic, v)) v I)
      as [m' [ds' [E' [I' S']]]]; auto.
    + cbn [owns fst]. assert (LV0 := i_live _ _ _ _ I0).
      eapply perm_live; [|apply live_set; [exact LV0|right; apply in_or_app; right; left; reflexivity]].
      cbn [map fst]. eapply Permutation.perm_trans; [apply Permutation.Permutation_middle|]. cbn [app]. apply Permutation.Permutation_refl.
    + intros i K. rewrite mget_mset_neq by congruence. apply G0. congruence.
    + intros c q K. assert (c < mnext m)%nat.
      { apply (live_next _ _ LV). right. apply in_or_app. right. apply (in_map fst) in K. exact K. }
      rewrite mget_mset_neq by lia. rewrite G0 by lia. apply (i_frame _ _ _ _ I). exact K.
    + destruct (i_self _ _ _ _ I0) as [d [D1 D2]]. exists d. split; [|assumption]. unfold in_block. rewrite mget_mset_neq by congruence. exact D1.
    + eapply rd_str_0; [apply mget_mset_eq|]. cbn [bl b_data]. apply scan0_app. assumption.
    + right. left. reflexivity.
    + unfold releasable. cbn [d_free d_data upd_data fst snd held]. repeat split; [|eauto].
      eexists. split; [apply mget_mset_eq|reflexivity].
    + exists m', ds'. split; [exact E|]. split; [exact E'|]. apply (text_read _ _ _ _ v I'). reflexivity.
  - cbn [d_data upd_data]. rewrite (strcpy_wr m (sbuf ds) (x, j) v (RD m eq_refl)) by (cbn [fst sbuf]; congruence).
    destruct (self_write m ds _ _ v I CV) as [m1 [W [LG1 [LV1 [G [SB RD1]]]]]]; [exact SMALL|].
    rewrite W. cbn [bind].
    destruct (set_tail_ok m ds _ (frame st) m1 (sbuf ds) FStatic (frame st) None v I)
      as [m' [ds' [E' [I' S']]]]; auto.
    + intros i K. apply G. apply (live_disjoint _ _ _ _ LV). assumption.
    + intros c q K. rewrite G; [apply (i_frame _ _ _ _ I); assumption|]. eapply frame_ne; [exact I|exact K].
    + left. reflexivity.
    + reflexivity.
    + exists m', ds'. split; [exact E|]. split; [exact E'|]. apply (text_read _ _ _ _ v I'). reflexivity.
Qed.

(** ... but while the text is in the fixed buffer this is a copy between overlapping ranges. *)
Theorem C28_set_part_of_text_refuted : forall junk legacy,
  exists os m ds st, run junk legacy os = Ok (m, ds, st) /\ rd_str m (arg_dstr_cstr ds) = Ok (lit "abc") /\
    arg_dstr_set junk m ds (Some (padd (arg_dstr_cstr ds) 1)) FVolatile = UB Overlap.
Proof.
  intros junk legacy. exists [OSet (Some (lit "abc")) FVolatile].
  destruct (C28_text junk legacy [OSet (Some (lit "abc")) FVolatile]) as [m [ds [st [E T]]]].
  { cbn. split; [|exact I]. intros [K|[K|[K|[]]]]; discriminate. }
  { cbn. lia. }
  exists m, ds, st. split; [exact E|]. split; [apply T; reflexivity|].
  cbn in E. injection E as <- <- _. cbn. reflexivity.
Qed.

(** A client that shortens the text in place loses this when it appends again: the bytes behind the new end
    come back. *)
Theorem C28_shortened_by_client_refuted : forall junk legacy,
  exists os m ds st m1 m2 ds2 m3, run junk legacy os = Ok (m, ds, st) /\
    wr m (padd (arg_dstr_cstr ds) 1) [NUL] = Ok m1 /\ rd_str m1 (arg_dstr_cstr ds) = Ok (lit "a") /\
    arg_dstr_catc junk m1 ds "x" = Ok (m2, ds2) /\ rd_str m2 (arg_dstr_cstr ds2) = Ok m3 /\ m3 = lit "axc".
Proof.
  intros junk legacy. exists [OCat (lit "abc")].
  do 6 eexists. exists (lit "axc"). split; [reflexivity|]. split; [reflexivity|]. split; [reflexivity|].
  split; [reflexivity|]. split; reflexivity.
Qed.

(** Appending the text to itself reads the released buffer when the buffer has to grow. *)
Definition sixty : str := lit "123456789012345678901234567890123456789012345678901234567890".
Theorem C29_self_append_refuted :
  exists os m ds st, run (fun _ => NUL) false os = Ok (m, ds, st) /\ all_allowed abs0 os /\
    arg_dstr_cat (fun _ => NUL) m ds (arg_dstr_cstr ds) = UB UseAfterFree.
Proof.
  exists [OCat sixty; OCat sixty]. do 3 eexists. split; [reflexivity|]. split; [|vm_compute; reflexivity].
  cbn [all_allowed allowed]. assert (C : cstr sixty).
  { unfold cstr. intro K. apply (in_map (fun c => ceqb c NUL)) in K. rewrite ceqb_refl in K.
    revert K. vm_compute. intuition discriminate. }
  repeat split; auto; discriminate.
Qed.

(** The string must not be used after arg_dstr_free has released the text. *)
Theorem C29_use_after_free_refuted :
  exists os m ds st, run (fun _ => NUL) false os = Ok (m, ds, st) /\ all_allowed abs0 os /\
    arg_dstr_catc (fun _ => NUL) m ds "x" = UB UseAfterFree.
Proof.
  exists [OSet (Some (lit "abc")) FDynamic; OFree]. do 3 eexists. split; [reflexivity|]. split; [|vm_compute; reflexivity].
  cbn. split; [|auto]. intros [K|[K|[K|[]]]]; discriminate.
Qed.

(** ** Examples *)
Definition ex_ops : list op :=
  [OSet (Some (lit "abc")) FDynamic; OCat (lit "de"); OCatc "f"; OCatf (Some 2) sixty;
   OSet (Some (lit "held")) (FProc 7); OCatf (Some 30) (lit "xyz"); OSet (Some (lit "static")) FStatic; OCat (lit "!")].
Example C28_ex : all_allowed abs0 ex_ops /\ total ex_ops <= 536870912 /\ text (spec_ops ex_ops) = Some (lit "static!").
Proof.
  assert (D : forall s : str, forallb (fun c => negb (ceqb c NUL)) s = true -> cstr s).
  { intros s H K. rewrite forallb_forall in H. apply H in K. rewrite ceqb_refl in K. discriminate. }
  split; [|split; [vm_compute; discriminate|vm_compute; reflexivity]].
  unfold ex_ops. cbn [all_allowed allowed].
  repeat split; try (apply D; reflexivity); try (vm_compute; discriminate).
  - intros n E. injection E as <-. lia.
  - intros n E. injection E as <-. lia.
Qed.
Example C29_ex : handed_over ex_ops = [(7%nat, lit "held")] /\ statics ex_ops = [lit "static"].
Proof. split; reflexivity. Qed.
Example C30_ex : match run (fun _ => "!"%char) true [OCatf (Some 1) sixty] with
                 | Ok (m, ds, _) => rd_str m (arg_dstr_cstr ds) = Ok sixty
                 | _ => False
                 end.
Proof. vm_compute. reflexivity. Qed.

Print Assumptions C28_text.
Print Assumptions C28_set_part_of_text.
Print Assumptions C28_set_part_of_text_refuted.
Print Assumptions C28_shortened_by_client_refuted.
Print Assumptions C29_nothing_leaked.
Print Assumptions C29_released_once.
Print Assumptions C29_self_append_refuted.
Print Assumptions C29_use_after_free_refuted.
Print Assumptions C30_formatted_append.
