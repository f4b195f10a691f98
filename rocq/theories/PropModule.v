(** C56: arg_set_module_name and arg_set_module_version. *)
From Coq Require Import ZArith String List Ascii Bool Lia DecimalString DecimalZ Permutation.
From Verif Require Import Base ParseModel MemModel DstrModel DstrSpec DstrProofs PrintProofs HelpModel.
Import ListNotations.
Open Scope Z_scope.

(** ** A client: calls with texts of its own, which it destroys after each call *)
Inductive mop := SetName (t : str) | SetVersion (major minor patch : Z) (tag : str).

Section Run.
Context (junk : nat -> ascii) (legacy : bool).
Definition run_mop (m : mem) (s : modstate) (o : mop) : res (mem * modstate) :=
  let t := match o with SetName t => t | SetVersion _ _ _ t => t end in
  let '(m, b) := mnew m false (t ++ [NUL]) in
  '(m, s) <- match o with
             | SetName _ => arg_set_module_name junk m s (b, 0)
             | SetVersion x y z _ => arg_set_module_version junk legacy m s x y z (b, 0)
             end ;;
  Ok (mset m b None, s).
Fixpoint run_mops (m : mem) (s : modstate) (l : list mop) : res (mem * modstate) :=
  match l with
  | [] => Ok (m, s)
  | o :: l => '(m, s) <- run_mop m s o ;; run_mops m s l
  end.
End Run.

(** ** The expectation: what was set last *)
Definition version_text (major minor patch : Z) (tag : str) : str :=
  pct_d major ++ lit "." ++ pct_d minor ++ lit "." ++ pct_d patch ++ lit "." ++ tag.
Definition spec_mop (e : option str * option str) (o : mop) : option str * option str :=
  match o with
  | SetName t => (Some t, snd e)
  | SetVersion x y z tag => (fst e, Some (version_text x y z tag))
  end.
Definition spec_mops (l : list mop) : option str * option str := fold_left spec_mop l (None, None).
Definition name_of (e : option str * option str) : str := match fst e with Some (c :: t) => c :: t | _ => lit "<name>" end.
Definition version_of (e : option str * option str) : str := match snd e with Some t => t | None => lit "0.0.0.0" end.
Definition fits (o : mop) : Prop :=
  match o with SetName t => cstr t | SetVersion x y z t => cstr t /\ zlen (version_text x y z t) <= 268435456 end.

(** The decimal numerals: [pct_d z] is one that reads as z. *)
Lemma pct_d_reads z : exists d, pct_d z = lit (NilZero.string_of_int d) /\ Z.of_int d = z.
Proof. exists (Z.to_int z). split; [reflexivity|apply DecimalZ.of_to]. Qed.
Lemma uint_cstr d : cstr (lit (NilEmpty.string_of_uint d)).
Proof. induction d; cbn [NilEmpty.string_of_uint]; [intros []|..]; (intros [K|K]; [discriminate|exact (IHd K)]). Qed.
Lemma uint_cstr0 d : cstr (lit (NilZero.string_of_uint d)).
Proof. destruct d; unfold NilZero.string_of_uint; [intros [K|[]]; discriminate|apply uint_cstr..]. Qed.
Lemma pct_d_cstr z : cstr (pct_d z).
Proof.
  unfold pct_d, NilZero.string_of_int. destruct (Z.to_int z) as [d|d]; [apply uint_cstr0|].
  intros [K|K]; [discriminate|]. exact (uint_cstr0 d K).
Qed.
Lemma pct_d_nonempty z : pct_d z <> [].
Proof.
  unfold pct_d, NilZero.string_of_int, NilZero.string_of_uint. destruct (Z.to_int z) as [d|d]; [|discriminate].
  destruct d; cbn [NilEmpty.string_of_uint]; discriminate.
Qed.

(** ** Memory *)
Definition holds (m : mem) (G : list (nat * mblock)) : Prop :=
  live m (map fst G) /\ forall b k, In (b, k) G -> mget m b = Some k.
Definition copy_of (t : str) : mblock := {| b_heap := true; b_data := t ++ [NUL] |}.

Lemma holds_perm m G G' : Permutation G G' -> holds m G -> holds m G'.
Proof.
  intros P [L F]. split; [exact (perm_live _ _ _ (Permutation_map fst P) L)|].
  intros b k K. apply F. apply (Permutation_in _ (Permutation_sym P)). exact K.
Qed.
Lemma holds_new m G h d : holds m G -> holds (fst (mnew m h d)) ((mnext m, {| b_heap := h; b_data := d |}) :: G).
Proof.
  intros [L F]. split; [exact (live_new m _ h d L)|]. intros b k [K|K].
  - injection K as <- <-. cbn [mnew fst mget]. rewrite Nat.eqb_refl. reflexivity.
  - pose proof (live_next _ _ L b (in_map fst _ _ K)). cbn [mnew fst mget]. destruct (Nat.eqb_spec b (mnext m)); [lia|]. apply F. exact K.
Qed.
Lemma holds_set m b k k' G : holds m ((b, k) :: G) -> holds (mset m b (Some k')) ((b, k') :: G).
Proof.
  intros [L F]. split; [apply live_set; [exact L|left; reflexivity]|]. intros c q [K|K].
  - injection K as <- <-. apply mget_mset_eq.
  - rewrite mget_mset_neq; [apply F; right; exact K|]. intros ->. pose proof (live_nodup _ _ L) as N. inversion N as [|x y U V]; subst.
    apply U. exact (in_map fst _ _ K).
Qed.
Lemma holds_del m b k G : holds m ((b, k) :: G) -> holds (mset m b None) G.
Proof.
  intros [L F]. pose proof (live_nodup _ _ L) as N. inversion N as [|x y U V]; subst. split.
  - apply (live_del _ _ _ _ L); auto. intro i. cbn [map fst In]. intuition congruence.
  - intros c q K. rewrite mget_mset_neq; [apply F; right; exact K|]. intros ->. apply U. exact (in_map fst _ _ K).
Qed.
Lemma inv_perm m ds a F F' : Permutation F F' -> Inv m ds a F -> Inv m ds a F'.
Proof.
  intros P [A B C D E]. constructor; auto.
  - apply (perm_live _ (d_self ds :: own ds ++ map fst F)); [|exact A]. constructor. apply Permutation_app_head. apply Permutation_map. exact P.
  - intros b k K. apply B. apply (Permutation_in _ (Permutation_sym P)). exact K.
Qed.

Section Proofs.
Context (junk : nat -> ascii) (legacy : bool).

Lemma store_copy_eq m src s : rd_str m src = Ok s -> (fst src < mnext m)%nat ->
  store_copy junk m src =
  Ok (mset (mset (fst (xmalloc junk m (zlen s + 1))) (mnext m) (Some (zeros (zlen s + 1)))) (mnext m) (Some (copy_of s)), mnext m).
Proof.
  intros R LT. pose proof (zlen_nonneg s) as Z0. unfold store_copy. rewrite R. cbn [bind].
  pose proof (xmalloc_get junk m (zlen s + 1)) as G1.
  destruct (xmalloc junk m (zlen s + 1)) as [m1 nb] eqn:XM.
  assert (nb = mnext m) by (injection XM as _ <-; reflexivity). subst nb. cbn [fst] in *.
  rewrite (memset0_ok m1 (mnext m) _ (zlen s + 1) G1) by (cbn [b_data]; try rewrite fresh_len; lia). cbn [bind b_heap].
  set (m2 := mset m1 (mnext m) _).
  assert (RD : exists l, rd m2 src = Ok (s ++ NUL :: l)).
  { assert (E : mget m2 (fst src) = mget m (fst src)).
    { unfold m2. rewrite mget_mset_neq by lia. injection XM as <-. cbn [mget]. destruct (Nat.eqb_spec (fst src) (mnext m)); [lia|reflexivity]. }
    unfold rd_str in R. unfold rd, mblk in *. rewrite E. destruct (mget m (fst src)) as [k|]; cbn [bind] in *; [|discriminate].
    destruct ((0 <=? snd src) && (snd src <=? zlen (b_data k))); cbn [bind] in *; [|discriminate].
    destruct (scan0 (skipn (Z.to_nat (snd src)) (b_data k))) as [x|] eqn:SC; [|discriminate]. injection R as ->.
    destruct (scan0_some _ _ SC) as [_ [r ->]]. eexists. reflexivity. }
  destruct RD as [l RD]. unfold memcpy. rewrite RD. cbn [bind].
  assert (ZL : zlen (s ++ NUL :: l) = zlen s + 1 + zlen l) by (rewrite zlen_app, zlen_cons; lia). pose proof (zlen_nonneg l).
  destruct (Z.ltb_spec (zlen (s ++ NUL :: l)) (zlen s)); [lia|].
  unfold overlap. cbn [fst]. replace (Nat.eqb (mnext m) (fst src)) with false by (symmetry; apply Nat.eqb_neq; lia). cbn [andb]. rewrite andb_false_r.
  replace (Z.to_nat (zlen s)) with (List.length s) by (unfold zlen; lia). rewrite firstn_app, firstn_all, Nat.sub_diag. cbn [firstn]. rewrite app_nil_r.
  assert (LR : zlen (repeat NUL (Z.to_nat (zlen s + 1))) = zlen s + 1) by (unfold zlen at 1; rewrite repeat_length; lia).
  rewrite (wr_ok m2 (mnext m) _ 0 s (mget_mset_eq _ _ _)); [|lia|cbn [b_data]; lia].
  cbn [bind b_heap b_data]. change (Z.to_nat 0) with 0%nat. cbn [firstn app plus]. rewrite skipn_repeat.
  replace (Z.to_nat (zlen s + 1) - List.length s)%nat with 1%nat by (unfold zlen; lia). reflexivity.
Qed.

Lemma store_copy_holds m src s G : holds m G -> rd_str m src = Ok s ->
  exists m', store_copy junk m src = Ok (m', mnext m) /\ holds m' ((mnext m, copy_of s) :: G) /\ mlog m' = mlog m.
Proof.
  intros H R.
  assert (LT : (fst src < mnext m)%nat) by (apply (live_next _ _ (proj1 H)); apply (live_iff _ _ (proj1 H)); exact (rd_str_alive _ _ _ R)).
  rewrite (store_copy_eq m src s R LT). eexists. split; [reflexivity|]. split; [|reflexivity].
  eapply holds_set. eapply holds_set. apply holds_new. exact H.
Qed.

Lemma store_copy_inv m ds a G t : Inv m ds a G -> text a = Some t ->
  exists m', store_copy junk m (arg_dstr_cstr ds) = Ok (m', mnext m) /\ Inv m' ds a ((mnext m, copy_of t) :: G).
Proof.
  intros I T. pose proof (data_below _ _ _ _ _ I T) as LT. unfold arg_dstr_cstr.
  rewrite (store_copy_eq m (d_data ds) t (text_read _ _ _ _ _ I T) LT). eexists. split; [reflexivity|].
  eapply inv_frame_write; [|lia]. eapply inv_frame_write; [|lia]. exact (inv_new _ _ _ _ true _ I).
Qed.

Lemma create_any m G : holds m G ->
  exists m' ds, arg_dstr_create junk m = Ok (m', ds) /\ Inv m' ds {| text := Some []; held := None; log := mlog m |} G.
Proof.
  intros H. unfold arg_dstr_create. change (ARG_DSTR_SIZE + 1) with 201.
  pose proof (xmalloc_get junk m 201) as G1. pose proof (holds_new m G true (fresh junk 201) H) as H1.
  change (fst (mnew m true (fresh junk 201))) with (fst (xmalloc junk m 201)) in H1.
  destruct (xmalloc junk m 201) as [m1 nb] eqn:XM.
  assert (nb = mnext m) by (injection XM as _ <-; reflexivity). subst nb. cbn [fst] in *.
  rewrite (memset0_ok m1 (mnext m) _ 201 G1) by (cbn [b_data]; try rewrite fresh_len; lia). cbn [bind b_heap].
  set (m2 := mset m1 (mnext m) _).
  erewrite (wr_ok m2 (mnext m) _ 0 [NUL] (mget_mset_eq _ _ _)); [|lia|cbn [b_data]; change (zlen [NUL]) with 1; unfold zlen; rewrite repeat_length; lia].
  cbn [bind b_heap b_data List.length]. change (Z.to_nat 0) with 0%nat. cbn [firstn app plus]. rewrite skipn_repeat.
  eexists _, _. split; [reflexivity|].
  match goal with |- Inv (mset m2 _ (Some ?k)) _ _ _ => pose proof (holds_set _ _ _ k _ (holds_set _ _ _ {| b_heap := true; b_data := repeat NUL (Z.to_nat 201) |} _ H1)) as [H2 H3] end.
  fold m2 in H2, H3. constructor; cbn [d_self].
  - unfold own. cbn [d_free d_app app]. exact H2.
  - intros b k K. apply H3. right. exact K.
  - eexists. split; [apply mget_mset_eq|]. rewrite zlen_cons. unfold zlen. rewrite repeat_length. reflexivity.
  - injection XM as <-. reflexivity.
  - split; [reflexivity|]. cbn [d_app d_size text d_data]. split; [reflexivity|].
    eapply rd_str_0; [apply mget_mset_eq|]. cbn [b_data scan0]. rewrite ceqb_refl. reflexivity.
Qed.

(** The text buffer of a string that was just appended to is its own. *)
Lemma cat_own m ds p m' ds' : arg_dstr_cat junk m ds p = Ok (m', ds') -> In (fst (d_data ds')) (own ds').
Proof.
  unfold arg_dstr_cat. intro H. destruct (rd_str m p) as [s| |]; cbn [bind] in H; try discriminate.
  destruct (c_int (zlen s)) as [z| |]; cbn [bind] in H; try discriminate.
  destruct (c_int (z + 1)) as [z1| |]; cbn [bind] in H; try discriminate.
  destruct (setup_append_buf junk m ds z1) as [[m1 ds1]| |] eqn:E; cbn [bind] in H; try discriminate.
  assert (X : exists x, d_app ds1 = Some x /\ d_data ds1 = (x, 0)).
  { unfold setup_append_buf in E.
    match type of E with (bind ?a _) = _ => destruct a as [[ma da]| |]; cbn [bind] in E; try discriminate end.
    match type of E with (bind ?a _) = _ => destruct a as [tot| |]; cbn [bind] in E; try discriminate end.
    match type of E with (bind ?a _) = _ => destruct a as [[mb db]| |]; cbn [bind] in E; try discriminate end.
    match type of E with (bind ?a _) = _ => destruct a as [[mc dc]| |]; cbn [bind] in E; try discriminate end.
    destruct (d_app dc) as [x|] eqn:AP; [|discriminate]. injection E as <- <-. exists x. split; [exact AP|reflexivity]. }
  destruct X as [x [A B]].
  assert (Y : d_app ds' = Some x /\ fst (d_data ds') = x).
  { rewrite B in H. repeat match type of H with (bind ?a _) = _ => destruct a; cbn [bind] in H; try discriminate end. injection H as <- <-. rewrite B. auto. }
  destruct Y as [Y1 Y2]. unfold own. rewrite Y1, Y2. apply in_or_app. right. left. reflexivity.
Qed.

(** The blocks of the three variables. *)
Definition ocstr' (t : option str) : Prop := match t with Some t => cstr t | None => True end.
Definition hb (o : option nat) (t : option str) : list (nat * mblock) :=
  match o, t with Some b, Some t => [(b, copy_of t)] | _, _ => [] end.
Definition agree {A B} (o : option A) (t : option B) : Prop := match o, t with Some _, Some _ | None, None => True | _, _ => False end.
Definition blocks (s : modstate) (n g v : option str) : list (nat * mblock) :=
  hb (s_module_name s) n ++ hb (s_mod_ver_tag s) g ++ hb (s_mod_ver s) v.
Record minv (m : mem) (s : modstate) (n g v : option str) (F : list (nat * mblock)) : Prop := {
  mi_holds : holds m (blocks s n g v ++ F);
  mi_n : agree (s_module_name s) n; mi_g : agree (s_mod_ver_tag s) g; mi_v : agree (s_mod_ver s) v
}.

Lemma free_opt_holds m o t G : agree o t -> holds m (hb o t ++ G) ->
  exists m', xfree_opt m o = Ok m' /\ holds m' G /\ mlog m' = mlog m.
Proof.
  intros A H. destruct o as [b|], t as [t|]; cbn [agree] in A; try contradiction; cbn [hb app xfree_opt] in *.
  - rewrite (xfree_ok m b (copy_of t)); [|apply (proj2 H); left; reflexivity|reflexivity].
    eexists. split; [reflexivity|]. split; [|reflexivity]. eapply holds_del. exact H.
  - eauto.
Qed.
Lemma free_opt_inv m ds a o t G : In (fst (d_data ds)) (own ds) -> agree o t -> Inv m ds a (hb o t ++ G) ->
  exists m', xfree_opt m o = Ok m' /\ Inv m' ds a G.
Proof.
  intros O A I. destruct o as [b|], t as [t|]; cbn [agree] in A; try contradiction; cbn [hb app xfree_opt] in *.
  - rewrite (xfree_ok m b (copy_of t)); [|apply (i_frame _ _ _ _ I); left; reflexivity|reflexivity].
    eexists. split; [reflexivity|]. eapply inv_del; [exact I|]. intros E.
    destruct (frame_ne _ _ _ _ b _ I (or_introl eq_refl)) as [_ N]. apply N. rewrite <- E. exact O.
  - eauto.
Qed.

Lemma client_read m b t G : holds m G -> In (b, {| b_heap := false; b_data := t ++ [NUL] |}) G -> cstr t -> rd_str m (b, 0) = Ok t.
Proof. intros H I C. eapply rd_str_0; [apply (proj2 H _ _ I)|]. cbn [b_data]. apply scan0_app. exact C. Qed.

Lemma set_name_ok m s n g v F b t : minv m s n g v F -> cstr t -> In (b, {| b_heap := false; b_data := t ++ [NUL] |}) F ->
  exists m' s', arg_set_module_name junk m s (b, 0) = Ok (m', s') /\ minv m' s' (Some t) g v F /\ mlog m' = mlog m.
Proof.
  intros [H A1 A2 A3] C I. unfold arg_set_module_name. unfold blocks in H. rewrite <- app_assoc in H.
  destruct (free_opt_holds m _ _ _ A1 H) as (m1 & E1 & H1 & L1). rewrite E1. cbn [bind].
  destruct (store_copy_holds m1 (b, 0) t _ H1) as (m2 & E2 & H2 & L2).
  { eapply client_read; [exact H1| |exact C]. apply in_or_app. right. exact I. }
  rewrite E2. cbn [bind]. eexists _, _. split; [reflexivity|]. split; [|congruence].
  constructor; cbn [s_module_name s_mod_ver_tag s_mod_ver]; [exact H2|exact Logic.I|exact A2|exact A3].
Qed.

Lemma upto_id s : cstr s -> upto_nul s = s.
Proof.
  intro H. induction s as [|c s IH]; [reflexivity|]. cbn [upto_nul]. destruct (ceqb_spec c NUL) as [E|E].
  - exfalso. apply H. left. exact E.
  - f_equal. apply IH. intro K. apply H. right. exact K.
Qed.
Lemma append_plain t L s : append {| text := Some t; held := None; log := L |} s = {| text := Some (t ++ s); held := None; log := L |}.
Proof. reflexivity. Qed.
Lemma cstr_dot z : cstr (pct_d z ++ lit ".").
Proof. apply cstr_app. split; [apply pct_d_cstr|]. intros [K|[]]. discriminate. Qed.

Lemma set_version_ok m s n g v F b x y z t : minv m s n g v F -> cstr t -> In (b, {| b_heap := false; b_data := t ++ [NUL] |}) F ->
  zlen (version_text x y z t) <= 268435456 ->
  exists m' s', arg_set_module_version junk legacy m s x y z (b, 0) = Ok (m', s') /\
    minv m' s' n (Some t) (Some (version_text x y z t)) F /\ mlog m' = mlog m.
Proof.
  intros [H A1 A2 A3] C I BD. unfold arg_set_module_version.
  assert (P1 : Permutation (blocks s n g v ++ F) (hb (s_mod_ver_tag s) g ++ (hb (s_mod_ver s) v ++ hb (s_module_name s) n ++ F))).
  { unfold blocks. rewrite <- !app_assoc.
    eapply Permutation_trans; [apply Permutation_app_swap_app|]. apply Permutation_app_head.
    apply Permutation_app_swap_app. }
  apply (holds_perm _ _ _ P1) in H.
  destruct (free_opt_holds m _ _ _ A2 H) as (m1 & E1 & H1 & L1). rewrite E1. cbn [bind].
  destruct (store_copy_holds m1 (b, 0) t _ H1) as (m2 & E2 & H2 & L2).
  { eapply client_read; [exact H1| |exact C]. apply in_or_app. right. apply in_or_app. right. exact I. }
  rewrite E2. cbn [bind]. set (tb := mnext m1) in *. clearbody tb.
  destruct (create_any m2 _ H2) as (m3 & ds & E3 & I3). rewrite E3. cbn [bind].
  unfold version_text in BD. rewrite !zlen_app in BD. change (zlen (lit ".")) with 1 in BD.
  pose proof (zlen_nonneg (pct_d x)). pose proof (zlen_nonneg (pct_d y)). pose proof (zlen_nonneg (pct_d z)). pose proof (zlen_nonneg t).
  assert (ZD : forall q, zlen (pct_d q ++ lit ".") = zlen (pct_d q) + 1) by (intro q; rewrite zlen_app; reflexivity).
  destruct (catf_ok junk legacy m3 ds _ _ [] 3 (pct_d x ++ lit ".") I3 eq_refl) as (m4 & ds4 & E4 & I4 & _); [lia|rewrite ZD; change (zlen (@nil ascii)) with 0; lia|].
  rewrite E4. cbn [bind]. rewrite upto_id in I4 by apply cstr_dot. rewrite append_plain in I4. cbn [app] in I4.
  destruct (catf_ok junk legacy m4 ds4 _ _ _ 3 (pct_d y ++ lit ".") I4 eq_refl) as (m5 & ds5 & E5 & I5 & _); [lia|rewrite !ZD; lia|].
  rewrite E5. cbn [bind]. rewrite upto_id in I5 by apply cstr_dot. rewrite append_plain in I5.
  destruct (catf_ok junk legacy m5 ds5 _ _ _ 3 (pct_d z ++ lit ".") I5 eq_refl) as (m6 & ds6 & E6 & I6 & _); [lia|rewrite !zlen_app; change (zlen (lit ".")) with 1; lia|].
  rewrite E6. cbn [bind]. rewrite upto_id in I6 by apply cstr_dot. rewrite append_plain in I6.
  destruct (cat_ok junk m6 ds6 _ _ tb (copy_of t) t (((pct_d x ++ lit ".") ++ pct_d y ++ lit ".") ++ pct_d z ++ lit ".") I6 (or_introl eq_refl)) as (m7 & ds7 & E7 & I7 & _).
  { cbn [copy_of b_data]. apply scan0_app. exact C. } { reflexivity. }
  { rewrite !zlen_app. change (zlen (lit ".")) with 1. lia. }
  rewrite E7. cbn [bind]. rewrite append_plain in I7.
  pose proof (cat_own _ _ _ _ _ E7) as OW.
  apply (inv_perm _ _ _ _ _ (Permutation_middle (hb (s_mod_ver s) v) (hb (s_module_name s) n ++ F) (tb, copy_of t))) in I7.
  destruct (free_opt_inv m7 ds7 _ _ _ _ OW A3 I7) as (m8 & E8 & I8). rewrite E8. cbn [bind].
  destruct (store_copy_inv m8 ds7 _ _ _ I8 eq_refl) as (m9 & E9 & I9). rewrite E9. cbn [bind]. set (vb := mnext m8) in *. clearbody vb.
  destruct (destroy_ok m9 ds7 _ _ I9) as (m10 & E10 & L10 & F10 & G10). rewrite E10. cbn [bind].
  eexists _, _. split; [reflexivity|]. split.
  - constructor; cbn [s_module_name s_mod_ver_tag s_mod_ver]; auto; try (exact Logic.I).
    assert (P2 : Permutation ((vb, copy_of (((((pct_d x ++ lit ".") ++ pct_d y ++ lit ".") ++ pct_d z ++ lit ".") ++ t))) :: (tb, copy_of t) :: hb (s_module_name s) n ++ F)
       (blocks {| s_module_name := s_module_name s; s_mod_ver_tag := Some tb; s_mod_ver := Some vb |} n (Some t) (Some (version_text x y z t)) ++ F)).
    { unfold blocks, version_text. cbn [s_module_name s_mod_ver_tag s_mod_ver hb app]. rewrite <- !app_assoc. cbn [app].
      eapply Permutation_trans; [apply perm_swap|].
      apply (Permutation_app_swap_app [_; _] (hb (s_module_name s) n) F). }
    apply (holds_perm _ _ _ P2). split; assumption.
  - rewrite G10. unfold give_back. cbn [held log]. congruence.
Qed.

Lemma text_or_ok m o t G default : agree o t -> holds m (hb o t ++ G) -> ocstr' t ->
  text_or m o default = Ok (match t with Some (c :: r) => c :: r | _ => lit default end).
Proof.
  intros A H C. destruct o as [b|], t as [t|]; cbn [agree] in A; try contradiction; cbn [text_or]; [|reflexivity].
  rewrite (rd_str_0 m b (copy_of t) t); [|apply (proj2 H); left; reflexivity|cbn [copy_of b_data]; apply scan0_app; exact C].
  cbn [bind]. destruct t as [|c t]; [reflexivity|]. rewrite zlen_cons. pose proof (zlen_nonneg t). destruct (Z.eqb_spec (zlen t + 1) 0); [lia|]. reflexivity.
Qed.
End Proofs.

(** ** C56 *)

Section Main.
Context (junk : nat -> ascii) (legacy : bool).

Definition tag_spec (g : option str) (o : mop) : option str := match o with SetName _ => g | SetVersion _ _ _ t => Some t end.

Lemma version_cstr x y z t : cstr t -> cstr (version_text x y z t).
Proof.
  intro C. unfold version_text. repeat (apply cstr_app; split); try apply pct_d_cstr; try exact C; intros [K|[]]; discriminate.
Qed.
Lemma mops_ok l : forall m s e g F, minv m s (fst e) g (snd e) F -> ocstr' (fst e) -> ocstr' (snd e) -> Forall fits l ->
  exists m' s' g', run_mops junk legacy m s l = Ok (m', s') /\
    minv m' s' (fst (fold_left spec_mop l e)) g' (snd (fold_left spec_mop l e)) F /\
    ocstr' (fst (fold_left spec_mop l e)) /\ ocstr' (snd (fold_left spec_mop l e)) /\ mlog m' = mlog m.
Proof.
  induction l as [|o l IH]; intros m s e g F I C1 C2 FT; cbn [run_mops fold_left].
  - exists m, s, g. auto.
  - inversion FT as [|x y F1 F2]; subst.
    set (t := match o with SetName t => t | SetVersion _ _ _ t => t end).
    assert (CT : cstr t) by (unfold t; destruct o; cbn [fits] in F1; tauto).
    set (k := {| b_heap := false; b_data := t ++ [NUL] |}).
    set (b := mnext m).
    assert (I1 : minv (fst (mnew m false (t ++ [NUL]))) s (fst e) g (snd e) ((b, k) :: F)).
    { destruct I as [H A1 A2 A3]. constructor; auto.
      eapply holds_perm; [|apply (holds_new m _ false (t ++ [NUL]) H)]. apply Permutation_middle. }
    assert (X : exists m2 s2 g2, match o with
             | SetName _ => arg_set_module_name junk (fst (mnew m false (t ++ [NUL]))) s (b, 0)
             | SetVersion x y z _ => arg_set_module_version junk legacy (fst (mnew m false (t ++ [NUL]))) s x y z (b, 0)
             end = Ok (m2, s2) /\ minv m2 s2 (fst (spec_mop e o)) g2 (snd (spec_mop e o)) ((b, k) :: F) /\ mlog m2 = mlog m /\
             ocstr' (fst (spec_mop e o)) /\ ocstr' (snd (spec_mop e o))).
    { destruct o as [u|u y z w]; cbn [spec_mop fst snd].
      - destruct (set_name_ok junk _ _ _ _ _ _ b t I1 CT (or_introl eq_refl)) as (m2 & s2 & E & M & L). exists m2, s2, g. auto.
      - destruct (set_version_ok junk legacy _ _ _ _ _ _ b u y z t I1 CT (or_introl eq_refl) (proj2 F1)) as (m2 & s2 & E & M & L). exists m2, s2, (Some t).
        split; [exact E|]. split; [exact M|]. split; [exact L|]. split; [exact C1|]. apply version_cstr. exact CT. }
    destruct X as (m2 & s2 & g2 & E & M & L & D1 & D2). unfold run_mop. fold t. change (mnew m false (t ++ [NUL])) with (fst (mnew m false (t ++ [NUL])), b). cbv beta iota zeta. rewrite E. cbn [bind].
    assert (M2 : minv (mset m2 b None) s2 (fst (spec_mop e o)) g2 (snd (spec_mop e o)) F).
    { destruct M as [H A1 A2 A3]. constructor; auto. apply (holds_del m2 b k). eapply holds_perm; [|exact H]. apply Permutation_sym, Permutation_middle. }
    destruct (IH _ _ _ _ _ M2 D1 D2 F2) as (m' & s' & g' & E' & M' & K1 & K2 & L'). exists m', s', g'. split; [exact E'|]. split; [exact M'|].
    split; [exact K1|]. split; [exact K2|]. rewrite L'. exact L.
Qed.

(** After any calls in any memory [m] with the blocks [F]: the name and the version are those set last; the only blocks left beside
    those of [F] are the three current texts, and [F] is untouched. *)
Theorem C56_name_and_version : forall m F l, holds m F -> Forall fits l ->
  exists m' s, run_mops junk legacy m mod0 l = Ok (m', s) /\
    module_name m' s = Ok (name_of (spec_mops l)) /\ module_version m' s = Ok (version_of (spec_mops l)) /\
    (forall b k, In (b, k) F -> mget m' b = Some k) /\
    (forall b, mget m' b <> None <-> In b (map fst F) \/ s_module_name s = Some b \/ s_mod_ver_tag s = Some b \/ s_mod_ver s = Some b).
Proof.
  intros m F l H FT.
  destruct (mops_ok l m mod0 (None, None) None F) as (m' & s & g & E & M & C1 & C2 & _); auto.
  { constructor; cbn; auto. } { exact I. } { exact I. }
  fold (spec_mops l) in *. destruct M as [HM A1 A2 A3]. exists m', s. split; [exact E|].
  assert (HB : forall o (t : option str) b, agree o t -> In b (map fst (hb o t)) <-> o = Some b).
  { intros [x|] [t|] b A; cbn [agree] in A; try contradiction; cbn [hb map fst In]; split; intro K; try (destruct K as [<-|[]]; reflexivity); try discriminate; [|destruct K].
    injection K as <-. left. reflexivity. }
  unfold blocks in HM. split; [|split; [|split]].
  - rewrite <- app_assoc in HM. unfold module_name. rewrite (text_or_ok m' _ _ _ "<name>" A1 HM C1). reflexivity.
  - unfold module_version.
    assert (HV : holds m' (hb (s_mod_ver s) (snd (spec_mops l)) ++ (hb (s_module_name s) (fst (spec_mops l)) ++ hb (s_mod_ver_tag s) g ++ F))).
    { eapply holds_perm; [|exact HM]. rewrite <- !app_assoc. rewrite (app_assoc (hb (s_module_name s) _) (hb (s_mod_ver_tag s) g)).
      eapply Permutation_trans; [apply Permutation_app_swap_app|]. rewrite <- app_assoc. apply Permutation_refl. }
    rewrite (text_or_ok m' _ _ _ "0.0.0.0" A3 HV C2).
    assert (NE : forall t, snd (spec_mops l) = Some t -> t <> []).
    { clear. unfold spec_mops.
      assert (X : forall q e, (forall t, snd e = Some t -> t <> []) -> forall t, snd (fold_left spec_mop q e) = Some t -> t <> []).
      { induction q as [|o q IH]; intros e HE; cbn [fold_left]; [exact HE|]. apply IH. intros t. destruct o; cbn [spec_mop snd]; [apply HE|].
        intro K. injection K as <-. unfold version_text. intro K. apply app_eq_nil in K. destruct K as [K _]. exact (pct_d_nonempty _ K). }
      apply X. discriminate. }
    unfold version_of. destruct (snd (spec_mops l)) as [[|c t]|]; [exfalso; eapply NE; reflexivity|reflexivity|reflexivity].
  - intros b k K. apply (proj2 HM). apply in_or_app. right. exact K.
  - intro b. rewrite (live_iff _ _ (proj1 HM) b). rewrite !map_app, !in_app_iff, !HB by assumption. tauto.
Qed.
End Main.

(** ** Examples *)
Definition ex_calls : list mop :=
  [SetName (lit "old"); SetVersion 1 0 0 (lit "a"); SetName (lit "testmod"); SetVersion 3 1 (-4) (lit "deadbeef")].
Example C56_hypotheses : holds mem0 [] /\ Forall fits ex_calls.
Proof.
  split.
  - split; [|intros b k []]. constructor; [|constructor|intros i []]. intro i. cbn. split; [congruence|intros []].
  - assert (N : forall s, existsb (ceqb NUL) s = false -> cstr s).
    { intros s H K. assert (existsb (ceqb NUL) s = true); [|congruence]. apply existsb_exists. exists NUL. split; [exact K|reflexivity]. }
    repeat apply Forall_cons; try apply Forall_nil; cbn [fits]; try split; try (apply N; reflexivity); vm_compute; discriminate.
Qed.
Example C56_example : exists m s, run_mops (fun _ => NUL) false mem0 mod0 ex_calls = Ok (m, s) /\
  module_name m s = Ok (lit "testmod") /\ module_version m s = Ok (lit "3.1.-4.deadbeef").
Proof. eexists _, _. split; [vm_compute; reflexivity|]. split; vm_compute; reflexivity. Qed.
Example C56_defaults : module_name mem0 mod0 = Ok (lit "<name>") /\ module_version mem0 mod0 = Ok (lit "0.0.0.0").
Proof. split; reflexivity. Qed.

Print Assumptions C56_name_and_version.
