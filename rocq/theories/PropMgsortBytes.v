(** C37 on bytes: arg_mgsort with its element size, its int products and its scratch block. *)
From Verif Require Import Base MgsortModel PropMgsort MgsortBytesModel.
From Coq Require Import ZArith List Bool Ascii Lia Permutation Sorted.
Import ListNotations.
Open Scope Z_scope.

Section Refine.
Context (esize : Z) (cmp : str -> str -> Z).
Hypothesis pos : 0 < esize.

Notation elements l := (Forall (fun c : str => zlen c = esize) l).
Notation bytes := (@concat ascii).

Lemma zlen_bytes l : elements l -> zlen (bytes l) = esize * zlen l.
Proof.
  induction 1 as [|c l E F IH]; [cbn; lia|]. cbn [concat]. rewrite zlen_app, IH, E, zlen_cons. lia.
Qed.
Lemma aget_split {A} (l : list A) p x : aget l p = Ok x -> exists l1 l2, l = l1 ++ x :: l2 /\ zlen l1 = p.
Proof.
  unfold aget. destruct (Z.ltb_spec p 0); [discriminate|]. destruct (nth_error l (Z.to_nat p)) eqn:E; [|discriminate].
  intro X. injection X as ->. apply nth_error_split in E as (l1 & l2 & -> & L). exists l1, l2. split; [reflexivity|]. unfold zlen. lia.
Qed.
Lemma at_ok p n : 0 <= p <= n -> esize * n <= INT_MAX -> at_ esize p = Ok (p * esize).
Proof.
  intros H B. unfold at_, in_intb. assert (0 <= p * esize <= esize * n) by nia.
  replace ((INT_MIN <=? p * esize) && (p * esize <=? INT_MAX)) with true; [reflexivity|].
  symmetry. apply andb_true_iff. unfold INT_MIN in *. split; apply Z.leb_le; lia.
Qed.
Lemma skipn_bytes l1 r : elements l1 -> skipn (Z.to_nat (zlen l1 * esize)) (bytes l1 ++ r) = r.
Proof.
  intro E. pose proof (zlen_bytes l1 E) as L. replace (Z.to_nat (zlen l1 * esize)) with (List.length (bytes l1)) by (unfold zlen in *; lia).
  rewrite skipn_app, skipn_all, Nat.sub_diag. reflexivity.
Qed.
Lemma bread_element a p x : elements a -> aget a p = Ok x -> bread (bytes a) (p * esize) esize = Ok x /\ 0 <= p < zlen a /\ zlen x = esize.
Proof.
  intros F G. apply aget_split in G as (l1 & l2 & -> & <-). apply Forall_app in F as [F1 F2]. pose proof (Forall_inv F2) as F3; pose proof (Forall_inv_tail F2) as F4; cbn beta in F3.
  rewrite zlen_app, zlen_cons. pose proof (zlen_nonneg l1). pose proof (zlen_nonneg l2). split; [|lia].
  unfold bread. rewrite concat_app. cbn [concat]. rewrite !zlen_app, (zlen_bytes l1), (zlen_bytes l2), F3 by assumption.
  replace ((0 <=? zlen l1 * esize) && (0 <=? esize) && (zlen l1 * esize + esize <=? esize * zlen l1 + (esize + esize * zlen l2))) with true.
  2:{ symmetry. rewrite !andb_true_iff. repeat split; apply Z.leb_le; nia. }
  rewrite skipn_bytes by assumption. rewrite firstn_app. replace (Z.to_nat esize) with (List.length x) by (unfold zlen in F3; lia).
  rewrite firstn_all, Nat.sub_diag. cbn [firstn]. rewrite app_nil_r. reflexivity.
Qed.

(** The scratch block for [size] elements when those of [m] have been copied to it. *)
Definition scratch (size : Z) (m : list str) : list (option ascii) := map Some (bytes m) ++ repeat None (Z.to_nat (esize * (size - zlen m))).
Lemma skipn_repeat {X} (x : X) : forall k n, skipn k (repeat x n) = repeat x (n - k).
Proof. induction k as [|k IH]; intros [|n]; try reflexivity. exact (IH n). Qed.

Lemma copy_element_ok size m a p x : elements m -> elements a -> esize * zlen a <= INT_MAX -> esize * size <= INT_MAX ->
  aget a p = Ok x -> zlen m < size ->
  copy_element esize (scratch size m) (zlen m) (bytes a) p = Ok (scratch size (m ++ [x])).
Proof.
  intros Fm Fa Ba Bs G L. destruct (bread_element a p x Fa G) as (R & P & X). pose proof (zlen_nonneg m). unfold copy_element.
  rewrite (at_ok (zlen m) size) by lia. cbn [bind]. rewrite (at_ok p (zlen a)) by lia. cbn [bind]. rewrite R. cbn [bind].
  unfold bwrite, scratch. assert (ZM : zlen (map Some (bytes m)) = esize * zlen m) by (unfold zlen; rewrite map_length; apply zlen_bytes; assumption).
  assert (ZX : zlen (map Some x) = esize) by (unfold zlen; rewrite map_length; exact X).
  assert (ZR : forall n, 0 <= n -> zlen (repeat (@None ascii) (Z.to_nat n)) = n) by (intros n Hn; unfold zlen; rewrite repeat_length; lia).
  rewrite zlen_app, ZM, ZX, ZR by nia.
  replace ((0 <=? zlen m * esize) && (zlen m * esize + esize <=? esize * zlen m + esize * (size - zlen m))) with true.
  2:{ symmetry. rewrite andb_true_iff. split; apply Z.leb_le; nia. }
  f_equal. replace (Z.to_nat (zlen m * esize)) with (List.length (map Some (bytes m))) by (unfold zlen in *; lia).
  rewrite firstn_app, firstn_all, Nat.sub_diag. cbn [firstn]. rewrite app_nil_r.
  rewrite concat_app, map_app. cbn [concat]. rewrite app_nil_r, <- app_assoc. do 2 f_equal.
  rewrite skipn_app, skipn_all2 by (unfold zlen in *; lia). cbn [app].
  rewrite skipn_repeat. f_equal. rewrite zlen_app, zlen_cons, zlen_nil. unfold zlen in *. rewrite map_length in *. nia.
Qed.

Lemma copy_run_refined : forall fuel a size p last m m', elements m -> elements a -> esize * zlen a <= INT_MAX -> esize * size <= INT_MAX ->
  MgsortModel.copy_run fuel a size p last m = Ok m' ->
  copy_run esize fuel (bytes a) p last (scratch size m) (zlen m) = Ok (scratch size m', zlen m') /\ elements m'.
Proof.
  induction fuel as [|fuel IH]; intros a size p last m m' Fm Fa Ba Bs E; [discriminate|]. cbn [MgsortModel.copy_run copy_run] in *.
  destruct (p <=? last); [|injection E as <-; auto].
  destruct (aget a p) as [x| |] eqn:G; cbn [bind] in E; try discriminate. unfold push in E.
  destruct (Z.ltb_spec (zlen m) size) as [L|]; cbn [bind] in E; [|discriminate].
  rewrite (copy_element_ok size m a p x Fm Fa Ba Bs G L). cbn [bind]. destruct (bread_element a p x Fa G) as (_ & _ & X).
  replace (zlen m + 1) with (zlen (m ++ [x])) by (rewrite zlen_app; reflexivity).
  apply IH; auto. apply Forall_app; auto.
Qed.

Lemma merge_loop_refined : forall fuel a size j k ipos jpos m m', elements m -> elements a -> esize * zlen a <= INT_MAX -> esize * size <= INT_MAX ->
  MgsortModel.merge_loop cmp fuel a size j k ipos jpos m = Ok m' ->
  merge_loop esize cmp fuel (bytes a) j k ipos jpos (scratch size m) (zlen m) = Ok (scratch size m') /\ elements m'.
Proof.
  induction fuel as [|fuel IH]; intros a size j k ipos jpos m m' Fm Fa Ba Bs E; [discriminate|]. cbn [MgsortModel.merge_loop merge_loop] in *.
  destruct ((ipos <=? j) || (jpos <=? k)); [|injection E as <-; auto].
  destruct (j <? ipos); [|destruct (k <? jpos)].
  - destruct (MgsortModel.copy_run fuel a size jpos k m) as [m1| |] eqn:C; cbn [bind] in E; try discriminate.
    destruct (copy_run_refined _ _ _ _ _ _ _ Fm Fa Ba Bs C) as [C' F1]. rewrite C'. cbn [bind]. auto.
  - destruct (MgsortModel.copy_run fuel a size ipos j m) as [m1| |] eqn:C; cbn [bind] in E; try discriminate.
    destruct (copy_run_refined _ _ _ _ _ _ _ Fm Fa Ba Bs C) as [C' F1]. rewrite C'. cbn [bind]. auto.
  - destruct (aget a ipos) as [x| |] eqn:G1; cbn [bind] in E; try discriminate. destruct (aget a jpos) as [y| |] eqn:G2; cbn [bind] in E; try discriminate.
    destruct (bread_element a ipos x Fa G1) as (R1 & P1 & X1). destruct (bread_element a jpos y Fa G2) as (R2 & P2 & X2).
    rewrite (at_ok ipos (zlen a)), (at_ok jpos (zlen a)) by lia. cbn [bind]. rewrite R1, R2. cbn [bind]. unfold push in E.
    destruct (cmp x y <? 0); destruct (Z.ltb_spec (zlen m) size) as [L|]; cbn [bind] in E; try discriminate.
    + rewrite (copy_element_ok size m a ipos x Fm Fa Ba Bs G1 L). cbn [bind]. replace (zlen m + 1) with (zlen (m ++ [x])) by (rewrite zlen_app; reflexivity).
      apply IH; auto. apply Forall_app; auto.
    + rewrite (copy_element_ok size m a jpos y Fm Fa Ba Bs G2 L). cbn [bind]. replace (zlen m + 1) with (zlen (m ++ [y])) by (rewrite zlen_app; reflexivity).
      apply IH; auto. apply Forall_app; auto.
Qed.

Lemma initialised_some l : initialised (map Some l) = Ok l.
Proof. induction l as [|c l IH]; [reflexivity|]. cbn [map initialised]. rewrite IH. reflexivity. Qed.

Lemma copy_back_split {A} : forall (m a : list A) i a', 0 <= i <= zlen a -> copy_back a i m = Ok a' ->
  exists l1 l l2, a = l1 ++ l ++ l2 /\ a' = l1 ++ m ++ l2 /\ zlen l1 = i /\ List.length l = List.length m.
Proof.
  induction m as [|x m IH]; intros a i a' Hi E; cbn [copy_back] in E.
  - injection E as <-. exists (firstn (Z.to_nat i) a), [], (skipn (Z.to_nat i) a). cbn [app]. rewrite firstn_skipn. repeat split.
    unfold zlen in *. rewrite firstn_length. lia.
  - unfold aset in E. destruct ((0 <=? i) && (i <? Z.of_nat (List.length a))) eqn:B; cbn [bind] in E; [|discriminate].
    apply andb_true_iff in B as [_ B]. apply Z.ltb_lt in B.
    destruct (nth_error a (Z.to_nat i)) as [y|] eqn:N; [|apply nth_error_None in N; lia].
    apply nth_error_split in N as (l1 & l2 & -> & L). rewrite (lupd_mid l1 l2 y x) in E by exact L.
    destruct (IH (l1 ++ x :: l2) (i + 1) a') as (k1 & k & k2 & E1 & E2 & E3 & E4); [|exact E|].
    { unfold zlen in *. rewrite app_length in *. cbn [List.length] in *. lia. }
    assert (K : k1 = l1 ++ [x] /\ l2 = k ++ k2).
    { replace (l1 ++ x :: l2) with ((l1 ++ [x]) ++ l2) in E1 by (rewrite <- app_assoc; reflexivity).
      assert (LE : List.length (l1 ++ [x]) = List.length k1) by (rewrite app_length; cbn [List.length]; unfold zlen in E3; lia).
      clear -E1 LE. revert k1 E1 LE. induction (l1 ++ [x]) as [|z l IH]; intros [|w k1] E1 LE; try discriminate; [auto|].
      cbn in E1, LE. injection E1 as -> E1. destruct (IH k1 E1 ltac:(lia)) as [-> ->]. auto. }
    destruct K as [-> ->]. exists l1, (y :: k), k2. split; [reflexivity|]. split; [rewrite E2, <- app_assoc; reflexivity|].
    split; [unfold zlen; lia|cbn [List.length]; lia].
Qed.

Lemma merge_refined fuel a i j k a' : elements a -> 0 <= i -> i <= k -> k < zlen a -> esize * zlen a <= INT_MAX ->
  MgsortModel.merge cmp fuel a i j k = Ok a' ->
  merge esize cmp fuel (bytes a) i j k = Ok (bytes a') /\ elements a' /\ zlen a' = zlen a.
Proof.
  intros Fa Hi Hk Hz B E. unfold MgsortModel.merge in E.
  destruct (MgsortModel.merge_loop cmp fuel a (k - i + 1) j k i (j + 1) []) as [m| |] eqn:M; cbn [bind] in E; try discriminate.
  destruct (Z.eqb_spec (zlen m) (k - i + 1)) as [L|]; [|discriminate].
  assert (BS : esize * (k - i + 1) <= INT_MAX) by nia.
  destruct (merge_loop_refined _ _ _ _ _ _ _ _ _ (Forall_nil _) Fa B BS M) as [M' Fm].
  unfold merge. assert (1 <= k - i + 1 <= INT_MAX) by nia.
  replace (in_intb (k - i + 1) && in_intb (esize * (k - i + 1))) with true.
  2:{ symmetry. unfold in_intb, INT_MIN. rewrite !andb_true_iff. repeat split; apply Z.leb_le; nia. }
  cbv zeta. destruct (Z.ltb_spec (esize * (k - i + 1)) 0); [nia|].
  change (scratch (k - i + 1) []) with (repeat (@None ascii) (Z.to_nat (esize * (k - i + 1 - 0)))) in M'. rewrite Z.sub_0_r in M'.
  change (zlen (@nil str)) with 0 in M'. rewrite M'. cbn [bind]. rewrite (at_ok i (zlen a)) by lia. cbn [bind].
  unfold scratch. rewrite L, Z.sub_diag, Z.mul_0_r. cbn [Z.to_nat repeat]. rewrite app_nil_r, initialised_some. cbn [bind].
  destruct (copy_back_split m a i a' ltac:(lia) E) as (l1 & l & l2 & -> & -> & L1 & LL).
  apply Forall_app in Fa as [F1 Fa]. apply Forall_app in Fa as [F2 F3].
  split; [|split; [repeat (apply Forall_app; split); assumption|unfold zlen; rewrite !app_length; lia]].
  unfold bwrite. rewrite !concat_app, !zlen_app, !zlen_bytes by assumption. assert (ZL : zlen l = zlen m) by (unfold zlen; lia).
  replace ((0 <=? i * esize) && (i * esize + esize * zlen m <=? esize * zlen l1 + (esize * zlen l + esize * zlen l2))) with true.
  2:{ symmetry. pose proof (zlen_nonneg l2). rewrite andb_true_iff. split; apply Z.leb_le; nia. }
  f_equal. rewrite <- L1. rewrite firstn_app. pose proof (zlen_bytes l1 F1) as Z1.
  replace (Z.to_nat (zlen l1 * esize)) with (List.length (bytes l1)) by (unfold zlen in *; lia).
  rewrite firstn_all, Nat.sub_diag. cbn [firstn]. rewrite app_nil_r. do 2 f_equal.
  replace (bytes l1 ++ bytes l ++ bytes l2) with (bytes (l1 ++ l) ++ bytes l2) by (rewrite concat_app, <- app_assoc; reflexivity).
  replace (zlen l1 * esize + esize * zlen m) with (zlen (l1 ++ l) * esize) by (rewrite zlen_app; lia).
  apply skipn_bytes. apply Forall_app; auto.
Qed.

Lemma mgsort_refined : forall fuel n a i k a', elements a -> 0 <= i -> k < zlen a -> esize * zlen a <= INT_MAX -> n = S (S (List.length a)) ->
  MgsortModel.arg_mgsort cmp fuel a i k = Ok a' ->
  arg_mgsort esize cmp fuel n (bytes a) i k = Ok (bytes a') /\ elements a' /\ zlen a' = zlen a.
Proof.
  induction fuel as [|fuel IH]; intros n a i k a' Fa Hi Hk B Hn E; [discriminate|]. cbn [MgsortModel.arg_mgsort arg_mgsort] in *.
  destruct (Z.ltb_spec i k) as [L|]; [|injection E as <-; auto]. destruct (in_intb (i + k)); [|discriminate]. cbv zeta in *.
  set (j := Z.quot (i + k - 1) 2) in *. assert (J : i <= j < k).
  { unfold j. rewrite Z.quot_div_nonneg by lia. pose proof (Z.div_mod (i + k - 1) 2 ltac:(lia)). pose proof (Z.mod_pos_bound (i + k - 1) 2 ltac:(lia)). lia. }
  destruct (MgsortModel.arg_mgsort cmp fuel a i j) as [a1| |] eqn:E1; cbn [bind] in E; try discriminate.
  destruct (MgsortModel.arg_mgsort cmp fuel a1 (j + 1) k) as [a2| |] eqn:E2; cbn [bind] in E; try discriminate.
  destruct (IH n a i j a1 Fa Hi ltac:(lia) B Hn E1) as (R1 & F1 & Z1). rewrite R1. cbn [bind].
  destruct (IH n a1 (j + 1) k a2 F1 ltac:(lia) ltac:(lia) ltac:(lia) ltac:(unfold zlen in *; lia) E2) as (R2 & F2 & Z2). rewrite R2. cbn [bind].
  subst n. destruct (merge_refined _ a2 i j k a' F2 Hi ltac:(lia) ltac:(lia) ltac:(lia) E) as (R & F & Z3). repeat split; [exact R|exact F|lia].
Qed.
End Refine.

(** Elements of [esize] bytes each, compared by their bytes. The bytes are rearranged element by element, those outside of the range
    stay, and no product overflows, if the array has at most INT_MAX bytes. *)
Theorem C37_mgsort_bytes :
  forall (esize : Z) (cmp : str -> str -> Z), 0 < esize ->
  (forall x y, cmp x y < 0 -> ~ cmp y x < 0) ->
  (forall x y z, ~ cmp y x < 0 -> ~ cmp z y < 0 -> ~ cmp z x < 0) ->
  forall (pre seg post : list str) (i k : Z),
  Forall (fun c => zlen c = esize) (pre ++ seg ++ post) ->
  zlen pre = i -> i + zlen seg = k + 1 -> k < 1073741824 -> esize * zlen (pre ++ seg ++ post) <= INT_MAX ->
  exists s,
    arg_mgsort esize cmp (S (List.length seg)) (S (S (List.length (pre ++ seg ++ post)))) (concat pre ++ concat seg ++ concat post) i k =
      Ok (concat pre ++ concat s ++ concat post) /\
    Permutation s seg /\
    (forall a b, (a < b < List.length s)%nat -> forall x y, nth_error s a = Some x -> nth_error s b = Some y -> ~ cmp y x < 0).
Proof.
  intros esize cmp P A T pre seg post i k F Hp Hk Hb B.
  destruct (C37_mgsort_sorts str cmp A T pre seg post i k Hp Hk Hb) as (s & E & PM & S). exists s. split; [|split; [exact PM|exact S]].
  pose proof (zlen_nonneg pre). pose proof (zlen_nonneg post).
  assert (K : k < zlen (pre ++ seg ++ post)) by (rewrite !zlen_app; lia).
  destruct (mgsort_refined esize cmp P _ _ _ i k _ F ltac:(lia) K B eq_refl E) as (R & _ & _).
  rewrite !concat_app in R. exact R.
Qed.

(** An array of more than INT_MAX bytes is another matter, whatever the memory: two elements of a gigabyte each. *)
Theorem C37_more_bytes_refuted : forall cmp fuel n (a : str), arg_mgsort 1073741824 cmp (S (S fuel)) n a 0 1 = UB SignedOverflow.
Proof. intros. reflexivity. Qed.

(** Three shorts, little endian, sorted by value: 0x0201, 0x0102, 0x0101; the first element is outside of the range. *)
Definition short (c : str) : Z := match c with [lo; hi] => uc lo + 256 * uc hi | _ => 0 end.
Definition by_value (x y : str) : Z := short x - short y.
Definition pair (lo hi : Z) : str := [chr lo; chr hi].
Example C37_case_bytes :
  arg_mgsort 2 by_value 4 6 (concat [pair 9 9; pair 1 2; pair 2 1; pair 1 1]) 1 3 = Ok (concat [pair 9 9; pair 1 1; pair 2 1; pair 1 2]) /\
  Forall (fun c => zlen c = 2) [pair 9 9; pair 1 2; pair 2 1; pair 1 1].
Proof. split; [vm_compute; reflexivity|]. repeat constructor. Qed.
Example C37_case_bytes_hyps :
  (forall x y, by_value x y < 0 -> ~ by_value y x < 0) /\ (forall x y z, ~ by_value y x < 0 -> ~ by_value z y < 0 -> ~ by_value z x < 0).
Proof. unfold by_value; split; intros; lia. Qed.

Print Assumptions C37_mgsort_bytes.
Print Assumptions C37_more_bytes_refuted.
