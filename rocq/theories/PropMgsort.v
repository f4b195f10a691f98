(** Properties C37 and C38: arg_mgsort. *)
From Verif Require Import Base MgsortModel.
From Coq Require Import ZArith List Bool Lia Permutation Sorted.
Import ListNotations.
Open Scope Z_scope.

Section Proofs.
Context {A : Type} (cmp : A -> A -> Z).

(** Functional merge. *)
Fixpoint fmerge (l1 : list A) : list A -> list A :=
  fix aux (l2 : list A) : list A :=
    match l1, l2 with
    | [], _ => l2
    | _, [] => l1
    | x :: l1', y :: l2' => if cmp x y <? 0 then x :: fmerge l1' l2 else y :: aux l2'
    end.

Lemma fmerge_nil_l l : fmerge [] l = l.
Proof. destruct l; reflexivity. Qed.
Lemma fmerge_nil_r l : fmerge l [] = l.
Proof. destruct l; reflexivity. Qed.
Lemma fmerge_cons x l1 y l2 :
  fmerge (x :: l1) (y :: l2) = if cmp x y <? 0 then x :: fmerge l1 (y :: l2) else y :: fmerge (x :: l1) l2.
Proof. reflexivity. Qed.

Lemma fmerge_perm l1 l2 : Permutation (fmerge l1 l2) (l1 ++ l2).
Proof.
  revert l2; induction l1 as [|x l1 IH1]; intros l2.
  - rewrite fmerge_nil_l. auto.
  - induction l2 as [|y l2 IH2].
    + rewrite fmerge_nil_r, app_nil_r. auto.
    + rewrite fmerge_cons. destruct (cmp x y <? 0).
      * simpl. constructor. apply IH1.
      * eapply Permutation_trans. { constructor. apply IH2. }
        apply (Permutation_middle (x :: l1) l2 y).
Qed.

Lemma aget_mid (p l r : list A) x i : zlen p = i -> l = x :: r -> forall post, aget (p ++ l ++ post) i = Ok x.
Proof.
  intros <- -> post. unfold aget, zlen. destruct (Z.ltb_spec (Z.of_nat (List.length p)) 0); [lia|].
  rewrite Nat2Z.id. rewrite nth_error_app2 by lia. rewrite Nat.sub_diag. reflexivity.
Qed.

Lemma push_ok size m x : zlen m < size -> push size m x = Ok (m ++ [x] : list A).
Proof. unfold push. intros. destruct (Z.ltb_spec (zlen m) size); auto; lia. Qed.

Lemma copy_run_ok : forall fuel pre seg post size p last m,
  zlen pre = p -> p + zlen seg = last + 1 -> (List.length seg < fuel)%nat ->
  zlen m + zlen seg <= size ->
  copy_run fuel (pre ++ seg ++ post) size p last m = Ok (m ++ seg : list A).
Proof.
  induction fuel as [|fuel IH]; intros pre seg post size p last m Hp Hl Hf Hs; [lia|].
  cbn [copy_run]. destruct seg as [|x seg].
  - rewrite zlen_nil in Hl. destruct (Z.leb_spec p last); [lia|]. rewrite app_nil_r; auto.
  - rewrite zlen_cons in Hl, Hs. pose proof (zlen_nonneg seg).
    destruct (Z.leb_spec p last); [|lia].
    rewrite (aget_mid pre (x :: seg) seg x p) by auto. cbn [bind].
    rewrite push_ok by lia. cbn [bind].
    replace (pre ++ (x :: seg) ++ post) with ((pre ++ [x]) ++ seg ++ post) by (rewrite <- app_assoc; reflexivity).
    rewrite IH.
    + rewrite <- app_assoc. reflexivity.
    + rewrite zlen_app, zlen_cons, zlen_nil; lia.
    + lia.
    + simpl in Hf. lia.
    + rewrite zlen_app, zlen_cons, zlen_nil; lia.
Qed.

(** a = pre ++ L1 ++ L2 ++ R1 ++ R2 ++ post with L = L1 ++ L2 the left division. *)
Lemma merge_loop_ok : forall fuel pre L1 L2 R1 R2 post i j k m,
  i = zlen pre -> j = i + zlen L1 + zlen L2 - 1 -> k = j + zlen R1 + zlen R2 ->
  (List.length L2 + List.length R2 + 2 <= fuel)%nat ->
  zlen m + zlen L2 + zlen R2 <= k - i + 1 ->
  merge_loop cmp fuel (pre ++ L1 ++ L2 ++ R1 ++ R2 ++ post) (k - i + 1) j k
     (i + zlen L1) (j + 1 + zlen R1) m = Ok (m ++ fmerge L2 R2).
Proof.
  induction fuel as [|fuel IH]; intros pre L1 L2 R1 R2 post i j k m Hi Hj Hk Hf Hm; [lia|].
  cbn [merge_loop].
  pose proof (zlen_nonneg L1). pose proof (zlen_nonneg L2). pose proof (zlen_nonneg R1). pose proof (zlen_nonneg R2).
  pose proof (zlen_nonneg pre).
  destruct L2 as [|x L2].
  - rewrite zlen_nil in *. destruct (Z.leb_spec (i + zlen L1) j); [lia|]. simpl orb.
    rewrite fmerge_nil_l.
    destruct R2 as [|y R2].
    + rewrite zlen_nil in *. destruct (Z.leb_spec (j + 1 + zlen R1) k); [lia|]. rewrite app_nil_r; auto.
    + rewrite zlen_cons in *. pose proof (zlen_nonneg R2). destruct (Z.leb_spec (j + 1 + zlen R1) k); [|lia].
      destruct (Z.ltb_spec j (i + zlen L1)); [|lia].
      replace (pre ++ L1 ++ [] ++ R1 ++ (y :: R2) ++ post) with ((pre ++ L1 ++ R1) ++ (y :: R2) ++ post)
        by (rewrite <- !app_assoc; reflexivity).
      rewrite copy_run_ok; try (rewrite ?zlen_app, ?zlen_cons, ?zlen_nil; lia).
      all: try (simpl in *; lia).
      cbn [bind].
      destruct fuel as [|fuel]; [simpl in Hf; lia|]. cbn [merge_loop].
      destruct (Z.leb_spec (i + zlen L1) j); [lia|].
      destruct (Z.leb_spec (Z.max (j + 1 + zlen R1) (k + 1)) k); [lia|]. reflexivity.
  - rewrite zlen_cons in *. pose proof (zlen_nonneg L2).
    destruct (Z.leb_spec (i + zlen L1) j); [|lia]. simpl orb.
    destruct (Z.ltb_spec j (i + zlen L1)); [lia|].
    destruct R2 as [|y R2].
    + rewrite zlen_nil in *. destruct (Z.ltb_spec k (j + 1 + zlen R1)); [|lia].
      replace (pre ++ L1 ++ (x :: L2) ++ R1 ++ [] ++ post) with ((pre ++ L1) ++ (x :: L2) ++ R1 ++ post)
        by (rewrite <- !app_assoc; reflexivity).
      rewrite copy_run_ok; try (rewrite ?zlen_app, ?zlen_cons, ?zlen_nil; lia).
      all: try (simpl in *; lia).
      cbn [bind]. rewrite fmerge_nil_r.
      destruct fuel as [|fuel]; [simpl in Hf; lia|]. cbn [merge_loop].
      destruct (Z.leb_spec (Z.max (i + zlen L1) (j + 1)) j); [lia|].
      destruct (Z.leb_spec (j + 1 + zlen R1) k); [lia|]. reflexivity.
    + rewrite zlen_cons in *. pose proof (zlen_nonneg R2).
      destruct (Z.ltb_spec k (j + 1 + zlen R1)); [lia|].
      replace (pre ++ L1 ++ (x :: L2) ++ R1 ++ (y :: R2) ++ post)
        with ((pre ++ L1) ++ (x :: L2) ++ (R1 ++ (y :: R2) ++ post)) at 1 by (rewrite <- !app_assoc; reflexivity).
      rewrite (aget_mid (pre ++ L1) (x :: L2) L2 x) by (auto; rewrite zlen_app; lia). cbn [bind].
      replace (pre ++ L1 ++ (x :: L2) ++ R1 ++ (y :: R2) ++ post)
        with ((pre ++ L1 ++ (x :: L2) ++ R1) ++ (y :: R2) ++ post) at 1 by (rewrite <- !app_assoc; reflexivity).
      rewrite (aget_mid (pre ++ L1 ++ (x :: L2) ++ R1) (y :: R2) R2 y)
        by (auto; rewrite !zlen_app, zlen_cons; lia). cbn [bind].
      rewrite fmerge_cons. destruct (cmp x y <? 0).
      * rewrite push_ok by lia. cbn [bind].
        replace (pre ++ L1 ++ (x :: L2) ++ R1 ++ (y :: R2) ++ post)
          with (pre ++ (L1 ++ [x]) ++ L2 ++ R1 ++ (y :: R2) ++ post) by (rewrite <- !app_assoc; reflexivity).
        replace (i + zlen L1 + 1) with (i + zlen (L1 ++ [x])) by (rewrite zlen_app, zlen_cons, zlen_nil; lia).
        rewrite IH; auto.
        -- rewrite <- app_assoc. reflexivity.
        -- rewrite zlen_app, zlen_cons, zlen_nil; lia.
        -- rewrite zlen_cons; lia.
        -- simpl in *; lia.
        -- rewrite zlen_app, !zlen_cons, zlen_nil; lia.
      * rewrite push_ok by lia. cbn [bind].
        replace (pre ++ L1 ++ (x :: L2) ++ R1 ++ (y :: R2) ++ post)
          with (pre ++ L1 ++ (x :: L2) ++ (R1 ++ [y]) ++ R2 ++ post) by (rewrite <- !app_assoc; reflexivity).
        replace (j + 1 + zlen R1 + 1) with (j + 1 + zlen (R1 ++ [y])) by (rewrite zlen_app, zlen_cons, zlen_nil; lia).
        rewrite IH; auto.
        -- rewrite <- app_assoc. reflexivity.
        -- rewrite zlen_cons; lia.
        -- rewrite zlen_app, zlen_cons, zlen_nil; lia.
        -- simpl in *; lia.
        -- rewrite zlen_app, !zlen_cons, zlen_nil; lia.
Qed.

Lemma lupd_mid (pre r : list A) x y i : List.length pre = i -> lupd (pre ++ x :: r) i y = pre ++ y :: r.
Proof. intros <-. induction pre; simpl; auto. f_equal; auto. Qed.

Lemma copy_back_ok : forall m pre seg post i,
  zlen pre = i -> List.length seg = List.length m ->
  copy_back (pre ++ seg ++ post) i m = Ok (pre ++ m ++ post : list A).
Proof.
  induction m as [|x m IH]; intros pre seg post i Hp Hl.
  - destruct seg; [|discriminate]. reflexivity.
  - destruct seg as [|y seg]; [discriminate|]. cbn [copy_back].
    rewrite aset_ok by (rewrite !zlen_app, zlen_cons; pose proof (zlen_nonneg pre); pose proof (zlen_nonneg seg); pose proof (zlen_nonneg post); lia).
    cbn [bind app]. rewrite lupd_mid by (unfold zlen in Hp; lia).
    replace (pre ++ x :: seg ++ post) with ((pre ++ [x]) ++ seg ++ post) by (rewrite <- app_assoc; reflexivity).
    rewrite IH; auto.
    + rewrite <- app_assoc. reflexivity.
    + rewrite zlen_app, zlen_cons, zlen_nil. lia.
Qed.

Lemma merge_ok fuel pre L R post i j k :
  i = zlen pre -> j = i + zlen L - 1 -> k = j + zlen R ->
  (List.length L + List.length R + 2 <= fuel)%nat ->
  merge cmp fuel (pre ++ L ++ R ++ post) i j k = Ok (pre ++ fmerge L R ++ post).
Proof.
  intros Hi Hj Hk Hf. unfold merge.
  pose proof (merge_loop_ok fuel pre [] L [] R post i j k []) as H. simpl app in H.
  rewrite !zlen_nil, !Z.add_0_r in H. rewrite H by (auto; rewrite ?zlen_nil; lia).
  cbn [bind].
  pose proof (Permutation_length (fmerge_perm L R)) as Hlen. rewrite app_length in Hlen.
  destruct (Z.eqb_spec (zlen (fmerge L R)) (k - i + 1)) as [E|E].
  - rewrite (app_assoc L R post). apply copy_back_ok; auto. rewrite app_length. lia.
  - exfalso. apply E. unfold zlen in *. lia.
Qed.

(** The order: x may stand before y. *)
Definition before (x y : A) : Prop := ~ cmp y x < 0.

Hypothesis cmp_asym : forall x y, cmp x y < 0 -> ~ cmp y x < 0.
Hypothesis before_trans : forall x y z, before x y -> before y z -> before x z.

Lemma fmerge_sorted l1 l2 :
  StronglySorted before l1 -> StronglySorted before l2 -> StronglySorted before (fmerge l1 l2).
Proof.
  revert l2; induction l1 as [|x l1 IH1]; intros l2 H1 H2.
  - rewrite fmerge_nil_l; auto.
  - induction l2 as [|y l2 IH2].
    + rewrite fmerge_nil_r; auto.
    + rewrite fmerge_cons.
      apply StronglySorted_inv in H1 as [S1 F1]. apply StronglySorted_inv in H2 as [S2 F2].
      destruct (Z.ltb_spec (cmp x y) 0) as [L|L].
      * constructor.
        -- apply IH1; auto. constructor; auto.
        -- assert (B : before x y) by (unfold before; auto).
           eapply Permutation_Forall; [symmetry; apply fmerge_perm|].
           apply Forall_app. split; auto. constructor; auto.
           eapply Forall_impl; [|exact F2]. intros z Hz. eapply before_trans; eauto.
      * constructor.
        -- apply IH2; auto.
        -- assert (B : before y x) by (unfold before; lia).
           eapply Permutation_Forall; [symmetry; apply fmerge_perm|].
           apply Forall_app. split; auto. constructor; auto.
           eapply Forall_impl; [|exact F1]. intros z Hz. eapply before_trans; eauto.
Qed.

Lemma mgsort_ok : forall fuel pre seg post i k,
  zlen pre = i -> i + zlen seg = k + 1 -> (List.length seg < fuel)%nat -> in_intb (i + k) = true \/ k <= i ->
  zlen pre + zlen seg <= 1073741824 ->
  exists s, arg_mgsort cmp fuel (pre ++ seg ++ post) i k = Ok (pre ++ s ++ post) /\
    Permutation s seg /\ StronglySorted before s.
Proof.
  induction fuel as [|fuel IH]; intros pre seg post i k Hp Hk Hf Hi Hbig; [lia|].
  cbn [arg_mgsort]. pose proof (zlen_nonneg pre) as P0. pose proof (zlen_nonneg seg) as P1.
  destruct (Z.ltb_spec i k) as [L|L].
  - destruct Hi as [Hi|Hi]; [rewrite Hi|lia].
    set (j := Z.quot (i + k - 1) 2).
    assert (Hj : i <= j < k).
    { unfold j. rewrite Z.quot_div_nonneg by lia.
      pose proof (Z.div_mod (i + k - 1) 2 ltac:(lia)). pose proof (Z.mod_pos_bound (i + k - 1) 2 ltac:(lia)). lia. }
    clearbody j.
    set (n1 := Z.to_nat (j - i + 1)).
    set (Lseg := firstn n1 seg). set (Rseg := skipn n1 seg).
    assert (HL : seg = Lseg ++ Rseg) by (symmetry; apply firstn_skipn).
    assert (HLl : zlen Lseg = j - i + 1).
    { unfold zlen, Lseg. rewrite firstn_length. unfold zlen in *. lia. }
    assert (HRl : zlen Rseg = k - j).
    { pose proof (f_equal zlen HL) as E. rewrite zlen_app in E. lia. }
    clearbody Lseg Rseg. subst seg. rewrite zlen_app in *.
    destruct (IH pre Lseg (Rseg ++ post) i j) as [s1 [E1 [P1' S1]]]; auto; try lia.
    { rewrite app_length in Hf. unfold zlen in HLl, HRl. lia. }
    { destruct (Z.leb_spec j i); [right; lia|left]. unfold in_intb, INT_MIN, INT_MAX in *.
      apply andb_true_iff; split; apply Z.leb_le; lia. }
    rewrite <- app_assoc. rewrite E1. cbn [bind].
    pose proof (Permutation_length P1') as PL1.
    destruct (IH (pre ++ s1) Rseg post (j + 1) k) as [s2 [E2 [P2' S2]]].
    { rewrite zlen_app. unfold zlen in *. lia. }
    { lia. }
    { rewrite app_length in Hf. unfold zlen in HLl, HRl. lia. }
    { destruct (Z.leb_spec k (j + 1)); [right; lia|left]. unfold in_intb, INT_MIN, INT_MAX in *.
      apply andb_true_iff; split; apply Z.leb_le; lia. }
    { rewrite zlen_app. unfold zlen in *. lia. }
    rewrite <- app_assoc in E2. rewrite E2. cbn [bind]. rewrite <- app_assoc.
    pose proof (Permutation_length P2') as PL2.
    rewrite (merge_ok _ pre s1 s2 post i j k).
    + exists (fmerge s1 s2). split; auto. split.
      * eapply Permutation_trans; [apply fmerge_perm|]. apply Permutation_app; auto.
      * apply fmerge_sorted; auto.
    + auto.
    + unfold zlen in *. lia.
    + unfold zlen in *. lia.
    + rewrite !app_length in *. lia.
  - exists seg. split; auto. split; auto.
    destruct seg as [|x [|y seg]].
    + constructor.
    + repeat constructor.
    + exfalso. rewrite !zlen_cons in Hk. pose proof (zlen_nonneg seg). lia.
Qed.
End Proofs.

(** C37. For any comparison function whose "less" is a strict weak order, sorting the elements
    at indices i..k (any array with fewer than 2^30 elements up to k) succeeds with no
    out-of-bounds access, rearranges exactly those elements into ascending order and leaves all
    others in place. *)
Theorem C37_mgsort_sorts :
  forall (A : Type) (cmp : A -> A -> Z),
  (forall x y, cmp x y < 0 -> ~ cmp y x < 0) ->
  (forall x y z, ~ cmp y x < 0 -> ~ cmp z y < 0 -> ~ cmp z x < 0) ->
  forall (pre seg post : list A) (i k : Z),
  zlen pre = i -> i + zlen seg = k + 1 -> k < 1073741824 ->
  exists s,
    arg_mgsort cmp (S (List.length seg)) (pre ++ seg ++ post) i k = Ok (pre ++ s ++ post) /\
    Permutation s seg /\
    (forall a b, (a < b < List.length s)%nat -> forall x y,
       nth_error s a = Some x -> nth_error s b = Some y -> ~ cmp y x < 0).
Proof.
  intros A cmp Has Htr pre seg post i k Hp Hk Hb.
  pose proof (zlen_nonneg pre). pose proof (zlen_nonneg seg).
  destruct (mgsort_ok cmp Has Htr (S (List.length seg)) pre seg post i k) as [s [E [P S]]]; auto; try lia.
  { destruct (Z.leb_spec k i); [right; lia|left]. unfold in_intb, INT_MIN, INT_MAX.
    apply andb_true_iff; split; apply Z.leb_le; lia. }
  exists s. split; auto. split; auto. clear E P.
  induction S as [|z s S IH F]; intros a b Hab x y Hx Hy.
  - destruct a; discriminate.
  - destruct b as [|b]; [lia|]. simpl in Hy. destruct a as [|a].
    + simpl in Hx. injection Hx as <-. rewrite Forall_forall in F. apply F. eapply nth_error_In; eauto.
    + simpl in Hx. simpl in Hab. eapply (IH a b); eauto. lia.
Qed.

Definition cmp_key (x y : Z * Z) : Z := fst x - fst y.

Example C37_case :
  arg_mgsort cmp_key 6 ([(9, 0)] ++ [(5, 1); (3, 2); (5, 3); (1, 4); (2, 5)] ++ [(0, 6)]) 1 5
  = Ok ([(9, 0)] ++ [(1, 4); (2, 5); (3, 2); (5, 3); (5, 1)] ++ [(0, 6)]).
Proof. vm_compute. reflexivity. Qed.
Example C37_case_hyps :
  (forall x y, cmp_key x y < 0 -> ~ cmp_key y x < 0) /\
  (forall x y z, ~ cmp_key y x < 0 -> ~ cmp_key z y < 0 -> ~ cmp_key z x < 0).
Proof. unfold cmp_key; split; intros; lia. Qed.

(** C38. Stability is false: two elements with equal keys are exchanged. *)
Theorem C38_mgsort_stable_refuted :
  exists (a b : Z * Z), a <> b /\ cmp_key a b = 0 /\
    arg_mgsort cmp_key 3 [a; b] 0 1 = Ok [b; a].
Proof. exists (1, 1), (1, 2). split; [congruence|]. split; vm_compute; reflexivity. Qed.

Print Assumptions C37_mgsort_sorts.
Print Assumptions C38_mgsort_stable_refuted.
