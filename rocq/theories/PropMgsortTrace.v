(** Property C87: how often arg_mgsort calls the comparison function, how much memory it takes and how deep its calls are nested,
    whatever the comparison function answers. *)
From Verif Require Import Base MgsortModel MgsortTrace PropMgsort.
From Coq Require Import ZArith List Bool Lia Permutation Sorted.
Import ListNotations.
Open Scope Z_scope.

(** ** Specification *)
Section Spec.
Context {A : Type}.
Notation ev := (event A).
(** Totals over a list of events in the order of time, and the highest value that is reached on the way. *)
Fixpoint total (w : ev -> Z) (l : list ev) : Z := match l with [] => 0 | e :: l => w e + total w l end.
Fixpoint peak (w : ev -> Z) (l : list ev) : Z := match l with [] => 0 | e :: l => Z.max 0 (w e + peak w l) end.
Definition calls (e : ev) : Z := match e with Called _ _ => 1 | _ => 0 end.
Definition blocks (e : ev) : Z := match e with Taken _ => 1 | Released _ => -1 | _ => 0 end.
Definition room (e : ev) : Z := match e with Taken n => n | Released n => - n | _ => 0 end.
Definition requests (e : ev) : Z := match e with Taken _ => 1 | _ => 0 end.
Definition nesting (e : ev) : Z := match e with Entered => 1 | Left => -1 | _ => 0 end.
End Spec.
(** The number of comparisons that suffices for n elements *)
Definition most_calls (n : Z) : Z := n * Z.log2_up n - 2 ^ Z.log2_up n + 1.

Section Proofs.
Context {A : Type}.
Notation ev := (event A).
Lemma total_app w (a b : list ev) : total w (a ++ b) = total w a + total w b.
Proof. induction a; cbn [app total]; lia. Qed.
Lemma peak_nonneg w (a : list ev) : 0 <= peak w a.
Proof. destruct a; cbn [peak]; lia. Qed.
Lemma peak_app w (a b : list ev) : peak w (a ++ b) = Z.max (peak w a) (total w a + peak w b).
Proof. pose proof (peak_nonneg w b). induction a; cbn [app total peak]; lia. Qed.
Lemma peak_zero w (a : list ev) : Forall (fun e => w e = 0) a -> peak w a = 0 /\ total w a = 0.
Proof. induction 1; cbn [peak total]; lia. Qed.

Lemma total_whole w (l1 l2 c : list ev) n : total w (Entered :: l1 ++ l2 ++ Taken n :: c ++ [Released n; Left]) =
  w Entered + total w l1 + total w l2 + w (Taken n) + total w c + w (Released n) + w Left.
Proof. cbn [total]. rewrite !total_app. cbn [total]. rewrite !total_app. cbn [total]. lia. Qed.
Lemma peak_whole w (l1 l2 c : list ev) n : peak w (Entered :: l1 ++ l2 ++ Taken n :: c ++ [Released n; Left]) =
  Z.max 0 (w Entered + Z.max (peak w l1) (total w l1 + Z.max (peak w l2) (total w l2 + Z.max 0 (w (Taken n) + Z.max (peak w c) (total w c + Z.max 0 (w (Released n) + Z.max 0 (w Left + 0))))))).
Proof. cbn [peak]. rewrite !peak_app. cbn [peak]. rewrite !peak_app. cbn [peak]. reflexivity. Qed.

Context (cmp : list ev -> A -> A -> Z).
(** ** The two functions as relations on lists *)
Inductive merges : list ev -> list A -> list A -> list A -> list ev -> Prop :=
| m_left log l : merges log [] l l log
| m_right log l : merges log l [] l log
| m_x log x l1 y l2 l log' : cmp log x y < 0 -> merges (Called x y :: log) l1 (y :: l2) l log' -> merges log (x :: l1) (y :: l2) (x :: l) log'
| m_y log x l1 y l2 l log' : ~ cmp log x y < 0 -> merges (Called x y :: log) (x :: l1) l2 l log' -> merges log (x :: l1) (y :: l2) (y :: l) log'.
Inductive sorts : list ev -> list A -> list A -> list ev -> Prop :=
| s_small log l : zlen l <= 1 -> sorts log l l (Left :: Entered :: log)
| s_split log a b s1 s2 s log1 log2 log3 : let n := zlen a + zlen b in 2 <= n -> zlen a = n / 2 ->
    sorts (Entered :: log) a s1 log1 -> sorts log1 b s2 log2 -> merges (Taken n :: log2) s1 s2 s log3 ->
    sorts log (a ++ b) s (Left :: Released n :: log3).
Lemma merges_total : forall n log l1 l2, (List.length l1 + List.length l2 <= n)%nat -> exists l log', merges log l1 l2 l log'.
Proof.
  induction n as [|n IH]; intros log l1 l2 Hn.
  - destruct l1; [|cbn in Hn; lia]. eexists _, _. apply m_left.
  - destruct l1 as [|x l1]; [eexists _, _; apply m_left|]. destruct l2 as [|y l2]; [eexists _, _; apply m_right|]. cbn in Hn.
    destruct (Z.lt_ge_cases (cmp log x y) 0) as [H|H].
    + destruct (IH (Called x y :: log) l1 (y :: l2)) as (l & log' & M); [cbn; lia|]. eexists _, _. apply m_x; eauto.
    + destruct (IH (Called x y :: log) (x :: l1) l2) as (l & log' & M); [cbn; lia|]. eexists _, _. apply m_y; eauto. lia.
Qed.
Lemma merges_no_left log l s log' : merges log [] l s log' -> log' = log.
Proof. inversion 1; reflexivity. Qed.
Lemma merges_no_right log l s log' : merges log l [] s log' -> log' = log.
Proof. inversion 1; reflexivity. Qed.
Lemma merges_facts log l1 l2 l log' : merges log l1 l2 l log' -> Permutation l (l1 ++ l2) /\
  exists cs, log' = cs ++ log /\ Forall (fun e => exists x y, e = Called x y /\ In x l1 /\ In y l2) cs /\
    (l1 <> [] -> l2 <> [] -> 1 <= zlen cs <= zlen l1 + zlen l2 - 1) /\ zlen cs <= zlen l1 + zlen l2.
Proof.
  induction 1 as [log l|log l|log x l1 y l2 l log' Hc M (IH1 & cs & -> & IH2 & IH3 & IH4)|log x l1 y l2 l log' Hc M (IH1 & cs & -> & IH2 & IH3 & IH4)].
  - split; [apply Permutation_refl|]. exists []. pose proof (zlen_nonneg l). cbn. split; [auto|]. split; [constructor|]. split; [congruence|lia].
  - split; [rewrite app_nil_r; apply Permutation_refl|]. exists []. pose proof (zlen_nonneg l). cbn. split; [auto|]. split; [constructor|]. split; [congruence|lia].
  - split; [cbn; constructor; exact IH1|]. exists (cs ++ [Called x y]). rewrite <- app_assoc. split; [reflexivity|]. split; [|rewrite !zlen_app, !zlen_cons, zlen_nil in *].
    + apply Forall_app. split; [|constructor; [|constructor]; exists x, y; cbn; auto]. eapply Forall_impl; [|exact IH2]. intros e (a & b & -> & Ha & Hb). exists a, b. cbn in *. auto.
    + pose proof (zlen_nonneg cs). pose proof (zlen_nonneg l1). pose proof (zlen_nonneg l2). split; [|lia]. intros _ _. destruct l1 as [|z l1]; [|specialize (IH3 ltac:(discriminate) ltac:(discriminate)); rewrite zlen_cons in *; lia].
      apply merges_no_left in M. apply (app_inv_tail _ cs []) in M. subst cs. rewrite !zlen_nil in *. lia.
  - split; [eapply Permutation_trans; [constructor; exact IH1|]; apply (Permutation_middle (x :: l1) l2 y)|]. exists (cs ++ [Called x y]). rewrite <- app_assoc. split; [reflexivity|]. split; [|rewrite !zlen_app, !zlen_cons, zlen_nil in *].
    + apply Forall_app. split; [|constructor; [|constructor]; exists x, y; cbn; auto]. eapply Forall_impl; [|exact IH2]. intros e (a & b & -> & Ha & Hb). exists a, b. cbn in *. auto.
    + pose proof (zlen_nonneg cs). pose proof (zlen_nonneg l1). pose proof (zlen_nonneg l2). split; [|lia]. intros _ _. destruct l2 as [|z l2]; [|specialize (IH3 ltac:(discriminate) ltac:(discriminate)); rewrite zlen_cons in *; lia].
      apply merges_no_right in M. apply (app_inv_tail _ cs []) in M. subst cs. rewrite !zlen_nil in *. lia.
Qed.
Lemma sorts_total : forall n log l, (List.length l <= n)%nat -> exists s log', sorts log l s log'.
Proof.
  induction n as [|n IH]; intros log l Hn; [destruct l; [|cbn in Hn; lia]; do 2 eexists; apply s_small; cbn; lia|].
  destruct (Z.le_gt_cases (zlen l) 1) as [H1|H1]; [do 2 eexists; apply s_small; exact H1|].
  set (h := Z.to_nat (zlen l / 2)). assert (Hh : 1 <= zlen l / 2 < zlen l) by (split; [apply Z.div_le_lower_bound; lia|apply Z.div_lt_upper_bound; lia]).
  assert (Ha : zlen (firstn h l) = zlen l / 2) by (unfold zlen at 1; rewrite firstn_length; unfold zlen in *; lia).
  assert (Hb : zlen (firstn h l) + zlen (skipn h l) = zlen l) by (rewrite <- zlen_app, firstn_skipn; reflexivity).
  destruct (IH (Entered :: log) (firstn h l)) as (s1 & log1 & S1); [unfold zlen in *; lia|]. destruct (IH log1 (skipn h l)) as (s2 & log2 & S2); [unfold zlen in *; lia|].
  destruct (merges_total _ (Taken (zlen l) :: log2) s1 s2 (le_n _)) as (s & log3 & M). rewrite <- Hb in M. exists s, (Left :: Released (zlen (firstn h l) + zlen (skipn h l)) :: log3). rewrite <- (firstn_skipn h l) at 1. apply (s_split log (firstn h l) (skipn h l) s1 s2 s log1 log2 log3); auto; rewrite ?Hb; lia.
Qed.

(** ** The program follows the relations *)
Lemma merge_loop_ok : forall log L2 R2 out log', merges log L2 R2 out log' -> forall fuel pre L1 R1 post i j k m,
  i = zlen pre -> j = i + zlen L1 + zlen L2 - 1 -> k = j + zlen R1 + zlen R2 ->
  (List.length L2 + List.length R2 + 2 <= fuel)%nat ->
  zlen m + zlen L2 + zlen R2 <= k - i + 1 ->
  MgsortTrace.merge_loop cmp fuel (pre ++ L1 ++ L2 ++ R1 ++ R2 ++ post) (k - i + 1) j k
     (i + zlen L1) (j + 1 + zlen R1) m log = Ok (m ++ out, log').
Proof.
  induction 1 as [log R2|log L2|log x L2 y R2 l log' Hc M IH|log x L2 y R2 l log' Hc M IH]; intros fuel pre L1 R1 post i j k m Hi Hj Hk Hf Hm;
    (destruct fuel as [|fuel]; [lia|]); cbn [MgsortTrace.merge_loop]; pose proof (zlen_nonneg L1); pose proof (zlen_nonneg R1); pose proof (zlen_nonneg pre).
  - pose proof (zlen_nonneg R2). rewrite zlen_nil in *. destruct (Z.leb_spec (i + zlen L1) j); [lia|]. cbn [orb].
    destruct R2 as [|y R2].
    + rewrite zlen_nil in *. destruct (Z.leb_spec (j + 1 + zlen R1) k); [lia|]. rewrite app_nil_r; auto.
    + rewrite zlen_cons in *. pose proof (zlen_nonneg R2). destruct (Z.leb_spec (j + 1 + zlen R1) k); [|lia].
      destruct (Z.ltb_spec j (i + zlen L1)); [|lia].
      replace (pre ++ L1 ++ [] ++ R1 ++ (y :: R2) ++ post) with ((pre ++ L1 ++ R1) ++ (y :: R2) ++ post)
        by (rewrite <- !app_assoc; reflexivity).
      rewrite copy_run_ok; try (rewrite ?zlen_app, ?zlen_cons, ?zlen_nil; lia).
      all: try (cbn in *; lia).
      cbn [bind].
      destruct fuel as [|fuel]; [cbn in Hf; lia|]. cbn [MgsortTrace.merge_loop].
      destruct (Z.leb_spec (i + zlen L1) j); [lia|].
      destruct (Z.leb_spec (Z.max (j + 1 + zlen R1) (k + 1)) k); [lia|]. reflexivity.
  - destruct L2 as [|x L2].
    + rewrite zlen_nil in *. destruct (Z.leb_spec (i + zlen L1) j); [lia|]. cbn [orb]. destruct (Z.leb_spec (j + 1 + zlen R1) k); [lia|]. rewrite app_nil_r; auto.
    + rewrite zlen_cons, zlen_nil in *. pose proof (zlen_nonneg L2).
      destruct (Z.leb_spec (i + zlen L1) j); [|lia]. cbn [orb].
      destruct (Z.ltb_spec j (i + zlen L1)); [lia|].
      destruct (Z.ltb_spec k (j + 1 + zlen R1)); [|lia].
      replace (pre ++ L1 ++ (x :: L2) ++ R1 ++ [] ++ post) with ((pre ++ L1) ++ (x :: L2) ++ R1 ++ post)
        by (rewrite <- !app_assoc; reflexivity).
      rewrite copy_run_ok; try (rewrite ?zlen_app, ?zlen_cons, ?zlen_nil; lia).
      all: try (cbn in *; lia).
      cbn [bind].
      destruct fuel as [|fuel]; [cbn in Hf; lia|]. cbn [MgsortTrace.merge_loop].
      destruct (Z.leb_spec (Z.max (i + zlen L1) (j + 1)) j); [lia|].
      destruct (Z.leb_spec (j + 1 + zlen R1) k); [lia|]. reflexivity.
  - rewrite !zlen_cons in *. pose proof (zlen_nonneg L2). pose proof (zlen_nonneg R2).
    destruct (Z.leb_spec (i + zlen L1) j); [|lia]. cbn [orb]. destruct (Z.ltb_spec j (i + zlen L1)); [lia|]. destruct (Z.ltb_spec k (j + 1 + zlen R1)); [lia|].
    replace (pre ++ L1 ++ (x :: L2) ++ R1 ++ (y :: R2) ++ post)
      with ((pre ++ L1) ++ (x :: L2) ++ (R1 ++ (y :: R2) ++ post)) at 1 by (rewrite <- !app_assoc; reflexivity).
    rewrite (aget_mid (pre ++ L1) (x :: L2) L2 x) by (auto; rewrite zlen_app; lia). cbn [bind].
    replace (pre ++ L1 ++ (x :: L2) ++ R1 ++ (y :: R2) ++ post)
      with ((pre ++ L1 ++ (x :: L2) ++ R1) ++ (y :: R2) ++ post) at 1 by (rewrite <- !app_assoc; reflexivity).
    rewrite (aget_mid (pre ++ L1 ++ (x :: L2) ++ R1) (y :: R2) R2 y)
      by (auto; rewrite !zlen_app, zlen_cons; lia). cbn [bind].
    destruct (Z.ltb_spec (cmp log x y) 0); [|lia]. rewrite push_ok by lia. cbn [bind].
    replace (pre ++ L1 ++ (x :: L2) ++ R1 ++ (y :: R2) ++ post)
      with (pre ++ (L1 ++ [x]) ++ L2 ++ R1 ++ (y :: R2) ++ post) by (rewrite <- !app_assoc; reflexivity).
    replace (i + zlen L1 + 1) with (i + zlen (L1 ++ [x])) by (rewrite zlen_app, zlen_cons, zlen_nil; lia).
    rewrite IH; [rewrite <- app_assoc; reflexivity|exact Hi| | |cbn in *; lia|]; rewrite ?zlen_app, ?zlen_cons, ?zlen_nil; lia.
  - rewrite !zlen_cons in *. pose proof (zlen_nonneg L2). pose proof (zlen_nonneg R2).
    destruct (Z.leb_spec (i + zlen L1) j); [|lia]. cbn [orb]. destruct (Z.ltb_spec j (i + zlen L1)); [lia|]. destruct (Z.ltb_spec k (j + 1 + zlen R1)); [lia|].
    replace (pre ++ L1 ++ (x :: L2) ++ R1 ++ (y :: R2) ++ post)
      with ((pre ++ L1) ++ (x :: L2) ++ (R1 ++ (y :: R2) ++ post)) at 1 by (rewrite <- !app_assoc; reflexivity).
    rewrite (aget_mid (pre ++ L1) (x :: L2) L2 x) by (auto; rewrite zlen_app; lia). cbn [bind].
    replace (pre ++ L1 ++ (x :: L2) ++ R1 ++ (y :: R2) ++ post)
      with ((pre ++ L1 ++ (x :: L2) ++ R1) ++ (y :: R2) ++ post) at 1 by (rewrite <- !app_assoc; reflexivity).
    rewrite (aget_mid (pre ++ L1 ++ (x :: L2) ++ R1) (y :: R2) R2 y)
      by (auto; rewrite !zlen_app, zlen_cons; lia). cbn [bind].
    destruct (Z.ltb_spec (cmp log x y) 0); [lia|]. rewrite push_ok by lia. cbn [bind].
    replace (pre ++ L1 ++ (x :: L2) ++ R1 ++ (y :: R2) ++ post)
      with (pre ++ L1 ++ (x :: L2) ++ (R1 ++ [y]) ++ R2 ++ post) by (rewrite <- !app_assoc; reflexivity).
    replace (j + 1 + zlen R1 + 1) with (j + 1 + zlen (R1 ++ [y])) by (rewrite zlen_app, zlen_cons, zlen_nil; lia).
    rewrite IH; [rewrite <- app_assoc; reflexivity|exact Hi| | |cbn in *; lia|]; rewrite ?zlen_app, ?zlen_cons, ?zlen_nil; lia.
Qed.
Lemma merge_ok fuel pre L R post i j k n log s log' : merges (Taken n :: log) L R s log' ->
  i = zlen pre -> j = i + zlen L - 1 -> k = j + zlen R -> n = zlen L + zlen R ->
  (List.length L + List.length R + 2 <= fuel)%nat ->
  MgsortTrace.merge cmp fuel (pre ++ L ++ R ++ post) i j k log = Ok (pre ++ s ++ post, Released n :: log').
Proof.
  intros M Hi Hj Hk Hn Hf. unfold MgsortTrace.merge. replace (k - i + 1) with n in * by lia. pose proof (merges_facts _ _ _ _ _ M) as (P & _).
  pose proof (merge_loop_ok _ _ _ _ _ M fuel pre [] [] post i j k []) as H. cbn [app] in H. rewrite !zlen_nil, !Z.add_0_r in H. replace (k - i + 1) with n in H by lia.
  rewrite H by (auto; lia). cbn [bind]. apply Permutation_length in P. rewrite app_length in P.
  destruct (Z.eqb_spec (zlen s) n) as [E|E]; [|exfalso; apply E; unfold zlen in *; lia].
  rewrite (app_assoc L R post), (copy_back_ok s pre (L ++ R) post i); [reflexivity|auto|rewrite app_length; lia].
Qed.
Lemma sorts_length log l s log' : sorts log l s log' -> Permutation s l.
Proof.
  induction 1 as [log l H|log a b s1 s2 s log1 log2 log3 n Hn Ha S1 IH1 S2 IH2 M]; [apply Permutation_refl|].
  apply merges_facts in M as (P & _). eapply Permutation_trans; [exact P|]. apply Permutation_app; auto.
Qed.
Lemma mgsort_follows log seg s log' : sorts log seg s log' -> forall fuel pre post i k,
  zlen pre = i -> i + zlen seg = k + 1 -> (List.length seg < fuel)%nat -> zlen pre + zlen seg <= 1073741824 ->
  MgsortTrace.arg_mgsort cmp fuel (pre ++ seg ++ post) i k log = Ok (pre ++ s ++ post, log').
Proof.
  induction 1 as [log l H|log a b s1 s2 s log1 log2 log3 n Hn Ha S1 IH1 S2 IH2 M]; intros fuel pre post i k Hp Hk Hf Hb; (destruct fuel as [|fuel]; [lia|]); cbn [MgsortTrace.arg_mgsort]; pose proof (zlen_nonneg pre).
  - destruct (Z.ltb_spec i k); [lia|reflexivity].
  - rewrite zlen_app in *. fold n in Hk, Hb. destruct (Z.ltb_spec i k); [|lia].
    assert (Hi : in_intb (i + k) = true) by (unfold in_intb, INT_MIN, INT_MAX; apply andb_true_iff; split; apply Z.leb_le; lia). rewrite Hi. cbv zeta.
    assert (Hj : Z.quot (i + k - 1) 2 = i + zlen a - 1).
    { rewrite Z.quot_div_nonneg by lia. replace (i + k - 1) with ((i - 1) * 2 + n) by lia. rewrite Z.div_add_l by lia. lia. }
    rewrite Hj. assert (Hh : n / 2 < n) by (apply Z.div_lt_upper_bound; lia). assert (Hh' : 1 <= n / 2) by (apply Z.div_le_lower_bound; lia). rewrite app_length in Hf.
    assert (N : (List.length a + List.length b)%nat = Z.to_nat n) by (unfold n, zlen; lia).
    rewrite <- !app_assoc. rewrite (IH1 fuel pre (b ++ post)); [|exact Hp|lia|unfold zlen in *; lia|lia]. cbn [bind].
    pose proof (Permutation_length (sorts_length _ _ _ _ S1)) as L1. pose proof (Permutation_length (sorts_length _ _ _ _ S2)) as L2.
    assert (Z1 : zlen s1 = zlen a) by (unfold zlen; lia). assert (Z2 : zlen s2 = zlen b) by (unfold zlen; lia).
    replace (pre ++ s1 ++ b ++ post) with ((pre ++ s1) ++ b ++ post) by (rewrite <- !app_assoc; reflexivity).
    rewrite (IH2 fuel (pre ++ s1) post); [|rewrite zlen_app; lia|lia|unfold zlen in *; lia|rewrite zlen_app; lia]. cbn [bind]. rewrite <- app_assoc.
    rewrite (merge_ok _ pre s1 s2 post _ _ _ n log2 s log3); [reflexivity|exact M|lia|lia|lia|lia|rewrite !app_length; lia].
Qed.

(** ** Counting *)
Lemma half_up n : 2 <= n -> Z.log2_up n = 1 + Z.log2_up (n - n / 2).
Proof.
  intros Hn. pose proof (Z.div_mod n 2 ltac:(lia)) as D. pose proof (Z.mod_pos_bound n 2 ltac:(lia)) as B. destruct (Z.eq_dec n 2) as [->|N2]; [reflexivity|].
  set (h := n - n / 2). assert (Hh : 2 <= h) by lia. pose proof (Z.log2_up_spec h ltac:(lia)) as (L1 & L2).
  apply Z.log2_up_unique; [pose proof (Z.log2_up_nonneg h); lia|]. pose proof (Z.log2_up_pos h ltac:(lia)).
  replace (Z.pred (1 + Z.log2_up h)) with (Z.succ (Z.pred (Z.log2_up h))) by lia. rewrite Z.pow_succ_r by lia. rewrite Z.add_1_l, Z.pow_succ_r by lia. lia.
Qed.
Lemma half_down n : 2 <= n -> Z.log2_up (n / 2) <= Z.log2_up (n - n / 2).
Proof. intros Hn. apply Z.log2_up_le_mono. pose proof (Z.div_mod n 2 ltac:(lia)). pose proof (Z.mod_pos_bound n 2 ltac:(lia)). lia. Qed.
(** The number of comparisons in terms of the halves *)
Lemma most_calls_split n : 2 <= n -> most_calls n = most_calls (n / 2) + most_calls (n - n / 2) + n - 1.
Proof.
  intros Hn. pose proof (Z.div_mod n 2 ltac:(lia)) as D. pose proof (Z.mod_pos_bound n 2 ltac:(lia)) as B. set (m := n / 2) in *. assert (Hm : 1 <= m) by lia.
  unfold most_calls. rewrite (half_up n Hn). fold m. set (h := n - m) in *. set (L := Z.log2_up h). pose proof (Z.log2_up_nonneg h : 0 <= L) as L0.
  rewrite Z.add_1_l, Z.pow_succ_r by lia.
  assert (K : m * Z.log2_up m - 2 ^ Z.log2_up m = m * L - 2 ^ L).
  { destruct (Z.eq_dec h m) as [E|E]; [unfold L; rewrite E; reflexivity|]. assert (Eh : h = m + 1) by lia.
    pose proof (Z.log2_up_succ_or m) as [S|S]; rewrite <- Z.add_1_r in S; rewrite <- Eh in S; fold L in S.
    2: rewrite S; reflexivity.
    (* the logarithm grows between m and m + 1 only at a power of two *)
    assert (P : m = 2 ^ Z.log2_up m).
    { destruct (Z.eq_dec m 1) as [->|]; [reflexivity|]. pose proof (Z.log2_up_spec m ltac:(lia)) as (_ & U). pose proof (Z.log2_up_spec h ltac:(lia)) as (V & _). fold L in V. rewrite S in V. replace (Z.pred (Z.succ (Z.log2_up m))) with (Z.log2_up m) in V by lia. lia. }
    rewrite S, Z.pow_succ_r by apply Z.log2_up_nonneg. rewrite <- P. nia. }
  unfold h in *. generalize dependent (2 ^ L). intros p. generalize (2 ^ Z.log2_up m). intros q K. nia.
Qed.
Lemma most_calls_nonneg_1 n : n <= 1 -> 0 <= n -> most_calls n = 0.
Proof. intros H1 H0. assert (n = 0 \/ n = 1) as [->| ->] by lia; reflexivity. Qed.
Lemma calls_zlen (cs : list ev) : Forall (fun e => exists x y, e = Called x y) cs ->
  total calls cs = zlen cs /\ total blocks cs = 0 /\ total room cs = 0 /\ total requests cs = 0 /\ total nesting cs = 0 /\ peak blocks cs = 0 /\ peak room cs = 0 /\ peak nesting cs = 0.
Proof.
  induction 1 as [|e cs (x & y & ->) H IH]; [repeat split|]. rewrite zlen_cons. cbn [total peak calls blocks room requests nesting]. lia.
Qed.
Definition within (seg : list A) (e : ev) : Prop := forall x y, e = Called x y -> In x seg /\ In y seg.
Lemma sorts_counts log seg s log' : sorts log seg s log' -> exists L, log' = L ++ log /\ Forall (within seg) L /\
  let l := rev L in let n := zlen seg in
  n - 1 <= total calls l <= most_calls n /\ total requests l = Z.max 0 (n - 1) /\
  total blocks l = 0 /\ peak blocks l <= 1 /\ total room l = 0 /\ peak room l = (if n <=? 1 then 0 else n) /\
  total nesting l = 0 /\ peak nesting l = 1 + Z.log2_up n.
Proof.
  induction 1 as [log l H|log a b s1 s2 s log1 log2 log3 n Hn Ha S1 (L1 & -> & W1 & C1) S2 (L2 & -> & W2 & C2) M].
  - exists [Left; Entered]. split; [reflexivity|]. split; [do 2 (apply Forall_cons; [intros x y K; discriminate|]); apply Forall_nil|]. cbv zeta. cbn [rev app total peak calls blocks room requests nesting].
    pose proof (zlen_nonneg l). rewrite most_calls_nonneg_1 by lia. assert (Z.log2_up (zlen l) = 0) as -> by (apply Z.log2_up_eqn0; lia). destruct (Z.leb_spec (zlen l) 1); [|lia]. lia.
  - pose proof (merges_facts _ _ _ _ _ M) as (PM & cs & -> & Fc & Bc & _). pose proof (sorts_length _ _ _ _ S1) as P1. pose proof (sorts_length _ _ _ _ S2) as P2.
    exists (Left :: Released n :: cs ++ Taken n :: L2 ++ L1 ++ [Entered]). split; [cbn [app]; rewrite <- !app_assoc; cbn [app]; rewrite <- !app_assoc; reflexivity|].
    assert (Z1 : zlen s1 = zlen a) by (unfold zlen; rewrite (Permutation_length P1); reflexivity). assert (Z2 : zlen s2 = zlen b) by (unfold zlen; rewrite (Permutation_length P2); reflexivity).
    assert (Hh : n / 2 < n) by (apply Z.div_lt_upper_bound; lia). assert (Hh' : 1 <= n / 2) by (apply Z.div_le_lower_bound; lia).
    split.
    { assert (N : forall e, (forall x y, e <> Called x y) -> within (a ++ b) e) by (intros e K x y E; destruct (K x y E)).
      constructor; [apply N; discriminate|]. constructor; [apply N; discriminate|]. apply Forall_app. split.
      { eapply Forall_impl; [|exact Fc]. intros e (x & y & -> & Hx & Hy) x' y' E. injection E as <- <-. split; apply in_or_app; [left; eapply Permutation_in; eauto|right; eapply Permutation_in; eauto]. }
      constructor; [apply N; discriminate|]. apply Forall_app. split; [|apply Forall_app; split].
      - eapply Forall_impl; [|exact W2]. intros e K x y E. destruct (K x y E). split; apply in_or_app; auto.
      - eapply Forall_impl; [|exact W1]. intros e K x y E. destruct (K x y E). split; apply in_or_app; auto.
      - constructor; [apply N; discriminate|constructor]. }
    assert (Fr : Forall (fun e => exists x y, e = Called x y) (rev cs)) by (apply Forall_rev; eapply Forall_impl; [|exact Fc]; intros e (x & y & -> & _); eauto).
    apply calls_zlen in Fr as (Q1 & Q2 & Q3 & Q4 & Q5 & Q6 & Q7 & Q8). assert (Zr : zlen (rev cs) = zlen cs) by (unfold zlen; rewrite rev_length; reflexivity). rewrite Zr in Q1.
    assert (Bc' : 1 <= zlen cs <= n - 1) by (rewrite Z1, Z2 in Bc; apply Bc; intros ->; rewrite zlen_nil in *; unfold n in *; lia).
    cbv zeta in C1, C2 |- *. rewrite zlen_app. fold n. replace (zlen b) with (n - n / 2) in * by lia. rewrite Ha in *. clear Ha.
    rewrite (most_calls_split n Hn), (half_up n Hn). pose proof (half_down n Hn) as HD.
    change (Left :: Released n :: cs ++ Taken n :: L2 ++ L1 ++ [Entered]) with ([Left; Released n] ++ cs ++ [Taken n] ++ L2 ++ L1 ++ [Entered]).
    rewrite !rev_app_distr. cbn [rev app]. rewrite <- !app_assoc. cbn [app].
    set (l1 := rev L1) in *. set (l2 := rev L2) in *. set (c := rev cs) in *.
    destruct C1 as (A1 & A2 & A3 & A4 & A5 & A6 & A7 & A8), C2 as (B1 & B2 & B3 & B4 & B5 & B6 & B7 & B8).
    clearbody l1 l2 c n. clear - A1 A2 A3 A4 A5 A6 A7 A8 B1 B2 B3 B4 B5 B6 B7 B8 Q1 Q2 Q3 Q4 Q5 Q6 Q7 Q8 Bc' HD Hh Hh' Hn.
    rewrite !total_whole, !peak_whole. cbn [calls blocks room requests nesting].
    split; [clear - A1 B1 Q1 Bc'; lia|]. split; [clear - A2 B2 Q4 Hh Hh' Hn; lia|]. split; [clear - A3 B3 Q2; lia|].
    split; [clear - A3 A4 B3 B4 Q2 Q6; lia|]. split; [clear - A5 B5 Q3; lia|].
    split; [|split; [clear - A7 B7 Q5; lia|rewrite A7, A8, B7, B8, Q5, Q8; pose proof (Z.log2_up_nonneg (n / 2)); clear - H HD; lia]].
    assert (R1 : 0 <= peak room l1 <= n) by (rewrite A6; clear - Hh Hh'; destruct (n / 2 <=? 1); lia).
    assert (R2 : 0 <= peak room l2 <= n) by (rewrite B6; clear - Hh Hh'; destruct (n - n / 2 <=? 1); lia).
    rewrite A5, B5, Q3, Q7. destruct (Z.leb_spec n 1); clear - R1 R2 Hn H; lia.
Qed.
End Proofs.

(** ** With a comparison function that only looks at the elements the result is that of C37 *)
Section Pure.
Context {A : Type} (cmp : A -> A -> Z).
Notation ev := (event A).
Definition elements_of (r : res (list A * list ev)) : res (list A) := p <- r ;; Ok (fst p).
Lemma loop_pure : forall fuel a size j k ipos jpos m log,
  elements_of (MgsortTrace.merge_loop (fun _ => cmp) fuel a size j k ipos jpos m log) = MgsortModel.merge_loop cmp fuel a size j k ipos jpos m.
Proof.
  induction fuel as [|fuel IH]; intros; [reflexivity|]. cbn [MgsortTrace.merge_loop MgsortModel.merge_loop].
  destruct ((ipos <=? j) || (jpos <=? k)); [|reflexivity]. destruct (j <? ipos); [destruct (copy_run fuel a size jpos k m); cbn [bind elements_of]; auto|].
  destruct (k <? jpos); [destruct (copy_run fuel a size ipos j m); cbn [bind elements_of]; auto|].
  destruct (aget a ipos) as [x| |]; cbn [bind elements_of]; auto. destruct (aget a jpos) as [y| |]; cbn [bind elements_of]; auto.
  destruct (cmp x y <? 0); [destruct (push size m x); cbn [bind elements_of]; auto|destruct (push size m y); cbn [bind elements_of]; auto].
Qed.
Lemma merge_pure fuel a i j k log : elements_of (MgsortTrace.merge (fun _ => cmp) fuel a i j k log) = MgsortModel.merge cmp fuel a i j k.
Proof.
  unfold MgsortTrace.merge, MgsortModel.merge. rewrite <- (loop_pure fuel a (k - i + 1) j k i (j + 1) [] (Taken (k - i + 1) :: log)).
  destruct (MgsortTrace.merge_loop _ _ _ _ _ _ _ _ _ _) as [[m l]| |]; cbn [bind elements_of fst]; auto. destruct (zlen m =? k - i + 1); auto. destruct (copy_back a i m); reflexivity.
Qed.
Lemma mgsort_pure : forall fuel a i k log, elements_of (MgsortTrace.arg_mgsort (fun _ => cmp) fuel a i k log) = MgsortModel.arg_mgsort cmp fuel a i k.
Proof.
  induction fuel as [|fuel IH]; intros; [reflexivity|]. cbn [MgsortTrace.arg_mgsort MgsortModel.arg_mgsort]. destruct (i <? k); [|reflexivity]. destruct (in_intb (i + k)); [|reflexivity]. cbv zeta.
  rewrite <- (IH a i (Z.quot (i + k - 1) 2) (Entered :: log)). destruct (MgsortTrace.arg_mgsort _ _ _ _ _ _) as [[a1 l1]| |]; cbn [bind elements_of fst]; auto.
  rewrite <- (IH a1 (Z.quot (i + k - 1) 2 + 1) k l1). destruct (MgsortTrace.arg_mgsort _ _ a1 _ _ _) as [[a2 l2]| |]; cbn [bind elements_of fst]; auto.
  rewrite <- (merge_pure (S (S (List.length a))) a2 i (Z.quot (i + k - 1) 2) k l2). destruct (MgsortTrace.merge _ _ _ _ _ _ _) as [[a3 l3]| |]; reflexivity.
Qed.
End Pure.

(** ** The most comparisons are needed *)
(** The elements of a sorted list are dealt to the two halves in turn, so that the last goes to the right half. *)
Fixpoint deal (right : bool) (l : list Z) : list Z * list Z :=
  match l with
  | [] => ([], [])
  | x :: l => let '(a, b) := deal (negb right) l in if right then (a, x :: b) else (x :: a, b)
  end.
Notation cmp_log := (fun (_ : list (event Z)) (x y : Z) => x - y).
Lemma deal_merges : forall l right log, StronglySorted Z.lt l -> exists cs,
  merges cmp_log log (fst (deal right l)) (snd (deal right l)) l (cs ++ log) /\ zlen cs = Z.max 0 (zlen l - 1).
Proof.
  induction l as [|x l IH]; intros right log Hs.
  - exists []. split; [apply m_left|reflexivity].
  - apply StronglySorted_inv in Hs as (Hs & Hx). destruct l as [|y l].
    + exists []. split; [destruct right; [apply m_left|apply m_right]|reflexivity].
    + assert (Hxy : x < y) by (inversion Hx; auto). pose proof (zlen_nonneg l). cbn [deal] in IH |- *. destruct right; cbn [negb] in *.
      * destruct (IH false (Called y x :: log) Hs) as (cs & M & E). cbn [negb] in M. destruct (deal true l) as [a b] eqn:D. cbn [fst snd] in *.
        exists (cs ++ [Called y x]). split; [rewrite <- app_assoc; apply m_y; [lia|exact M]|]. rewrite zlen_app, !zlen_cons, zlen_nil in *. lia.
      * destruct (IH true (Called x y :: log) Hs) as (cs & M & E). cbn [negb] in M. destruct (deal false l) as [a b] eqn:D. cbn [fst snd] in *.
        exists (cs ++ [Called x y]). split; [rewrite <- app_assoc; apply m_x; [lia|exact M]|]. rewrite zlen_app, !zlen_cons, zlen_nil in *. lia.
Qed.
Lemma deal_facts : forall l right, Permutation (fst (deal right l) ++ snd (deal right l)) l /\
  zlen (fst (deal right l)) = (zlen l + if right then 0 else 1) / 2 /\ zlen (snd (deal right l)) = (zlen l + if right then 1 else 0) / 2.
Proof.
  induction l as [|x l IH]; intros right; [destruct right; repeat split; constructor|]. cbn [deal]. destruct (IH (negb right)) as (P & H1 & H2). destruct (deal (negb right) l) as [a b]. cbn [fst snd] in *.
  destruct right; cbn [negb fst snd] in *; rewrite !zlen_cons.
  - split; [apply Permutation_sym, Permutation_cons_app, Permutation_sym, P|]. split; [rewrite H1; f_equal; lia|]. rewrite H2. replace (zlen l + 1 + 1) with (zlen l + 0 + 1 * 2) by lia. rewrite Z.div_add by lia. reflexivity.
  - split; [cbn; constructor; exact P|]. split; [|rewrite H2; f_equal; lia]. rewrite H1. replace (zlen l + 1 + 1) with (zlen l + 0 + 1 * 2) by lia. rewrite Z.div_add by lia. reflexivity.
Qed.
Lemma deal_sorted : forall l right, StronglySorted Z.lt l -> StronglySorted Z.lt (fst (deal right l)) /\ StronglySorted Z.lt (snd (deal right l)).
Proof.
  induction l as [|x l IH]; intros right Hs; [split; constructor|]. apply StronglySorted_inv in Hs as (Hs & Hx). cbn [deal]. destruct (IH (negb right) Hs) as (H1 & H2). destruct (deal_facts l (negb right)) as (P & _).
  destruct (deal (negb right) l) as [a b]. cbn [fst snd] in *. assert (F : Forall (Z.lt x) (a ++ b)) by (eapply Permutation_Forall; [apply Permutation_sym, P|exact Hx]). apply Forall_app in F as (Fa & Fb).
  destruct right; cbn [fst snd]; split; auto; constructor; auto.
Qed.
Lemma worst_case : forall n l, (List.length l <= n)%nat -> StronglySorted Z.lt l -> exists seg, Permutation seg l /\
  forall log, exists L, sorts cmp_log log seg l (L ++ log) /\ total calls L = most_calls (zlen l).
Proof.
  induction n as [|n IH]; intros l Hl Hs; [destruct l; [|cbn in Hl; lia]|].
  - exists []. split; [constructor|]. intros log. exists [Left; Entered]. split; [apply s_small; cbn; lia|reflexivity].
  - destruct (Z.le_gt_cases (zlen l) 1) as [H1|H1].
    { exists l. split; [apply Permutation_refl|]. intros log. exists [Left; Entered]. split; [apply s_small; exact H1|]. rewrite most_calls_nonneg_1; [reflexivity|lia|apply zlen_nonneg]. }
    pose proof (Z.div_mod (zlen l) 2 ltac:(lia)) as D. pose proof (Z.mod_pos_bound (zlen l) 2 ltac:(lia)) as B.
    destruct (deal_facts l (Z.odd (zlen l))) as (P & Ha & Hb). destruct (deal_sorted l (Z.odd (zlen l)) Hs) as (Sa & Sb). pose proof (fun log => deal_merges l (Z.odd (zlen l)) log Hs) as M.
    destruct (deal (Z.odd (zlen l)) l) as [a b]. cbn [fst snd] in *.
    assert (Ha' : zlen a = zlen l / 2).
    { rewrite Ha. destruct (Z.odd (zlen l)) eqn:O; [f_equal; lia|]. symmetry. apply Z.div_unique with (r := 1); [lia|]. rewrite Zodd_mod in O. apply Zeq_bool_neq in O. lia. }
    assert (Hab : zlen a + zlen b = zlen l) by (rewrite <- zlen_app; unfold zlen; rewrite (Permutation_length P); reflexivity).
    destruct (IH a) as (sa & Pa & Ca); [unfold zlen in *; lia|exact Sa|]. destruct (IH b) as (sb & Pb & Cb); [unfold zlen in *; lia|exact Sb|].
    exists (sa ++ sb). split; [eapply Permutation_trans; [apply Permutation_app; [exact Pa|exact Pb]|exact P]|]. intros log.
    assert (Za : zlen sa = zlen a) by (unfold zlen; rewrite (Permutation_length Pa); reflexivity). assert (Zb : zlen sb = zlen b) by (unfold zlen; rewrite (Permutation_length Pb); reflexivity).
    destruct (Ca (Entered :: log)) as (La & Ra & Ta). destruct (Cb (La ++ Entered :: log)) as (Lb & Rb & Tb). destruct (M (Taken (zlen sa + zlen sb) :: Lb ++ La ++ Entered :: log)) as (cs & Rm & Tm).
    exists (Left :: Released (zlen sa + zlen sb) :: cs ++ Taken (zlen sa + zlen sb) :: Lb ++ La ++ [Entered]). split.
    + replace (_ ++ log) with (Left :: Released (zlen sa + zlen sb) :: cs ++ Taken (zlen sa + zlen sb) :: Lb ++ La ++ Entered :: log) by (cbn [app]; rewrite <- !app_assoc; cbn [app]; rewrite <- !app_assoc; reflexivity).
      eapply s_split; [lia| |exact Ra|exact Rb|exact Rm]. rewrite Za, Zb, Hab. exact Ha'.
    + pose proof (merges_facts _ _ _ _ _ _ Rm) as (_ & cs' & E & F & _). apply app_inv_tail in E. subst cs'.
      assert (F' : Forall (fun e => exists x y, e = Called x y) cs) by (eapply Forall_impl; [|exact F]; intros e (x & y & -> & _); eauto). apply calls_zlen in F' as (Tc & _).
      cbn [total calls]. rewrite total_app. cbn [total calls]. rewrite !total_app. cbn [total calls]. rewrite (most_calls_split (zlen l)) by lia. rewrite Tc, Tm, Ta, Tb, Ha'. replace (zlen b) with (zlen l - zlen l / 2) by lia. lia.
Qed.

(** ** Theorems *)
(** Sorting the n elements at indices i to k, whatever the comparison function answers, be it differently for the same elements: it
    comes to an end, only rearranges these elements, and only compares elements that are among them. It makes at least n - 1 and at most
    n L - 2^L + 1 comparisons, where L is the logarithm of n to base 2, rounded up. It takes n - 1 blocks of memory, one after another:
    never more than one is held, at most room for n elements, and none is kept. Its calls are nested L + 1 deep. *)
Theorem C87_mgsort_needs : forall (A : Type) (cmp : list (event A) -> A -> A -> Z) (pre seg post : list A) (i k : Z) (log : list (event A)),
  zlen pre = i -> i + zlen seg = k + 1 -> k < 1073741824 ->
  exists s L, MgsortTrace.arg_mgsort cmp (S (List.length seg)) (pre ++ seg ++ post) i k log = Ok (pre ++ s ++ post, L ++ log) /\
    Permutation s seg /\ (forall x y, In (Called x y) L -> In x seg /\ In y seg) /\
    let l := rev L in let n := zlen seg in
    n - 1 <= total calls l <= most_calls n /\ total requests l = Z.max 0 (n - 1) /\
    total blocks l = 0 /\ peak blocks l <= 1 /\ peak room l <= n /\ peak nesting l = 1 + Z.log2_up n.
Proof.
  intros A cmp pre seg post i k log Hp Hk Hb. destruct (sorts_total cmp _ log seg (le_n _)) as (s & log' & S). destruct (sorts_counts cmp _ _ _ _ S) as (L & -> & W & C).
  exists s, L. pose proof (zlen_nonneg seg). split; [apply (mgsort_follows cmp _ _ _ _ S); auto; lia|]. split; [exact (sorts_length _ _ _ _ _ S)|]. split; [intros x y Hi; rewrite Forall_forall in W; exact (W _ Hi x y eq_refl)|].
  cbv zeta in *. destruct C as (C1 & C2 & C3 & C4 & _ & C6 & _ & C8). repeat (split; [assumption || lia|]). split; [|exact C8]. rewrite C6. destruct (Z.leb_spec (zlen seg) 1); lia.
Qed.
(** The bound on the comparisons cannot be improved, for any number of elements. *)
Theorem C87_most_calls_needed : forall n, 0 <= n <= 1073741824 -> exists seg, zlen seg = n /\
  forall log, exists s L, MgsortTrace.arg_mgsort cmp_log (S (List.length seg)) seg 0 (n - 1) log = Ok (s, L ++ log) /\ total calls L = most_calls n.
Proof.
  intros n Hn. set (l := map Z.of_nat (seq 0 (Z.to_nat n))). assert (Zl : zlen l = n) by (unfold l, zlen; rewrite map_length, seq_length; lia).
  assert (Hs : StronglySorted Z.lt l).
  { unfold l. generalize (Z.to_nat n) as m. intros m. clear. generalize 0%nat as b. induction m as [|m IH]; intros b; cbn [seq map]; constructor; auto.
    apply Forall_forall. intros z Hz. apply in_map_iff in Hz as (q & <- & Hq). apply in_seq in Hq. lia. }
  destruct (worst_case _ l (le_n _) Hs) as (seg & P & H). assert (Zs : zlen seg = n) by (rewrite <- Zl; unfold zlen; rewrite (Permutation_length P); reflexivity).
  exists seg. split; [exact Zs|]. intros log. destruct (H log) as (L & S & T). exists l, L. rewrite Zl in T. split; [|exact T].
  pose proof (mgsort_follows _ _ _ _ _ S (Datatypes.S (List.length seg)) [] [] 0 (n - 1)) as M. cbn [app] in M. rewrite !app_nil_r in M. apply M; auto; rewrite ?zlen_nil; lia.
Qed.
(** With a comparison function that depends on the two elements only, the elements end up where C37 says. *)
Theorem C87_same_order : forall (A : Type) (cmp : A -> A -> Z) fuel a i k log,
  (p <- MgsortTrace.arg_mgsort (fun _ => cmp) fuel a i k log ;; Ok (fst p)) = MgsortModel.arg_mgsort cmp fuel a i k.
Proof. intros. apply mgsort_pure. Qed.

(** ** Examples *)
(** A comparison function that changes its mind with every call *)
Notation fickle := (fun (log : list (event Z)) (_ _ : Z) => if Z.even (zlen log) then -1 else 1).
Example C87_case_fickle : match MgsortTrace.arg_mgsort fickle 6 ([7] ++ [5; 1; 4; 2; 3] ++ [9; 8]) 1 5 [] with
  | Ok (a, L) => a = [7] ++ [1; 3; 5; 4; 2] ++ [9; 8] /\ total calls L = 7 /\ most_calls 5 = 8 /\ total requests L = 4 /\ peak room (rev L) = 5 /\ peak nesting (rev L) = 4
  | _ => False end.
Proof. vm_compute. repeat split. Qed.
Example C87_case_worst : match MgsortTrace.arg_mgsort cmp_log 7 [2; 0; 4; 3; 1; 5] 0 5 [] with
  | Ok (a, L) => a = [0; 1; 2; 3; 4; 5] /\ total calls L = 11 /\ most_calls 6 = 11 | _ => False end.
Proof. vm_compute. repeat split. Qed.

Print Assumptions C87_mgsort_needs.
Print Assumptions C87_most_calls_needed.
Print Assumptions C87_same_order.
