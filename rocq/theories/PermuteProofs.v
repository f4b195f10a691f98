(** permute_args exchanges two adjacent blocks (lemmas for C13). *)
From Verif Require Import Base GetoptModel.
From Coq Require Import ZArith List Bool Lia Znumtheory.
Import ListNotations.
Open Scope Z_scope.

(** ** gcd *)
Lemma c_gcd_spec fuel : forall a b, 0 <= a -> 0 < b -> (Z.to_nat b < fuel)%nat ->
  c_gcd fuel a b = Ok (Z.gcd a b).
Proof.
  induction fuel; intros a b Ha Hb Hf; [lia|].
  cbn [c_gcd]. destruct (Z.eqb_spec b 0); [lia|].
  rewrite Z.rem_mod_nonneg by lia.
  destruct (Z.eqb_spec (a mod b) 0).
  - f_equal. rewrite Z.gcd_comm. symmetry. apply Z.divide_gcd_iff; [lia|].
    apply Z.mod_divide; lia.
  - pose proof (Z.mod_pos_bound a b Hb).
    rewrite IHfuel by lia.
    f_equal. rewrite Z.gcd_comm. rewrite Z.gcd_mod by lia. apply Z.gcd_comm.
Qed.

Section Cycles.
Context {A : Type}.
Variables (s m n t g L : Z).
Hypothesis Hs : 0 <= s.
Hypothesis Hm : 0 <= m.
Hypothesis Hn : 0 < n.
Hypothesis Ht : t = m + n.
Hypothesis Hg : g = Z.gcd m n.
Hypothesis HL : t = L * g.

Definition vget (v : list A) (z : Z) : option A := if z <? 0 then None else nth_error v (Z.to_nat z).

Lemma gpos : 0 < g.
Proof.
  pose proof (Z.gcd_nonneg m n). destruct (Z.eq_dec g 0) as [E|]; [|lia].
  rewrite Hg in E. apply Z.gcd_eq_0 in E. lia.
Qed.
Lemma Lpos : 0 < L.
Proof. pose proof gpos. nia. Qed.
Lemma gm : (g | m). Proof. subst g. apply Z.gcd_divide_l. Qed.
Lemma gn : (g | n). Proof. subst g. apply Z.gcd_divide_r. Qed.
Lemma gt : (g | t). Proof. exists L. lia. Qed.
Lemma gcd_nt : Z.gcd n t = g.
Proof. rewrite Ht. rewrite Z.gcd_add_diag_r. rewrite Hg. apply Z.gcd_comm. Qed.

(** The orbit of [c]. *)
Definition orb (c k : Z) : Z := (c + k * n) mod t.

Lemma orb_range c k : 0 <= orb c k < t.
Proof. apply Z.mod_pos_bound. lia. Qed.

Lemma orb_step c k : (if m <=? orb c k then orb c k - m else orb c k + n) = orb c (k + 1).
Proof.
  pose proof (orb_range c k). unfold orb at 4.
  replace (c + (k + 1) * n) with ((c + k * n) + n) by ring.
  rewrite <- Z.add_mod_idemp_l by lia. fold (orb c k).
  destruct (Z.leb_spec m (orb c k)).
  - apply Z.mod_unique with 1; lia.
  - symmetry. apply Z.mod_small. lia.
Qed.

Lemma orb_modg c k : orb c k mod g = c mod g.
Proof.
  unfold orb. pose proof gpos as Gp. destruct gn as [b Hb]. destruct gt as [d Hd].
  rewrite (Z.mod_eq (c + k * n) t) by lia.
  rewrite Hb. rewrite Hd at 1.
  replace (c + k * (b * g) - d * g * ((c + k * (b * g)) / t)) with (c + (k * b - d * ((c + k * (b * g)) / t)) * g) by ring.
  apply Z.mod_add. lia.
Qed.

Lemma orb_inj c k k' : 0 <= k < L -> 0 <= k' < L -> orb c k = orb c k' -> k = k'.
Proof.
  intros Hk Hk' E. unfold orb in E.
  assert (D : (t | (c + k * n) - (c + k' * n))).
  { apply Z.mod_divide; [lia|]. rewrite Zminus_mod, E, Z.sub_diag. apply Z.mod_0_l. lia. }
  replace ((c + k * n) - (c + k' * n)) with ((k - k') * n) in D by ring.
  pose proof gpos as Gp.
  destruct gn as [b Hb].
  assert (Hrel : Z.gcd b L = 1).
  { pose proof gcd_nt as G. rewrite Hb, HL in G.
    rewrite Z.gcd_mul_mono_r in G. rewrite (Z.abs_eq g) in G by lia. nia. }
  assert (D2 : (L | (k - k') * b)).
  { destruct D as [x Hx]. exists x. apply Z.mul_reg_r with g; [lia|].
    rewrite <- Z.mul_assoc, <- Hb, Hx, HL. ring. }
  rewrite Z.mul_comm in D2.
  apply Z.gauss in D2; [|rewrite Z.gcd_comm; auto].
  destruct D2 as [x Hx]. assert (x = 0) by nia. lia.
Qed.

Lemma orb_surj c q : 0 <= q < t -> q mod g = c mod g -> exists k, 0 <= k < L /\ orb c k = q.
Proof.
  intros Hq E. pose proof gpos as Gp. pose proof Lpos as Lp.
  assert (D : (g | q - c)).
  { apply Z.mod_divide; [lia|]. rewrite Zminus_mod, E, Z.sub_diag. apply Z.mod_0_l. lia. }
  destruct D as [x Hx].
  destruct (Z.gcd_bezout n t g gcd_nt) as [a [b Hab]].
  exists ((x * a) mod L). split; [apply Z.mod_pos_bound; lia|].
  unfold orb. rewrite (Z.mod_eq (x * a) L) by lia.
  destruct gn as [n' Hn'].
  assert (X : c + (x * a - L * (x * a / L)) * n = q + (- x * b - (x * a / L) * n') * t).
  { transitivity (c + x * (a * n) - (L * (x * a / L)) * n); [ring|].
    replace (a * n) with (g - b * t) by lia.
    replace ((L * (x * a / L)) * n) with ((x * a / L) * n' * (L * g)) by (rewrite Hn'; ring).
    rewrite <- HL. rewrite Z.mul_sub_distr_l. rewrite <- Hx. ring. }
  rewrite X. rewrite Z.mod_add by lia. apply Z.mod_small; auto.
Qed.

Lemma orb_0 c : 0 <= c < t -> orb c 0 = c.
Proof. intros. unfold orb. rewrite Z.mul_0_l, Z.add_0_r. apply Z.mod_small; auto. Qed.

Lemma orb_L c : 0 <= c < t -> orb c L = c.
Proof.
  intros. unfold orb. destruct gn as [b Hb].
  replace (c + L * n) with (c + b * t) by (rewrite HL, Hb; ring).
  rewrite Z.mod_add by lia. apply Z.mod_small; auto.
Qed.

Lemma orb_pred c k : (orb c (k + 1) + m) mod t = orb c k.
Proof.
  unfold orb. rewrite Z.add_mod_idemp_l by lia.
  replace (c + (k + 1) * n + m) with (c + k * n + 1 * t) by (rewrite Ht; ring).
  apply Z.mod_add. lia.
Qed.

(** Array lemmas. *)
Lemma vget_aget v z x : vget v z = Some x -> aget v z = Ok x.
Proof. unfold vget, aget. destruct (z <? 0); [discriminate|]. intros ->. reflexivity. Qed.

Lemma vget_some v z : 0 <= z < zlen v -> exists x, vget v z = Some x.
Proof.
  intros H. unfold vget. destruct (Z.ltb_spec z 0); [lia|].
  destruct (nth_error v (Z.to_nat z)) eqn:E; eauto.
  apply nth_error_None in E. unfold zlen in H. lia.
Qed.

Lemma zlen_lupd (v : list A) i a : zlen (lupd v i a) = zlen v.
Proof. unfold zlen. rewrite lupd_length. reflexivity. Qed.

Lemma vget_lupd_eq v z a : 0 <= z < zlen v -> vget (lupd v (Z.to_nat z) a) z = Some a.
Proof.
  intros. unfold vget. destruct (Z.ltb_spec z 0); [lia|]. apply nth_error_lupd_eq. unfold zlen in *. lia.
Qed.
Lemma vget_lupd_neq v z z' a : 0 <= z -> z <> z' -> vget (lupd v (Z.to_nat z) a) z' = vget v z'.
Proof.
  intros. unfold vget. destruct (Z.ltb_spec z' 0); auto. apply nth_error_lupd_neq. lia.
Qed.

(** Invariant of the inner loop after [j] steps. *)
Definition inner_inv (v0 v : list A) (c j : Z) : Prop :=
  zlen v = zlen v0 /\
  vget v (s + c) = vget v0 (s + orb c j) /\
  (forall k, 1 <= k <= j -> vget v (s + orb c k) = vget v0 (s + orb c (k - 1))) /\
  (forall p, (forall k, 0 <= k <= j -> p <> s + orb c k) -> vget v p = vget v0 p).

Lemma inner_loop v0 c : 0 <= c < t -> s + t <= zlen v0 ->
  forall fuel v j, 0 <= j < L -> Z.of_nat fuel = L - j -> inner_inv v0 v c j ->
  exists v', permute_inner fuel (s + m) m n (s + c) (s + orb c j) v = Ok v' /\
    zlen v' = zlen v0 /\
    (forall k, 0 <= k < L -> vget v' (s + orb c (k + 1)) = vget v0 (s + orb c k)) /\
    (forall p, (forall k, 0 <= k < L -> p <> s + orb c k) -> vget v' p = vget v0 p).
Proof.
  intros Hc Hz. induction fuel; intros v j Hj Hf (Il & Ic & Ik & Io); [lia|].
  cbn [permute_inner].
  assert (Epos : (if s + m <=? s + orb c j then s + orb c j - m else s + orb c j + n) = s + orb c (j + 1)).
  { rewrite <- orb_step. destruct (Z.leb_spec (s + m) (s + orb c j)), (Z.leb_spec m (orb c j)); lia. }
  rewrite Epos.
  pose proof (orb_range c (j + 1)) as R1.
  destruct (vget_some v (s + orb c (j + 1))) as [x1 X1]; [lia|].
  destruct (vget_some v (s + c)) as [x2 X2]; [lia|].
  rewrite (vget_aget _ _ _ X1). cbn [bind]. rewrite (vget_aget _ _ _ X2). cbn [bind].
  rewrite aset_ok by lia. cbn [bind]. rewrite aset_ok by (rewrite zlen_lupd; lia). cbn [bind].
  destruct (Z.eq_dec (j + 1) L) as [E|NE].
  - (* last step: pos = cstart *)
    assert (fuel = O) by lia. subst fuel. cbn [permute_inner].
    assert (Eo : orb c (j + 1) = c) by (rewrite E; apply orb_L; auto).
    rewrite Eo in *.
    assert (x1 = x2) by congruence. subst x2.
    eexists; split; [reflexivity|].
    assert (V : lupd (lupd v (Z.to_nat (s + c)) x1) (Z.to_nat (s + c)) x1 = v).
    { assert (V1 : nth_error v (Z.to_nat (s + c)) = Some x1).
      { unfold vget in X1. destruct (Z.ltb_spec (s + c) 0); [discriminate|auto]. }
      rewrite (lupd_nth_error v _ _ V1). apply lupd_nth_error; auto. }
    rewrite V. split; [auto|]. split.
    + intros k Hk. destruct (Z.eq_dec k j) as [->|].
      * rewrite Eo. auto.
      * rewrite Ik by lia. f_equal. f_equal. f_equal. lia.
    + intros p Hp. apply Io. intros k Hk. apply Hp. lia.
  - assert (Hne : orb c (j + 1) <> c).
    { intro E. rewrite <- (orb_0 c) in E at 2 by auto. apply orb_inj in E; lia. }
    apply (IHfuel _ (j + 1)); [lia|lia|].
    repeat split.
    + rewrite !zlen_lupd. auto.
    + rewrite vget_lupd_eq by (rewrite zlen_lupd; lia).
      rewrite <- X1. apply Io. intros k Hk E. apply Z.add_reg_l in E. apply orb_inj in E; lia.
    + intros k Hk.
      assert (orb c k <> c).
      { intro E. rewrite <- (orb_0 c) in E at 2 by auto. apply orb_inj in E; lia. }
      rewrite vget_lupd_neq by lia.
      destruct (Z.eq_dec k (j + 1)) as [->|].
      * rewrite vget_lupd_eq by lia. rewrite <- X2, Ic. f_equal. f_equal. f_equal. lia.
      * rewrite vget_lupd_neq; [apply Ik; lia|lia|].
        intro E. apply Z.add_reg_l in E. apply orb_inj in E; lia.
    + intros p Hp.
      assert (p <> s + c). { rewrite <- (orb_0 c) by auto. apply Hp. lia. }
      assert (p <> s + orb c (j + 1)). { apply Hp. lia. }
      rewrite !vget_lupd_neq by lia. apply Io. intros k Hk. apply Hp. lia.
Qed.

(** Invariant of the outer loop: the classes (mod g) below [i] have been rotated. *)
Definition outer_inv (v0 v : list A) (i : Z) : Prop :=
  zlen v = zlen v0 /\
  (forall q, 0 <= q < t -> q mod g < i -> vget v (s + q) = vget v0 (s + (q + m) mod t)) /\
  (forall q, 0 <= q < t -> i <= q mod g -> vget v (s + q) = vget v0 (s + q)) /\
  (forall p, ~ (s <= p < s + t) -> vget v p = vget v0 p).

Lemma outer_loop v0 : s + t <= zlen v0 ->
  forall fuel v i, 0 <= i -> Z.of_nat fuel = g - i -> outer_inv v0 v i ->
  exists v', permute_outer fuel i L (s + m) m n v = Ok v' /\ outer_inv v0 v' g.
Proof.
  intros Hz. induction fuel; intros v i Hi Hf Inv; cbn [permute_outer].
  - exists v. split; auto. replace g with i by lia. auto.
  - destruct Inv as (Il & I1 & I2 & I3).
    assert (g <= n) by (apply Z.divide_pos_le; [lia|apply gn]).
    assert (Hc : 0 <= m + i < t) by lia.
    pose proof Lpos.
    assert (Cm : (m + i) mod g = i).
    { destruct gm as [x Hx]. rewrite Hx. rewrite Z.add_comm, Z.mod_add by lia. apply Z.mod_small. lia. }
    destruct (inner_loop v (m + i) Hc) with (fuel := Z.to_nat L) (v := v) (j := 0) as (v' & E & Zl & R & O).
    + lia.
    + lia.
    + lia.
    + repeat split; auto.
      * rewrite orb_0; auto.
      * intros; lia.
    + rewrite orb_0 in E by auto.
      replace (s + m + i) with (s + (m + i)) by ring. rewrite E. cbn [bind].
      apply IHfuel; [lia|lia|].
      repeat split.
      * lia.
      * intros q Hq Hlt. destruct (Z.eq_dec (q mod g) i) as [Ei|].
        -- destruct (orb_surj (m + i) ((q + m) mod t)) as (k & Hk & Ek).
           { apply Z.mod_pos_bound. lia. }
           { transitivity (q mod g); [|lia].
             destruct gm as [x Hx]. destruct gt as [d Hd].
             rewrite (Z.mod_eq (q + m) t) by lia.
             set (w := (q + m) / t). rewrite Hx, Hd.
             replace (q + x * g - d * g * w) with (q + (x - d * w) * g) by ring.
             apply Z.mod_add. lia. }
           assert (Eq : orb (m + i) (k + 1) = q).
           { rewrite <- orb_step. rewrite Ek.
             destruct (Z.leb_spec (q + m) (t - 1)).
             - rewrite Z.mod_small by lia. destruct (Z.leb_spec m (q + m)); lia.
             - replace ((q + m) mod t) with (q + m - t) by (apply Z.mod_unique with 1; lia).
               destruct (Z.leb_spec m (q + m - t)); lia. }
           rewrite <- Eq at 1. rewrite R by auto. rewrite Ek. apply I2.
           { apply Z.mod_pos_bound. lia. }
           { rewrite <- Ek, orb_modg, Cm. lia. }
        -- rewrite O.
           ++ apply I1; lia.
           ++ intros k Hk E'. apply Z.add_reg_l in E'. subst q. rewrite orb_modg in *. lia.
      * intros q Hq Hge. rewrite O.
        -- apply I2; lia.
        -- intros k Hk E'. apply Z.add_reg_l in E'. subst q. rewrite orb_modg in Hge. lia.
      * intros p Hp. rewrite O.
        -- apply I3; auto.
        -- intros k Hk E'. pose proof (orb_range (m + i) k). lia.
Qed.

End Cycles.

Lemma nth_error_ext' {A} (a : list A) : forall b, (forall k, nth_error a k = nth_error b k) -> a = b.
Proof.
  induction a as [|x a IH]; intros [|y b] H; auto.
  - specialize (H O). discriminate.
  - specialize (H O). discriminate.
  - f_equal.
    + specialize (H O). simpl in H. congruence.
    + apply IH. intros k. apply (H (S k)).
Qed.

Lemma vget_ext {A} (a b : list A) : zlen a = zlen b -> (forall p, 0 <= p < zlen a -> vget a p = vget b p) -> a = b.
Proof.
  intros Hl H. unfold zlen in *. apply nth_error_ext'. intros k.
  destruct (Nat.lt_ge_cases k (List.length a)).
  - specialize (H (Z.of_nat k)). unfold vget in H.
    destruct (Z.ltb_spec (Z.of_nat k) 0); [lia|]. rewrite Nat2Z.id in H. apply H. lia.
  - rewrite (proj2 (nth_error_None a k)) by lia. rewrite (proj2 (nth_error_None b k)) by lia. reflexivity.
Qed.

Lemma vget_app_l {A} (a b : list A) p : p < zlen a -> vget (a ++ b) p = vget a p.
Proof.
  unfold vget, zlen. intros. destruct (Z.ltb_spec p 0); auto. apply nth_error_app1. lia.
Qed.
Lemma vget_app_r {A} (a b : list A) p : zlen a <= p -> vget (a ++ b) p = vget b (p - zlen a).
Proof.
  unfold vget, zlen. intros. destruct (Z.ltb_spec p 0); [lia|]. destruct (Z.ltb_spec (p - Z.of_nat (List.length a)) 0); [lia|].
  rewrite nth_error_app2 by lia. f_equal. lia.
Qed.

Theorem permute_args_exchange {A} (pre a b post : list A) : b <> [] ->
  permute_args (zlen pre) (zlen pre + zlen a) (zlen pre + zlen a + zlen b) (pre ++ a ++ b ++ post)
  = Ok (pre ++ b ++ a ++ post).
Proof.
  intros Hb. unfold permute_args.
  set (s := zlen pre). set (m := zlen a). set (n := zlen b).
  assert (0 <= s) by apply zlen_nonneg. assert (0 <= m) by apply zlen_nonneg.
  assert (0 < n). { unfold n, zlen. destruct b; [congruence|simpl; lia]. }
  replace (s + m + n - (s + m)) with n by ring. replace (s + m - s) with m by ring.
  replace (s + m + n - s) with (m + n) by ring.
  rewrite c_gcd_spec by lia. cbn [bind].
  set (g := Z.gcd m n). assert (Gp : 0 < g) by (apply (gpos m n g); auto).
  destruct (Z.eqb_spec g 0); [lia|].
  set (v0 := pre ++ a ++ b ++ post).
  assert (Hz : s + (m + n) <= zlen v0).
  { unfold v0. rewrite !zlen_app. fold s m n. pose proof (zlen_nonneg post). lia. }
  assert (HL : m + n = Z.quot (m + n) g * g).
  { rewrite Z.quot_div_nonneg by lia. symmetry.
    assert (D : (g | m + n)) by (apply Z.divide_add_r; [apply Z.gcd_divide_l|apply Z.gcd_divide_r]).
    destruct D as [x Hx]. rewrite Hx at 1. rewrite Z.div_mul by lia. lia. }
  destruct (outer_loop s m n (m + n) g (Z.quot (m + n) g) H H0 H1 eq_refl eq_refl HL v0 Hz
              (Z.to_nat g) v0 0) as (v' & E & Inv).
  - lia.
  - lia.
  - repeat split; auto. intros q Hq Hlt. pose proof (Z.mod_pos_bound q g). lia.
  - rewrite E. f_equal. destruct Inv as (Il & I1 & _ & I3).
    apply vget_ext.
    { rewrite Il. unfold v0. rewrite !zlen_app. lia. }
    intros p Hp. rewrite Il in Hp.
    assert (Hzv : zlen v0 = s + m + n + zlen post).
    { unfold v0. rewrite !zlen_app. fold s m n. lia. }
    destruct (Z.lt_ge_cases p s).
    { rewrite I3 by lia. unfold v0. rewrite !vget_app_l by (fold s; lia). reflexivity. }
    destruct (Z.lt_ge_cases p (s + (m + n))).
    + set (q := p - s). replace p with (s + q) by (unfold q; ring).
      pose proof (Z.mod_pos_bound q g Gp).
      rewrite I1 by lia.
      destruct (Z.lt_ge_cases q n).
      * rewrite Z.mod_small by lia. unfold v0.
        rewrite (vget_app_r pre) by (fold s; lia). rewrite (vget_app_r a) by (fold s m; lia).
        rewrite (vget_app_l b) by (fold s m n; lia).
        rewrite (vget_app_r pre) by (fold s; lia). rewrite (vget_app_l b) by (fold s m n; lia).
        f_equal. fold s m. lia.
      * replace ((q + m) mod (m + n)) with (q - n) by (apply Z.mod_unique with 1; lia).
        unfold v0.
        rewrite (vget_app_r pre) by (fold s; lia). rewrite (vget_app_l a) by (fold s m n; lia).
        rewrite (vget_app_r pre) by (fold s; lia). rewrite (vget_app_r b) by (fold s m n; lia).
        rewrite (vget_app_l a) by (fold s m n; lia).
        f_equal. fold s m n. lia.
    + rewrite I3 by lia. unfold v0.
      rewrite !vget_app_r by (fold s m n; lia). fold s m n. f_equal. lia.
Qed.
