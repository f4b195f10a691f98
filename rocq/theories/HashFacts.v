(** HashFacts: the client runs of HashSpec keep the representation and follow the association list. *)
From Coq Require Import ZArith List Bool Lia Permutation.
From Verif Require Import Base HashModel HashSpec HashProofs.
Import ListNotations.
Open Scope Z_scope.

Section Facts.
Context {K V : Type}.
Context (hashfn : K -> Z) (eqfn : K -> K -> bool).
Notation W := (world K V).
Notation cell := (@cell K).
Notation rep := (@HashProofs.rep K V hashfn).
Notation same := (@HashSpec.same K V eqfn).

Definition cont (w : W) (c : cell) : K * option V :=
  (c_key c, match c_v c with Some v => sget (w_val w) v | None => None end).
Definition ptrs (c : cell) : nat * option nat := (c_k c, c_v c).

Definition keeps (w w' : W) (l : list cell) : Prop := forall i, In i (vids l) -> sget (w_val w') i = sget (w_val w) i.
Lemma keeps_cont w w' l : keeps w w' l -> map (cont w') l = map (cont w) l.
Proof.
  intros H. apply map_ext_in. intros c I. unfold cont. destruct (c_v c) as [v|] eqn:E; auto.
  rewrite H; auto. unfold vids. apply in_flat_map. exists c. split; auto. unfold vid. rewrite E. now left.
Qed.
Lemma in_vids (l : list cell) i : In i (vids l) <-> exists c, In c l /\ In i (vid c).
Proof. apply in_flat_map. Qed.
Lemma vids_perm (l m : list cell) : Permutation l m -> Permutation (vids l) (vids m).
Proof. intros. now apply Permutation_flat_map. Qed.

Lemma rep_vals w h t rows fk fv c : rep w h t rows fk fv -> In c (concat rows) ->
  forall v, c_v c = Some v -> exists x, sget (w_val w) v = Some x.
Proof.
  intros R I v E. apply (owns_sget _ _ _ (r_vs _ _ _ _ _ _ _ R)). apply in_or_app. left.
  apply in_vids. exists c. split; auto. unfold vid. rewrite E. now left.
Qed.

Lemma content_ok w h t rows fk fv c : rep w h t rows fk fv -> In c (concat rows) ->
  content w (c_v c) = Ok (snd (cont w c)).
Proof.
  intros R I. unfold content, cont. destruct (c_v c) as [v|] eqn:E; auto.
  destruct (rep_vals _ _ _ _ _ _ _ R I v E) as (x & G). rewrite (sread_ok _ _ _ G). cbn. now rewrite G.
Qed.

Lemma freed_keeps_others w h t rows fk fv c l : rep w h t rows fk fv -> Permutation (concat rows) (c :: l) ->
  forall w' : W, w_val w' = freed_vals (w_val w) (c_v c) -> keeps w w' l.
Proof.
  intros R P w' E i I. rewrite E. apply freed_keeps. intros J.
  pose proof (proj1 (r_vs _ _ _ _ _ _ _ R)) as ND. apply NoDup_app_l in ND.
  apply (Permutation_NoDup (vids_perm _ _ P)) in ND. unfold vids in ND. cbn [flat_map] in ND.
  change (vid c) with (optl (c_v c)) in ND. fold (vids l) in ND.
  destruct (c_v c) as [v|]; cbn [optl] in *; [|destruct J]. destruct J as [<-|[]]. cbn in ND. inversion ND; auto.
Qed.

(** ** The loop over an iterator *)
Lemma visit_ok h fk fv d rest : forall fuel w t rows it c before,
  rep w h t rows fk fv -> at_it h rows it (c :: rest) -> concat rows = before ++ c :: rest ->
  (length rest < fuel)%nat ->
  exists w' t' rows', visit fuel w it d = Ok (w', map ptrs (c :: rest)) /\ rep w' h t' rows' fk fv /\
    concat rows' = before ++ filter (fun c => negb (d (c_key c))) (c :: rest) /\ t_len t' = t_len t /\
    keeps w w' (concat rows') /\ ((forall k, d k = false) -> w' = w).
Proof.
  induction rest as [|c2 rest IH]; intros fuel w t rows it c before R A E HF; (destruct fuel as [|fuel]; [cbn in HF; lia|]);
    cbn [visit];
    destruct (advance_ok hashfn w h t rows fk fv it c _ R A) as (it1 & ret1 & X1 & A1 & RT1 & EE & nx & En);
    unfold arg_hashtable_itr_key, arg_hashtable_itr_value; rewrite EE; rewrite (sread_ok _ _ _ En); cbn [bind node_of n_k n_v];
    (assert (IC : In c (concat rows)) by (rewrite E; apply in_or_app; right; now left));
    rewrite (sread_ok _ _ _ (r_keys _ _ _ _ _ _ _ R c IC)); cbn [bind].
  - destruct (d (c_key c)) eqn:ED.
    + destruct (itr_remove_ok hashfn w h t rows fk fv it c [] R A) as (w2 & it2 & ret2 & t2 & rows2 & b2 & X2 & EB & ER & R2 & A2 & RT2 & TL & EV).
      rewrite X2. cbn [bind]. destruct ret2; [exfalso; now apply RT2|].
      assert (b2 = before) by (rewrite E in EB; now apply app_inv_tail in EB). subst b2.
      exists w2, t2, rows2. split; auto. split; auto. split; [cbn [filter]; rewrite ED; cbn [negb]; exact ER|].
      split; auto. split; [|intros D; rewrite D in ED; discriminate].
      eapply freed_keeps_others; [exact R| |exact EV]. rewrite E, ER, app_nil_r. apply Permutation_sym, Permutation_cons_append.
    + rewrite X1. cbn [bind]. destruct ret1; [exfalso; now apply RT1|].
      exists w, t, rows. split; auto. split; auto. split; [cbn [filter]; rewrite ED; cbn [negb]; exact E|].
      split; auto. split; auto. now intros i I.
  - destruct (d (c_key c)) eqn:ED.
    + destruct (itr_remove_ok hashfn w h t rows fk fv it c (c2 :: rest) R A) as (w2 & it2 & ret2 & t2 & rows2 & b2 & X2 & EB & ER & R2 & A2 & RT2 & TL & EV).
      rewrite X2. cbn [bind]. destruct ret2; [|exfalso; assert (false = true) by (apply RT2; discriminate); discriminate].
      assert (b2 = before) by (rewrite E in EB; now apply app_inv_tail in EB). subst b2.
      destruct (IH fuel w2 t2 rows2 it2 c2 before R2 A2 ER) as (w3 & t3 & rows3 & X3 & R3 & E3 & TL3 & KP & _).
      { cbn in HF. lia. }
      rewrite X3. cbn [bind]. exists w3, t3, rows3. split; auto. split; auto.
      split. { cbn [filter] in *. rewrite ED. cbn [negb]. exact E3. }
      split; [congruence|]. split; [|intros D; rewrite D in ED; discriminate].
      intros i I. rewrite KP by auto.
      assert (KP2 : keeps w w2 (concat rows2)).
      { eapply freed_keeps_others; [exact R| |exact EV]. rewrite E, ER. apply Permutation_sym, Permutation_middle. }
      apply KP2. apply in_vids in I. destruct I as (x & I1 & I2). apply in_vids. exists x. split; auto.
      rewrite ER, E3, !in_app_iff in *. destruct I1 as [I1|I1]; auto. right. apply filter_In in I1. apply I1.
    + rewrite X1. cbn [bind]. destruct ret1; [|exfalso; assert (false = true) by (apply RT1; discriminate); discriminate].
      destruct (IH fuel w t rows it1 c2 (before ++ [c]) R A1) as (w3 & t3 & rows3 & X3 & R3 & E3 & TL3 & KP & SW).
      { rewrite E, <- app_assoc. reflexivity. }
      { cbn in HF. lia. }
      rewrite X3. cbn [bind]. exists w3, t3, rows3. split; auto. split; auto.
      split. { cbn [filter] in *. rewrite ED. cbn [negb]. rewrite E3, <- app_assoc. reflexivity. }
      split; [congruence|]. split; auto.
Qed.

Lemma sweep_ok w h t rows fk fv d : rep w h t rows fk fv ->
  exists w' t' rows', sweep w h d = Ok (w', map ptrs (concat rows)) /\ rep w' h t' rows' fk fv /\
    concat rows' = filter (fun c => negb (d (c_key c))) (concat rows) /\ t_len t' = t_len t /\
    keeps w w' (concat rows') /\ ((forall k, d k = false) -> w' = w).
Proof.
  intros R. unfold sweep, arg_hashtable_count. rewrite (sread_ok _ _ _ (r_h _ _ _ _ _ _ _ R)). cbn [bind].
  rewrite (r_count _ _ _ _ _ _ _ R). destruct (concat rows) as [|c rest] eqn:E.
  - change (zlen (@nil cell) =? 0) with true. cbn [map filter]. exists w, t, rows. split; auto. split; auto. split; auto. split; auto.
    split; auto. now intros i I.
  - rewrite zlen_cons. pose proof (zlen_nonneg rest). destruct (Z.eqb_spec (zlen rest + 1) 0); [lia|].
    destruct (itr_create_ok hashfn w h t rows fk fv R) as (it & X & A). rewrite X. cbn [bind]. rewrite E in A.
    destruct (visit_ok h fk fv d rest (fuel_of w) w t rows it c [] R A E) as (w' & t' & rows' & Y); eauto.
    unfold fuel_of. pose proof (owns_length _ _ (r_ns _ _ _ _ _ _ _ R)) as OL. rewrite map_length, E in OL. cbn in OL. lia.
Qed.

Lemma contents_ok w h t rows fk fv : rep w h t rows fk fv -> forall l, incl l (concat rows) ->
  contents w (map ptrs l) = Ok (map (cont w) l).
Proof.
  intros R. induction l as [|c l IH]; intros I; cbn [map contents ptrs]; auto.
  assert (IC : In c (concat rows)) by (apply I; now left).
  rewrite (sread_ok _ _ _ (r_keys _ _ _ _ _ _ _ R c IC)). cbn [bind].
  rewrite (content_ok _ _ _ _ _ _ _ R IC). cbn [bind]. rewrite IH; [|intros x J; apply I; now right]. cbn [bind]. reflexivity.
Qed.

Lemma observe_all_ok w h t rows fk fv : rep w h t rows fk fv -> observe_all w h = Ok (map (cont w) (concat rows)).
Proof.
  intros R. unfold observe_all. destruct (sweep_ok w h t rows fk fv (fun _ => false) R) as (w' & t' & rows' & X & _ & _ & _ & _ & SW).
  rewrite X. cbn [bind]. rewrite SW by auto. eapply contents_ok; eauto. apply incl_refl.
Qed.

(** ** One client step; the state is described by the cells and the table structure *)
Definition dropped (l l' : list cell) (key : K) : Prop :=
  (exists c, hits hashfn eqfn key c = true /\ Permutation l (c :: l')) \/
  ((forall c, In c l -> hits hashfn eqfn key c = false) /\ Permutation l l').

Lemma rep_new_key w h t rows fk fv k : rep w h t rows fk fv ->
  rep (up_key w (fst (salloc (w_key w) k))) h t rows (snext (w_key w) :: fk) fv /\
  sget (fst (salloc (w_key w) k)) (snext (w_key w)) = Some k.
Proof.
  intros R. split; [|cbn; now rewrite Nat.eqb_refl].
  pose proof R as R'. destruct R. constructor; cbn [w_ht w_tab w_node w_key w_val up_key]; auto.
  - eapply owns_perm; [|apply owns_alloc; exact r_ks]. apply Permutation_middle.
  - intros c I. cbn. destruct (Nat.eqb_spec (c_k c) (snext (w_key w))) as [E|]; auto.
    exfalso. pose proof (owns_lt _ _ (c_k c) r_ks) as X. rewrite in_app_iff in X. specialize (X (or_introl (in_map _ _ _ I))). lia.
Qed.

Lemma rep_new_val w h t rows fk fv v : rep w h t rows fk fv ->
  rep (up_val w (fst (new_value (w_val w) v))) h t rows fk (optl (snd (new_value (w_val w) v)) ++ fv) /\
  keeps w (up_val w (fst (new_value (w_val w) v))) (concat rows) /\
  (match snd (new_value (w_val w) v) with Some i => sget (fst (new_value (w_val w) v)) i = v | None => v = None end).
Proof.
  intros R. destruct v as [x|]; cbn [new_value salloc fst snd optl app].
  - split; [|split].
    + destruct R. constructor; cbn [w_ht w_tab w_node w_key w_val up_val]; auto.
      eapply owns_perm; [|apply (owns_alloc (w_val w) _ x r_vs)]. apply Permutation_middle.
    + intros i I. cbn. destruct (Nat.eqb_spec i (snext (w_val w))) as [->|]; auto. exfalso.
      pose proof (owns_lt _ _ (snext (w_val w)) (r_vs _ _ _ _ _ _ _ R)) as X. rewrite in_app_iff in X. specialize (X (or_introl I)). lia.
    + cbn. now rewrite Nat.eqb_refl.
  - split; [|split]; auto.
    + destruct R. constructor; cbn [w_ht w_tab w_node w_key w_val up_val]; auto.
    + now intros i I.
Qed.

Lemma sget_new_val (w : W) h t rows fk fv v i : rep w h t rows fk fv -> In i (vids (concat rows)) ->
  sget (fst (new_value (w_val w) v)) i = sget (w_val w) i.
Proof. intros R I. exact (proj1 (proj2 (rep_new_val w h t rows fk fv v R)) i I). Qed.

(** Blocks of keys and values that are not in the table, from here on always the same *)
Context {fk fv : list nat}.
(** Where exactly a removal and an insertion (without growth) take place *)
Definition exact_drop (k : K) (t t' : ht) (rows rows' : list (list cell)) : Prop :=
  (exists P pre c post Q, hits hashfn eqfn k c = true /\ rows = P ++ (pre ++ c :: post) :: Q /\ rows' = P ++ (pre ++ post) :: Q /\
     t' = set_count t (t_count t - 1)) \/
  ((forall c, In c (concat rows) -> hits hashfn eqfn k c = false) /\ rows' = rows /\ t' = t).
Definition exact_add (k : K) (t t' : ht) (rows rows' : list (list cell)) : Prop :=
  t_count t + 1 <= t_load t \/ t_prime t = prime_table_length - 1 -> t' = set_count t (t_count t + 1) /\
  exists c P row Q, rows = P ++ row :: Q /\ c_key c = k /\ zlen P = enhanced_hash hashfn k mod zlen rows /\ rows' = P ++ (c :: row) :: Q.

Lemma ins_ok w h t rows k v : rep w h t rows fk fv ->
  exists w' t' rows', do_hop hashfn eqfn w h (HIns k v) = Ok w' /\ rep w' h t' rows' fk fv /\ t_len t <= t_len t' /\
    Permutation (map (cont w') (concat rows')) ((k, v) :: map (cont w) (concat rows)) /\ exact_add k t t' rows rows'.
Proof.
  intros R. cbn [do_hop salloc].
  destruct (rep_new_key w h t rows fk fv k R) as (R1 & G1).
  set (w1 := up_key w (fst (salloc (w_key w) k))) in *.
  destruct (rep_new_val w1 h t rows (snext (w_key w) :: fk) fv v R1) as (R2 & K2 & G2).
  change (w_val w1) with (w_val w) in *.
  destruct (new_value (w_val w) v) as [vs vi] eqn:EN. cbn [fst snd] in *.
  set (w2 := up_val w1 vs) in *.
  destruct (insert_ok hashfn w2 h t rows (snext (w_key w)) k vi fk fv R2 G1) as (w3 & t3 & rows3 & X & R3 & PM & TL & EK & EV & XA).
  change (up_val _ vs) with w2. exists w3, t3, rows3. split; [exact X|]. split; auto. split; auto.
  split; [|intros B; destruct (XA B) as (X1 & P & row & Q & X2 & X3 & X4); split; [exact X1|]; eexists _, P, row, Q; split; [exact X2|split; [|split; [exact X3|exact X4]]]; reflexivity].
  rewrite (Permutation_map (cont w3) PM). cbn [map]. unfold cont at 1. cbn [c_key c_v]. rewrite EV.
  assert (EQ : match vi with Some v0 => sget (w_val w2) v0 | None => None end = v).
  { destruct vi; auto. }
  rewrite EQ. constructor.
  assert (E1 : map (cont w3) (concat rows) = map (cont w2) (concat rows)).
  { apply keeps_cont. intros i _. now rewrite EV. }
  rewrite E1. rewrite (keeps_cont w1 w2 (concat rows) K2). apply Permutation_refl.
Qed.

Lemma rem_ok w h t rows k : rep w h t rows fk fv ->
  exists w' t' rows', do_hop hashfn eqfn w h (HRem k) = Ok w' /\ rep w' h t' rows' fk fv /\ t_len t <= t_len t' /\
    dropped (concat rows) (concat rows') k /\ keeps w w' (concat rows') /\ exact_drop k t t' rows rows'.
Proof.
  intros R. cbn [do_hop].
  destruct (remove_ok hashfn eqfn w h t rows fk fv k R) as [(w' & c & t' & rows' & X & HC & PM & R' & TL & EV & P & pre & post & Q & X1 & X2 & X3)|(NH & X)].
  - exists w', t', rows'. split; auto. split; auto. split; [lia|]. split; [left; eauto|].
    split; [eapply freed_keeps_others; eauto|]. left. exists P, pre, c, post, Q. auto.
  - exists w, t, rows. split; auto. split; auto. split; [lia|]. split; [right; auto|]. split; [now intros i I|]. right. auto.
Qed.

Lemma change_hop_ok w h t rows k v : rep w h t rows fk fv ->
  exists w' rows', do_hop hashfn eqfn w h (HChange k v) = Ok w' /\ rep w' h t rows' fk fv /\
    ((exists c l, hits hashfn eqfn k c = true /\ Permutation (concat rows) (c :: l) /\
       Permutation (map (cont w') (concat rows')) ((c_key c, v) :: map (cont w) l)) \/
     ((forall c, In c (concat rows) -> hits hashfn eqfn k c = false) /\ rows' = rows /\ keeps w w' (concat rows))).
Proof.
  intros R. cbn [do_hop].
  destruct (rep_new_val w h t rows fk fv v R) as (R1 & K1 & G1).
  destruct (new_value (w_val w) v) as [vs vi] eqn:EN. cbn [fst snd] in *.
  set (w1 := up_val w vs) in *.
  destruct (change_ok hashfn eqfn w1 h t rows fk fv k vi R1) as [(w2 & c & rows2 & X & HC & (l & P1 & P2) & R2 & EV)|(NH & X)].
  - rewrite X. cbn [bind]. exists w2, rows2. split; auto. split; auto. left. exists c, l. split; auto. split; auto.
    rewrite (Permutation_map (cont w2) P2). cbn [map]. unfold cont at 1. cbn [c_key c_v].
    assert (EQ : match vi with Some v0 => sget (w_val w2) v0 | None => None end = v).
    { destruct vi as [i|]; auto. rewrite <- G1, EV. cbn. apply freed_keeps. intros J.
      pose proof (proj1 (r_vs _ _ _ _ _ _ _ R1)) as ND.
      assert (PV : Permutation (vids (concat rows)) (vids (c :: l))) by now apply vids_perm.
      rewrite PV in ND. unfold vids in ND. cbn [flat_map] in ND. change (vid c) with (optl (c_v c)) in ND.
      destruct (c_v c) as [v0|]; cbn [optl] in *; [|destruct J]. destruct J as [->|[]]. cbn [app optl] in ND.
      inversion ND; subst. apply H1. apply in_or_app. right. now left. }
    rewrite EQ. constructor.
    assert (K2 : keeps w1 w2 l) by (eapply freed_keeps_others; [exact R1|exact P1|exact EV]).
    rewrite (keeps_cont _ _ _ K2). rewrite keeps_cont with (w := w); auto.
    intros i I. apply K1. apply in_vids in I. destruct I as (x & I1 & I2). apply in_vids. exists x. split; auto.
    apply (Permutation_in _ (Permutation_sym P1)). now right.
  - rewrite X. cbn [bind].
    destruct (sfree_opt_ok (w_val w1) vi (vids (concat rows) ++ optl vi ++ fv) (vids (concat rows) ++ fv)) as (SF & OV).
    { apply (r_vs _ _ _ _ _ _ _ R1). }
    { apply Permutation_app_swap_app. }
    rewrite SF. cbn [bind]. eexists _, rows. split; [reflexivity|]. split; [|right; split; auto; split; auto].
    + destruct R1. constructor; cbn [w_ht w_tab w_node w_key w_val up_val]; auto.
    + intros i I. cbn. rewrite freed_keeps.
      * now apply K1.
      * intros J. pose proof (proj1 (r_vs _ _ _ _ _ _ _ R1)) as ND.
        destruct vi as [j|]; [|destruct J]. destruct J as [->|[]]. cbn [optl app] in ND.
        apply NoDup_remove_2 in ND. apply ND. apply in_or_app. auto.
Qed.

Lemma sweep_hop_ok w h t rows d : rep w h t rows fk fv ->
  exists w' t' rows', do_hop hashfn eqfn w h (HSweep d) = Ok w' /\ rep w' h t' rows' fk fv /\ t_len t <= t_len t' /\
    map (cont w') (concat rows') = filter (fun p => negb (d (fst p))) (map (cont w) (concat rows)).
Proof.
  intros R. cbn [do_hop]. destruct (sweep_ok w h t rows fk fv d R) as (w' & t' & rows' & X & R' & E & TL & KP & _).
  rewrite X. cbn [bind]. exists w', t', rows'. split; auto. split; auto. split; [lia|].
  rewrite (keeps_cont _ _ _ KP), E. clear. induction (concat rows) as [|c l IH]; auto. cbn [map filter cont fst].
  destruct (d (c_key c)); cbn [negb map]; [exact IH | now rewrite IH].
Qed.

(** Any step keeps the table in order. *)
Lemma hop_ok w h t rows o : rep w h t rows fk fv ->
  exists w' t' rows', do_hop hashfn eqfn w h o = Ok w' /\ rep w' h t' rows' fk fv /\ t_len t <= t_len t'.
Proof.
  intros R. destruct o as [k v|k|k v|d].
  - destruct (ins_ok w h t rows k v R) as (w' & t' & rows' & X & R' & TL & _). eauto 8.
  - destruct (rem_ok w h t rows k R) as (w' & t' & rows' & X & R' & TL & _). eauto 8.
  - destruct (change_hop_ok w h t rows k v R) as (w' & rows' & X & R' & _). exists w', t, rows'. split; auto. split; auto. lia.
  - destruct (sweep_hop_ok w h t rows d R) as (w' & t' & rows' & X & R' & TL & _). eauto 8.
Qed.
Lemma hops_ok os : forall w h t rows, rep w h t rows fk fv ->
  exists w' t' rows', do_hops hashfn eqfn w h os = Ok w' /\ rep w' h t' rows' fk fv /\ t_len t <= t_len t'.
Proof.
  induction os as [|o os IH]; intros w h t rows R; cbn [do_hops].
  - exists w, t, rows. split; auto. split; auto. lia.
  - destruct (hop_ok w h t rows o R) as (w1 & t1 & rows1 & -> & R1 & TL). cbn [bind].
    destruct (IH w1 h t1 rows1 R1) as (w2 & t2 & rows2 & X & R2 & TL2). exists w2, t2, rows2. split; auto. split; auto. lia.
Qed.

(** ** Following the association list *)
Context (KF : key_functions hashfn eqfn).
Lemma k_refl a : eqfn a a = true. Proof. apply KF. Qed.
Lemma k_sym a b : eqfn a b = eqfn b a. Proof. apply KF. Qed.
Lemma k_trans a b c : eqfn a b = true -> eqfn b c = true -> eqfn a c = true. Proof. apply KF. Qed.
Lemma hits_eq key (c : cell) : hits hashfn eqfn key c = eqfn key (c_key c).
Proof.
  unfold hits, hv, enhanced_hash. destruct (eqfn key (c_key c)) eqn:E; [|apply andb_false_r].
  destruct KF as (_ & _ & _ & H). rewrite (H _ _ E). now rewrite Z.eqb_refl.
Qed.
Lemma hits_same key (w : W) c : hits hashfn eqfn key c = same key (cont w c).
Proof. apply hits_eq. Qed.

Fixpoint uniq (l : list (K * option V)) : Prop :=
  match l with
  | [] => True
  | p :: l => Forall (fun q => eqfn (fst p) (fst q) = false) l /\ uniq l
  end.
Lemma uniq_perm l m : Permutation l m -> uniq l -> uniq m.
Proof.
  induction 1 as [|x l m P IH|x y l|l m o P1 IH1 P2 IH2]; cbn [uniq]; auto.
  - intros (F & U). split; auto. eapply Permutation_Forall; eauto.
  - intros (F1 & F2 & U). inversion F1; subst. split; [constructor; auto | split; auto]. now rewrite k_sym.
Qed.
Lemma uniq_filter f l : uniq l -> uniq (filter f l).
Proof.
  induction l as [|x l IH]; cbn [filter uniq]; auto. intros (F & U). destruct (f x); auto. cbn [uniq]. split; auto.
  apply Forall_forall. intros y I. apply filter_In in I. rewrite Forall_forall in F. now apply F.
Qed.
Lemma filter_none key l : Forall (fun q => same key q = false) l -> filter (fun p => negb (same key p)) l = l.
Proof. induction 1 as [|x l H F IH]; cbn [filter]; auto. rewrite H. cbn. now rewrite IH. Qed.
Lemma same_other key p l : same key p = true -> Forall (fun q => eqfn (fst p) (fst q) = false) l ->
  Forall (fun q => same key q = false) l.
Proof.
  intros S. apply Forall_impl. intros q H. unfold same in *. destruct (eqfn key (fst q)) eqn:E; auto.
  exfalso. rewrite k_sym in S. rewrite (k_trans _ _ _ S E) in H. discriminate.
Qed.
Lemma lookup_perm key l m : Permutation l m -> uniq l -> lookup eqfn key l = lookup eqfn key m.
Proof.
  intros P. unfold lookup. revert P. intros P U. 
  assert (X : find (same key) l = find (same key) m).
  { revert U. induction P as [|x l m P IH|x y l|l m o P1 IH1 P2 IH2]; intros U; auto.
    - cbn [find]. destruct (same key x); auto. apply IH. apply U.
    - cbn [find]. destruct (same key x) eqn:E1; destruct (same key y) eqn:E2; auto.
      destruct U as (F & _). inversion F; subst. exfalso. unfold same in *. rewrite k_sym in E2.
      rewrite (k_trans _ _ _ E2 E1) in H1. discriminate.
    - rewrite IH1 by auto. apply IH2. eapply uniq_perm; eauto. }
  now rewrite X.
Qed.
Lemma filter_perm {T} (f : T -> bool) l m : Permutation l m -> Permutation (filter f l) (filter f m).
Proof.
  induction 1 as [|x l m P IH|x y l|l m o P1 IH1 P2 IH2]; cbn [filter]; auto.
  - destruct (f x); auto.
  - destruct (f x); destruct (f y); auto. constructor.
  - etransitivity; eauto.
Qed.

(** The table (whose cells hold [B]) stands for the association list [l]. *)
Definition stands (w : W) (rows : list (list cell)) (l : list (K * option V)) : Prop :=
  Permutation (map (cont w) (concat rows)) l /\ uniq l.

Lemma rem_stands w h t rows k l : rep w h t rows fk fv -> stands w rows l ->
  exists w' t' rows', do_hop hashfn eqfn w h (HRem k) = Ok w' /\ rep w' h t' rows' fk fv /\ t_len t <= t_len t' /\
    stands w' rows' (filter (fun p => negb (same k p)) l) /\
    dropped (concat rows) (concat rows') k /\ keeps w w' (concat rows') /\ exact_drop k t t' rows rows'.
Proof.
  intros R (P & U). destruct (rem_ok w h t rows k R) as (w' & t' & rows' & X & R' & TL & D & KP & XD).
  exists w', t', rows'. split; auto. split; auto. split; auto. split; [|auto].
  split; [|now apply uniq_filter]. rewrite (keeps_cont _ _ _ KP).
  etransitivity; [|exact (filter_perm _ _ _ P)].
  destruct D as [(c & HC & PM)|(NH & PM)].
  - rewrite (hits_same k w) in HC.
    assert (P2 : Permutation l (cont w c :: map (cont w) (concat rows'))).
    { rewrite <- P. now rewrite PM. }
    pose proof (uniq_perm _ _ P2 U) as (F & _).
    etransitivity; [|apply filter_perm; apply Permutation_map; apply Permutation_sym; exact PM].
    cbn [map filter]. rewrite HC. cbn [negb]. rewrite filter_none; auto. eapply same_other; eauto.
  - rewrite filter_none; [now rewrite PM|]. apply Forall_forall. intros q I. apply in_map_iff in I.
    destruct I as (c & <- & I). rewrite <- hits_same. auto.
Qed.

Lemma lookup_none k l : lookup eqfn k l = None -> Forall (fun q => same k q = false) l.
Proof.
  unfold lookup. destruct (find (same k) l) eqn:E; [discriminate|]. intros _.
  apply Forall_forall. intros q I. eapply find_none; eauto.
Qed.

Lemma ins_stands w h t rows l k v : rep w h t rows fk fv -> stands w rows l -> lookup eqfn k l = None ->
  exists w' t' rows', do_hop hashfn eqfn w h (HIns k v) = Ok w' /\ rep w' h t' rows' fk fv /\ stands w' rows' ((k, v) :: l) /\
    exact_add k t t' rows rows'.
Proof.
  intros R (P & U) A. destruct (ins_ok w h t rows k v R) as (w' & t' & rows' & X & R' & TL & PM & XA).
  exists w', t', rows'. split; auto. split; auto. split; auto. split; [now rewrite PM, P|]. cbn [uniq fst]. split; auto. now apply lookup_none.
Qed.

Lemma hop_stands w h t rows l o : rep w h t rows fk fv -> stands w rows l ->
  (match o with HIns k _ => lookup eqfn k l = None | _ => True end) ->
  exists w' t' rows', do_hop hashfn eqfn w h o = Ok w' /\ rep w' h t' rows' fk fv /\ t_len t <= t_len t' /\
    stands w' rows' (spec_hop eqfn l o).
Proof.
  intros R (P & U) A. destruct o as [k v|k|k v|d]; cbn [spec_hop].
  - destruct (ins_ok w h t rows k v R) as (w' & t' & rows' & X & R' & TL & PM & _).
    exists w', t', rows'. split; auto. split; auto. split; auto. split; [now rewrite PM, P|].
    cbn [uniq fst]. split; auto. now apply lookup_none.
  - destruct (rem_stands w h t rows k l R (conj P U)) as (w' & t' & rows' & X & R' & TL & S' & _). eauto 8.
  - destruct (change_hop_ok w h t rows k v R) as (w' & rows' & X & R' & D).
    exists w', t, rows'. split; auto. split; auto. split; [lia|].
    assert (UM : uniq (map (fun p => if same k p then (fst p, v) else p) l)).
    { clear - U. induction l as [|x l IH]; cbn [map uniq] in *; auto. destruct U as (F & U). split; auto.
      apply Forall_forall. intros q I. apply in_map_iff in I. destruct I as (y & <- & I).
      rewrite Forall_forall in F. specialize (F y I).
      destruct (same k x); destruct (same k y); exact F. }
    split; auto. destruct D as [(c & l' & HC & P1 & P2)|(NH & -> & KP)].
    + rewrite (hits_same k w) in HC.
      assert (P3 : Permutation l (cont w c :: map (cont w) l')) by now rewrite <- P, P1.
      pose proof (uniq_perm _ _ P3 U) as (F & _).
      rewrite P2, (Permutation_map _ P3). cbn [map]. rewrite HC. cbn [cont fst]. constructor.
      pose proof (same_other k (cont w c) _ HC F) as F2. rewrite map_map. 
      clear - F2. induction l' as [|y l' IH]; cbn [map] in *; auto. inversion F2; subst. rewrite H1. constructor. auto.
    + rewrite (keeps_cont _ _ _ KP), <- P. rewrite map_map.
      clear - NH KF. induction (concat rows) as [|y l' IH]; cbn [map] in *; auto.
      rewrite <- (hits_same k w y), NH by now left. constructor. apply IH. intros; apply NH; now right.
  - destruct (sweep_hop_ok w h t rows d R) as (w' & t' & rows' & X & R' & TL & E).
    exists w', t', rows'. split; auto. split; auto. split; auto. split; [|now apply uniq_filter].
    rewrite E. now apply filter_perm.
Qed.

Lemma hops_stands os : forall w h t rows l, rep w h t rows fk fv -> stands w rows l -> no_duplicates eqfn l os ->
  exists w' t' rows', do_hops hashfn eqfn w h os = Ok w' /\ rep w' h t' rows' fk fv /\ stands w' rows' (spec_hops eqfn l os).
Proof.
  induction os as [|o os IH]; intros w h t rows l R S A; cbn [do_hops].
  - exists w, t, rows. auto.
  - destruct A as (A1 & A2). destruct (hop_stands w h t rows l o R S A1) as (w1 & t1 & rows1 & -> & R1 & TL & S1). cbn [bind].
    destruct (IH w1 h t1 rows1 _ R1 S1 A2) as (w2 & t2 & rows2 & X & R2 & S2). exists w2, t2, rows2. auto.
Qed.

Lemma observe_key_stands w h t rows l k : rep w h t rows fk fv -> stands w rows l ->
  observe_key hashfn eqfn w h k = Ok (match lookup eqfn k l with Some v => v | None => None end).
Proof.
  intros R (P & U). unfold observe_key.
  assert (UB : uniq (map (cont w) (concat rows))) by (eapply uniq_perm; [apply Permutation_sym; exact P | auto]).
  rewrite <- (lookup_perm k _ _ P UB).
  destruct (search_ok hashfn eqfn w h t rows fk fv k R) as [(c & I & HC & X)|(NH & X)]; rewrite X; cbn [bind].
  - rewrite (content_ok _ _ _ _ _ _ _ R I). f_equal.
    apply in_split in I. destruct I as (a & b & E).
    assert (P2 : Permutation (map (cont w) (concat rows)) (cont w c :: map (cont w) (a ++ b))).
    { rewrite E. change (cont w c :: map (cont w) (a ++ b)) with (map (cont w) (c :: a ++ b)).
      apply Permutation_map, Permutation_sym, Permutation_middle. }
    rewrite (lookup_perm k _ _ P2 UB). unfold lookup. cbn [find]. now rewrite <- hits_same, HC.
  - cbn [content]. f_equal. unfold lookup.
    destruct (find (same k) (map (cont w) (concat rows))) as [p|] eqn:E; auto.
    exfalso. apply find_some in E. destruct E as (I & S). apply in_map_iff in I. destruct I as (c & <- & I).
    rewrite <- hits_same, NH in S; auto. discriminate.
Qed.
End Facts.
