(** PropHash: the hash table of arg_hashtable.c, for every key type, hash function and history (C31-C36). *)
From Coq Require Import ZArith List Bool Lia Permutation.
From Verif Require Import Base HashModel HashSpec HashProofs HashFacts HashTight.
Import ListNotations.
Open Scope Z_scope.

Section Props.
Context {K V : Type}.
Context (hashfn : K -> Z) (eqfn : K -> K -> bool).

Lemma create_world0 minsize : minsize <= 1073741824 ->
  exists w h t rows, arg_hashtable_create (@world0 K V) minsize = (w, Some h) /\ rep hashfn w h t rows [] [] /\
    concat rows = [] /\ minsize < t_len t.
Proof.
  intros H. destruct (create_ok hashfn (@world0 K V) minsize [] [] H owns_empty owns_empty owns_empty owns_empty owns_empty)
    as (w & h & t & rows & X & R & C & L & _). exists w, h, t, rows. auto.
Qed.

(** C31. A table created with any admissible size, after any sequence of insertions of new keys, removals, changes and
    sweeps: a search finds what the association list holds. *)
Theorem C31_table_is_a_map minsize os :
  minsize <= 1073741824 -> key_functions hashfn eqfn -> no_duplicates eqfn [] os ->
  exists w0 h w, arg_hashtable_create (@world0 K V) minsize = (w0, Some h) /\ do_hops hashfn eqfn w0 h os = Ok w /\
    forall k, observe_key hashfn eqfn w h k =
              Ok (match lookup eqfn k (spec_hops eqfn [] os) with Some v => v | None => None end).
Proof.
  intros HM KF ND. destruct (create_world0 minsize HM) as (w0 & h & t & rows & X & R & C & L).
  destruct (hops_stands hashfn eqfn KF os w0 h t rows [] R) as (w & t' & rows' & Y & R' & S); auto.
  { split; [rewrite C; constructor | exact I]. }
  exists w0, h, w. split; auto. split; auto. intros k. eapply observe_key_stands; eauto.
Qed.

(** C32 and C33. The count is the number of entries, and an iteration shows every entry exactly once. *)
Theorem C33_iteration_shows_all minsize os :
  minsize <= 1073741824 -> key_functions hashfn eqfn -> no_duplicates eqfn [] os ->
  exists w0 h w l, arg_hashtable_create (@world0 K V) minsize = (w0, Some h) /\ do_hops hashfn eqfn w0 h os = Ok w /\
    observe_all w h = Ok l /\ Permutation l (spec_hops eqfn [] os) /\
    arg_hashtable_count w h = Ok (zlen (spec_hops eqfn [] os)).
Proof.
  intros HM KF ND. destruct (create_world0 minsize HM) as (w0 & h & t & rows & X & R & C & L).
  destruct (hops_stands hashfn eqfn KF os w0 h t rows [] R) as (w & t' & rows' & Y & R' & P & U); auto.
  { split; [rewrite C; constructor | exact I]. }
  exists w0, h, w, (map (cont w) (concat rows')). split; auto. split; auto.
  split; [eapply observe_all_ok; eauto|]. split; auto.
  unfold arg_hashtable_count. rewrite (sread_ok _ _ _ (r_h _ _ _ _ _ _ _ R')). cbn [bind].
  rewrite (r_count _ _ _ _ _ _ _ R'). rewrite <- (zlen_perm _ _ P). unfold zlen. now rewrite map_length.
Qed.

(** C34. Sweeping with removals, from every reachable table (duplicates included): the iterator shows the same entries
    in the same order as an iteration that removes nothing, and afterwards exactly the entries not chosen are left, in
    the same order. *)
Theorem C34_remove_while_iterating minsize os d :
  minsize <= 1073741824 ->
  exists w0 h w, arg_hashtable_create (@world0 K V) minsize = (w0, Some h) /\ do_hops hashfn eqfn w0 h os = Ok w /\
  exists seen w', sweep w h (fun _ => false) = Ok (w, seen) /\ NoDup (map fst seen) /\
    sweep w h d = Ok (w', seen) /\
    sweep w' h (fun _ => false) =
      Ok (w', filter (fun p => match sget (w_key w) (fst p) with Some k => negb (d k) | None => false end) seen).
Proof.
  intros HM. destruct (create_world0 minsize HM) as (w0 & h & t & rows & X & R & C & L).
  destruct (hops_ok hashfn eqfn os w0 h t rows R) as (w & t' & rows' & Y & R' & _).
  exists w0, h, w. split; auto. split; auto. exists (map ptrs (concat rows')).
  destruct (sweep_ok hashfn w h t' rows' [] [] (fun _ => false) R') as (w1 & _ & _ & X1 & _ & _ & _ & _ & SW1).
  rewrite SW1 in X1 by auto.
  destruct (sweep_ok hashfn w h t' rows' [] [] d R') as (w2 & t2 & rows2 & X2 & R2 & E2 & _).
  destruct (sweep_ok hashfn w2 h t2 rows2 [] [] (fun _ => false) R2) as (w3 & _ & _ & X3 & _ & _ & _ & _ & SW3).
  rewrite SW3 in X3 by auto.
  exists w2. split; auto. split.
  { rewrite map_map. cbn. pose proof (proj1 (r_ks _ _ _ _ _ _ _ R')) as N. rewrite app_nil_r in N. exact N. }
  split; auto. rewrite X3, E2. do 2 f_equal.
  pose proof (r_keys _ _ _ _ _ _ _ R') as RK. clear - RK.
  induction (concat rows') as [|c l IH]; auto. cbn [map filter ptrs fst]. rewrite (RK c) by now left.
  destruct (d (c_key c)); cbn [negb map]; rewrite IH; auto; intros; apply RK; now right.
Qed.

(** C35. After any history (duplicates included) the live keys and values are exactly those of the entries; destroying
    the table then releases all keys and all memory of the table, and the values exactly if asked. A double release or
    a use after release would not be [Ok]. *)
Theorem C35_released_once minsize os :
  minsize <= 1073741824 ->
  exists w0 h w, arg_hashtable_create (@world0 K V) minsize = (w0, Some h) /\ do_hops hashfn eqfn w0 h os = Ok w /\
  exists seen, sweep w h (fun _ => false) = Ok (w, seen) /\
    NoDup (map fst seen) /\ (forall i, sget (w_key w) i <> None <-> In i (map fst seen)) /\
    (forall i, sget (w_val w) i <> None <-> In (Some i) (map snd seen)) /\
  forall free_values, exists w', arg_hashtable_destroy w h free_values = Ok w' /\
    (forall i, sget (w_ht w') i = None) /\ (forall i, sget (w_tab w') i = None) /\
    (forall i, sget (w_node w') i = None) /\ (forall i, sget (w_key w') i = None) /\
    (forall i, sget (w_val w') i = if free_values then None else sget (w_val w) i).
Proof.
  intros HM. destruct (create_world0 minsize HM) as (w0 & h & t & rows & X & R & C & L).
  destruct (hops_ok hashfn eqfn os w0 h t rows R) as (w & t' & rows' & Y & R' & _).
  exists w0, h, w. split; auto. split; auto. exists (map ptrs (concat rows')).
  destruct (sweep_ok hashfn w h t' rows' [] [] (fun _ => false) R') as (w1 & _ & _ & X1 & _ & _ & _ & _ & SW1).
  rewrite SW1 in X1 by auto. split; auto. rewrite !map_map. cbn [ptrs fst snd].
  pose proof (r_ks _ _ _ _ _ _ _ R') as OK. pose proof (r_vs _ _ _ _ _ _ _ R') as OV. rewrite app_nil_r in OK, OV.
  split; [apply OK|]. split; [apply OK|]. split.
  { intros i. destruct OV as (_ & OV & _). rewrite OV. rewrite in_vids, in_map_iff. split.
    - intros (c & I & J). exists c. split; auto. unfold vid in J. destruct (c_v c); [|destruct J]. destruct J as [->|[]]. auto.
    - intros (c & E & I). exists c. split; auto. unfold vid. rewrite E. now left. }
  intros b. destruct (destroy_ok hashfn w h t' rows' [] [] b R') as (w' & Z & Z1 & Z2 & Z3 & Z4 & Z5 & Z6).
  exists w'. split; auto. split; [now apply owns_nil|]. split; [now apply owns_nil|]. split; [now apply owns_nil|].
  split; [now apply owns_nil|]. destruct b; intros i.
  - apply owns_nil. auto.
  - rewrite Z6; auto.
Qed.

(** C36. In every reachable table (duplicates included) the number of buckets is one of the primes and larger than the
    requested size, every node is in the bucket its key's hash selects, and the number of entries is less than
    0.65 times the number of buckets plus one, unless the number of buckets is the largest prime. *)
Theorem C36_expansion minsize os :
  minsize <= 1073741824 ->
  exists w0 h w t arr, arg_hashtable_create (@world0 K V) minsize = (w0, Some h) /\ do_hops hashfn eqfn w0 h os = Ok w /\
    sget (w_ht w) h = Some t /\ sget (w_tab w) (t_tab t) = Some arr /\
    zlen arr = t_len t /\ In (t_len t) primes /\ minsize < t_len t /\
    (forall i b e, aget arr i = Ok b -> linked w b e ->
       exists n key, sget (w_node w) e = Some n /\ sget (w_key w) (n_k n) = Some key /\
         enhanced_hash hashfn key mod t_len t = i) /\
    (t_count t * 8388608 < t_len t * 5452595 + 8388608 \/ t_len t = 1610612741).
Proof.
  intros HM. destruct (create_world0 minsize HM) as (w0 & h & t & rows & X & R & C & L).
  destruct (hops_ok hashfn eqfn os w0 h t rows R) as (w & t' & rows' & Y & R' & TL).
  pose proof (r_b _ _ _ _ _ _ _ R') as B. pose proof B as (arr & ET & F).
  exists w0, h, w, t', arr. split; auto. split; auto. split; [apply (r_h _ _ _ _ _ _ _ R')|]. split; auto.
  assert (ZL : zlen arr = t_len t').
  { rewrite (r_len _ _ _ _ _ _ _ R'). unfold zlen. f_equal. eapply Forall2_len; eauto. }
  assert (TG : aget primes (t_prime t') = Ok (t_len t')).
  { apply (hops_tight hashfn eqfn os _ _ _ Y (create_tight _ _ _ X) h). apply (r_h _ _ _ _ _ _ _ R'). }
  split; auto. split.
  { unfold aget in TG. destruct (t_prime t' <? 0); [discriminate|].
    destruct (nth_error primes (Z.to_nat (t_prime t'))) eqn:E; [|discriminate]. inversion TG; subst. eapply nth_error_In; eauto. }
  split; [lia|]. split.
  - intros i b e AG LK.
    assert (RI : 0 <= i < zlen rows').
    { rewrite <- (r_len _ _ _ _ _ _ _ R'), <- ZL. unfold aget in AG. destruct (Z.ltb_spec i 0); [discriminate|].
      destruct (nth_error arr (Z.to_nat i)) eqn:E; [|discriminate].
      assert (Z.to_nat i < length arr)%nat by (apply nth_error_Some; congruence). unfold zlen. lia. }
    destruct (split_at rows' i RI) as (P & row & Q & E & LP). rewrite E in B.
    destruct (buckets_split hashfn w (t_tab t') P row Q B) as (P' & x & Q' & ET' & LP' & _ & CH & _).
    rewrite ET in ET'. inversion ET'; subst arr. rewrite <- LP, <- LP', aget_app in AG. inversion AG; subst x.
    assert (IC : exists c, In c row /\ e = c_id c).
    { clear - CH LK. revert row CH. induction LK as [e|e n x G LK IH]; intros row CH.
      - destruct row as [|c row]; cbn in CH; [discriminate|]. destruct CH as (Q & _). inversion Q. exists c. split; auto. now left.
      - destruct row as [|c row]; cbn in CH; [discriminate|]. destruct CH as (Q & nx & En & CH). inversion Q; subst.
        rewrite G in En. inversion En; subst. cbn [n_next node_of] in IH. destruct (IH row CH) as (d & I & ->). exists d. split; auto. now right. }
    destruct IC as (c & I & ->).
    apply in_split in I. destruct I as (l1 & l2 & ->).
    destruct (chain_at hashfn (w_node w) l1 c l2 b CH) as (nx & G & _).
    assert (IC : In c (concat rows')) by (rewrite E; apply in_row_concat, in_or_app; right; now left).
    exists (node_of hashfn c nx), (c_key c). split; auto. split; [apply (r_keys _ _ _ _ _ _ _ R' c IC)|].
    pose proof (r_bk _ _ _ _ _ _ _ R') as BK. rewrite <- (r_len _ _ _ _ _ _ _ R') in BK. rewrite E, bucket_ok_app in BK.
    destruct BK as (_ & BK & _). rewrite <- LP. apply BK. apply in_or_app. right. now left.
  - pose proof (r_full _ _ _ _ _ _ _ R') as [FU|FU].
    + left. rewrite (r_load _ _ _ _ _ _ _ R') in FU. unfold load_limit in FU.
      pose proof (Z.mul_div_le (t_len t' * 5452595 + 8388607) 8388608). lia.
    + right. rewrite FU in TG. vm_compute in TG. now inversion TG.
Qed.
End Props.

(** ** Examples: a table of numbers that is expanded, with several keys in one bucket *)
Definition zhash (k : Z) : Z := k / 3.
Lemma zkeys : key_functions zhash Z.eqb.
Proof.
  repeat split.
  - apply Z.eqb_refl.
  - apply Z.eqb_sym.
  - intros a b c H1 H2. apply Z.eqb_eq in H1, H2. subst. apply Z.eqb_refl.
  - intros a b H. apply Z.eqb_eq in H. now subst.
Qed.
Definition many : list (@hop Z Z) := map (fun i => HIns (Z.of_nat i) (Some (Z.of_nat i * 10))) (seq 0 80).
Definition history : list (@hop Z Z) :=
  many ++ [HRem 7; HRem 8; HChange 40 (Some 1); HChange 41 None; HChange 500 (Some 5); HSweep (fun k => k mod 5 =? 0);
           HIns 7 (Some 3); HIns 900 None].

Lemma no_duplicates_dec {K V} (eqfn : K -> K -> bool) (os : list (@hop K V)) : forall l,
  (fix go l os := match os with
   | [] => true
   | o :: os => (match o with HIns k _ => match lookup eqfn k l with None => true | _ => false end | _ => true end)
                && go (spec_hop eqfn l o) os
   end) l os = true -> no_duplicates eqfn l os.
Proof.
  induction os as [|o os IH]; intros l H; cbn; auto. apply andb_prop in H. destruct H as (H1 & H2). split; auto.
  destruct o; auto. destruct (lookup eqfn k l); [discriminate | auto].
Qed.
Example history_no_duplicates : no_duplicates Z.eqb [] history.
Proof. apply no_duplicates_dec. vm_compute. reflexivity. Qed.

Definition after (os : list (@hop Z Z)) : res (world Z Z * nat) :=
  match arg_hashtable_create (@world0 Z Z) 5 with
  | (w0, Some h) => w <- do_hops zhash Z.eqb w0 h os ;; Ok (w, h)
  | _ => UB NullDeref
  end.
Example history_observed :
  ('(w, h) <- after history ;;
   a <- observe_key zhash Z.eqb w h 7 ;; b <- observe_key zhash Z.eqb w h 8 ;; c <- observe_key zhash Z.eqb w h 41 ;;
   d <- observe_key zhash Z.eqb w h 40 ;; e <- observe_key zhash Z.eqb w h 79 ;;
   n <- arg_hashtable_count w h ;; l <- observe_all w h ;; t <- sread (w_ht w) h ;;
   Ok (a, b, c, d, e, n, length l, t_len t)) =
  Ok (Some 3, None, None, None, Some 790, 64, 64%nat, 193).
Proof. vm_compute. reflexivity. Qed.
Example sweep_observed :
  ('(w, h) <- after many ;; '(w', l) <- sweep w h (fun k => k mod 5 =? 0) ;;
   l' <- observe_all w' h ;; Ok (length l, length l')) = Ok (80%nat, 64%nat).
Proof. vm_compute. reflexivity. Qed.
Example destroy_observed :
  ('(w, h) <- after many ;; w1 <- arg_hashtable_destroy w h true ;; w2 <- arg_hashtable_destroy w h false ;;
   Ok (map (fun i => match sget (w_val w1) i, sget (w_val w2) i with None, Some v => v | _, _ => -1 end) [0; 5; 79]%nat)) =
  Ok [0; 50; 790].
Proof. vm_compute. reflexivity. Qed.

(** Without the condition on duplicates the last insertion does not always win: an expansion reverses chains. *)
Theorem C31_duplicate_keys_refuted :
  exists (os : list (@hop Z Z)) k v v', v <> v' /\
    (forall o, In o os -> match o with HIns k' _ => k' <> k | _ => False end) /\
    ('(w, h) <- after [HIns k (Some v); HIns k (Some v')] ;; observe_key zhash Z.eqb w h k) = Ok (Some v') /\
    ('(w, h) <- after ([HIns k (Some v); HIns k (Some v')] ++ os) ;; observe_key zhash Z.eqb w h k) = Ok (Some v).
Proof.
  exists (map (fun i => HIns (Z.of_nat i) (Some 0)) (seq 1 40)), 0, 1, 2.
  split; [lia|]. split.
  - intros o I. apply in_map_iff in I. destruct I as (i & <- & I). apply in_seq in I. lia.
  - split; vm_compute; reflexivity.
Qed.

Print Assumptions C31_table_is_a_map.
Print Assumptions C33_iteration_shows_all.
Print Assumptions C34_remove_while_iterating.
Print Assumptions C35_released_once.
Print Assumptions C36_expansion.
Print Assumptions C31_duplicate_keys_refuted.
