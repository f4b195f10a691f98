(** HashProofs: the linked table of HashModel represents rows of cells; every operation is a simple operation on rows. *)
From Coq Require Import ZArith List Bool Lia Permutation.
From Verif Require Import Base HashModel.
Import ListNotations.
Open Scope Z_scope.

(** * Stores *)
Definition owns {A} (s : store A) (L : list nat) : Prop :=
  NoDup L /\ (forall i, sget s i <> None <-> In i L) /\ (forall i, (snext s <= i)%nat -> sget s i = None).

Lemma owns_sget {A} (s : store A) L i : owns s L -> In i L -> exists a, sget s i = Some a.
Proof.
  intros (N & I & F) H. apply I in H. destruct (sget s i) as [a|]; [eauto | congruence].
Qed.
Lemma owns_perm {A} (s : store A) L L' : Permutation L L' -> owns s L -> owns s L'.
Proof.
  intros P (N & I & F). split; [|split]; auto.
  - eapply Permutation_NoDup; eauto.
  - intros i. rewrite I. split; apply Permutation_in; auto. now apply Permutation_sym.
Qed.
Lemma owns_alloc {A} (s : store A) L a : owns s L -> owns (fst (salloc s a)) (snext s :: L).
Proof.
  intros (N & I & F). unfold salloc; cbn [fst]. split; [|split]; cbn [sget snext].
  - constructor; auto. rewrite <- I. rewrite F by lia. congruence.
  - intros i. destruct (Nat.eqb_spec i (snext s)) as [->|E].
    + split; [now left | congruence].
    + rewrite I. cbn [In]. split; [now right | intros [|]; auto; congruence].
  - intros i H. destruct (Nat.eqb_spec i (snext s)); [lia|]. apply F. lia.
Qed.
Lemma owns_put {A} (s : store A) L i a : owns s L -> In i L -> owns (sput s i (Some a)) L.
Proof.
  intros (N & I & F) H. split; [|split]; cbn [sput sget snext]; auto.
  - intros j. destruct (Nat.eqb_spec j i) as [->|E]; [|apply I]. split; auto. congruence.
  - intros j G. destruct (Nat.eqb_spec j i) as [->|E]; [|now apply F].
    exfalso. apply I in H. apply H. now apply F.
Qed.
Lemma owns_del {A} (s : store A) L L' i : owns s L -> Permutation L (i :: L') ->
  sfree s i = Ok (sput s i None) /\ owns (sput s i None) L'.
Proof.
  intros O P. pose proof (owns_perm _ _ _ P O) as (N & I & F). inversion N as [|x y NI ND]; subst.
  split.
  - unfold sfree. destruct (owns_sget s (i :: L') i) as [a ->]; auto; [|now left]. now split.
  - split; [|split]; cbn [sput sget snext]; auto.
    + intros j. destruct (Nat.eqb_spec j i) as [->|E].
      * split; [congruence | intros; contradiction].
      * rewrite I. cbn [In]. split; [intros [|]; auto; congruence | now right].
    + intros j G. destruct (Nat.eqb_spec j i) as [->|E]; auto.
Qed.
Lemma owns_lt {A} (s : store A) L i : owns s L -> In i L -> (i < snext s)%nat.
Proof.
  intros (N & I & F) H. apply I in H. destruct (Nat.lt_ge_cases i (snext s)) as [|G]; auto.
  exfalso. apply H. now apply F.
Qed.
Lemma owns_length {A} (s : store A) L : owns s L -> (length L <= snext s)%nat.
Proof.
  intros O. rewrite <- (seq_length (snext s) 0). apply NoDup_incl_length; [apply O|].
  intros i H. apply in_seq. pose proof (owns_lt _ _ _ O H). lia.
Qed.
Lemma owns_empty {A} : owns (@sempty A) [].
Proof.
  split; [constructor|]. split; auto. cbn. intros. split; [congruence | intros []].
Qed.
Lemma owns_nil {A} (s : store A) : owns s [] -> forall i, sget s i = None.
Proof.
  intros (N & I & F) i. destruct (sget s i) eqn:E; auto. exfalso. apply (proj1 (I i)). congruence.
Qed.
Lemma swrite_ok {A} (s : store A) L i a : owns s L -> In i L -> swrite s i a = Ok (sput s i (Some a)).
Proof. intros O H. unfold swrite. now destruct (owns_sget s L i) as [b ->]. Qed.
Lemma sget_put_eq {A} (s : store A) i a : sget (sput s i a) i = a.
Proof. cbn. now rewrite Nat.eqb_refl. Qed.
Lemma sget_put_neq {A} (s : store A) i j a : j <> i -> sget (sput s i a) j = sget s j.
Proof. cbn. intros. destruct (Nat.eqb_spec j i); congruence. Qed.
Lemma sread_ok {A} (s : store A) i a : sget s i = Some a -> sread s i = Ok a.
Proof. unfold sread. now intros ->. Qed.

(** * Lists split at a position *)
Lemma lupd_app {A} (P Q : list A) x y : lupd (P ++ x :: Q) (length P) y = P ++ y :: Q.
Proof. induction P as [|a P IH]; cbn; [reflexivity | now rewrite IH]. Qed.
Lemma aget_app {A} (P Q : list A) x : aget (P ++ x :: Q) (zlen P) = Ok x.
Proof.
  unfold aget, zlen. destruct (Z.ltb_spec (Z.of_nat (length P)) 0); [lia|]. rewrite Nat2Z.id.
  rewrite nth_error_app2 by lia. now rewrite Nat.sub_diag.
Qed.
Lemma aset_app {A} (P Q : list A) x y : aset (P ++ x :: Q) (zlen P) y = Ok (P ++ y :: Q).
Proof.
  rewrite aset_ok. 2:{ rewrite zlen_app, zlen_cons. pose proof (zlen_nonneg P). pose proof (zlen_nonneg Q). lia. }
  unfold zlen. now rewrite Nat2Z.id, lupd_app.
Qed.
Lemma split_at {A} (l : list A) i : 0 <= i < zlen l -> exists P x Q, l = P ++ x :: Q /\ zlen P = i.
Proof.
  intros H. unfold zlen in H. destruct (nth_error l (Z.to_nat i)) as [x|] eqn:E.
  - apply nth_error_split in E. destruct E as (P & Q & -> & L). exists P, x, Q. split; auto. unfold zlen. lia.
  - apply nth_error_None in E. lia.
Qed.
Lemma concat_mid {A} (P Q : list (list A)) r : concat (P ++ r :: Q) = concat P ++ r ++ concat Q.
Proof. now rewrite concat_app. Qed.
Lemma perm_mid {A} (P Q : list (list A)) pre c post :
  Permutation (concat (P ++ (pre ++ c :: post) :: Q)) (c :: concat (P ++ (pre ++ post) :: Q)).
Proof.
  rewrite !concat_mid. rewrite <- !app_assoc. cbn [app].
  rewrite (app_assoc (concat P) pre (c :: _)), (app_assoc (concat P) pre (post ++ _)).
  apply Permutation_sym, Permutation_middle.
Qed.

Lemma Forall2_len {A B} (R : A -> B -> Prop) l m : Forall2 R l m -> length l = length m.
Proof. induction 1; cbn; congruence. Qed.

Lemma zlen_perm {A} (l m : list A) : Permutation l m -> zlen l = zlen m.
Proof. intros P. unfold zlen. f_equal. now apply Permutation_length. Qed.

Section Hash.
Context {K V : Type}.
Context (hashfn : K -> Z) (eqfn : K -> K -> bool).
Notation W := (world K V).

Record cell := { c_id : nat; c_k : nat; c_key : K; c_v : option nat }.
Definition hv (c : cell) : Z := enhanced_hash hashfn (c_key c).
Definition node_of (c : cell) (nx : option nat) : node := {| n_k := c_k c; n_v := c_v c; n_h := hv c; n_next := nx |}.
Definition vid (c : cell) : list nat := match c_v c with Some v => [v] | None => [] end.
Definition vids (l : list cell) : list nat := flat_map vid l.

Fixpoint chain (ns : store node) (e : option nat) (cells : list cell) : Prop :=
  match cells with
  | [] => e = None
  | c :: cs => e = Some (c_id c) /\ exists nx, sget ns (c_id c) = Some (node_of c nx) /\ chain ns nx cs
  end.

Definition buckets (w : W) (a : nat) (rows : list (list cell)) : Prop :=
  exists arr, sget (w_tab w) a = Some arr /\ Forall2 (chain (w_node w)) arr rows.

Lemma chain_frame ns ns' row : forall e, chain ns e row ->
  (forall c, In c row -> sget ns' (c_id c) = sget ns (c_id c)) -> chain ns' e row.
Proof.
  induction row as [|c row IH]; cbn [chain]; auto. intros e (E & nx & G & C) F.
  split; auto. exists nx. split.
  - rewrite F; [exact G | now left].
  - apply IH; auto. intros; apply F; now right.
Qed.
Lemma chains_frame ns ns' arr rows : Forall2 (chain ns) arr rows ->
  (forall c, In c (concat rows) -> sget ns' (c_id c) = sget ns (c_id c)) -> Forall2 (chain ns') arr rows.
Proof.
  induction 1 as [|e row arr rows C F IH]; intros G; constructor.
  - eapply chain_frame; eauto. intros c I. apply G. cbn. apply in_or_app; auto.
  - apply IH. intros c I. apply G. cbn. apply in_or_app; auto.
Qed.

Lemma buckets_len (w : W) a rows arr : sget (w_tab w) a = Some arr -> buckets w a rows -> zlen arr = zlen rows.
Proof.
  intros E (arr' & E' & F). rewrite E in E'. inversion E'; subst. unfold zlen. f_equal.
  eapply Forall2_len; eauto.
Qed.

Lemma buckets_split (w : W) a P row Q : buckets w a (P ++ row :: Q) ->
  exists P' e Q', sget (w_tab w) a = Some (P' ++ e :: Q') /\ zlen P' = zlen P /\
    Forall2 (chain (w_node w)) P' P /\ chain (w_node w) e row /\ Forall2 (chain (w_node w)) Q' Q.
Proof.
  intros (arr & E & F). apply Forall2_app_inv_r in F. destruct F as (P' & R & F1 & F2 & ->).
  inversion F2 as [|e row' Q' Q'' C F3]; subst. exists P', e, Q'. repeat split; auto.
  unfold zlen. f_equal. eapply Forall2_len; eauto.
Qed.

Lemma bget_ok (w : W) a P row Q : buckets w a (P ++ row :: Q) ->
  exists e, bget w a (zlen P) = Ok e /\ chain (w_node w) e row.
Proof.
  intros B. apply buckets_split in B. destruct B as (P' & e & Q' & E & L & _ & C & _).
  exists e. split; auto. unfold bget. rewrite (sread_ok _ _ _ E). cbn [bind]. rewrite <- L. apply aget_app.
Qed.

Lemma bset_ok (w : W) a P e Q x : sget (w_tab w) a = Some (P ++ e :: Q) ->
  bset w a (zlen P) x = Ok (up_tab w (sput (w_tab w) a (Some (P ++ x :: Q)))).
Proof.
  intros E. unfold bset. rewrite (sread_ok _ _ _ E). cbn [bind]. rewrite aset_app. cbn [bind].
  unfold swrite. rewrite E. reflexivity.
Qed.

(** Steps that leave all but the links alone. *)
Definition links_only (w w' : W) : Prop :=
  w_ht w' = w_ht w /\ w_key w' = w_key w /\ w_val w' = w_val w /\ snext (w_node w') = snext (w_node w) /\
  (forall L, owns (w_node w) L -> owns (w_node w') L) /\ (forall L, owns (w_tab w) L -> owns (w_tab w') L).
Lemma links_refl w : links_only w w.
Proof. repeat split; auto; apply H. Qed.
Lemma links_trans w1 w2 w3 : links_only w1 w2 -> links_only w2 w3 -> links_only w1 w3.
Proof.
  intros (A1 & B1 & C1 & D1 & E1 & F1) (A2 & B2 & C2 & D2 & E2 & F2).
  split; [congruence|]. split; [congruence|]. split; [congruence|]. split; [congruence|]. split; auto.
Qed.
Lemma owns_put_some {A} (s : store A) L i b a : owns s L -> sget s i = Some b -> owns (sput s i (Some a)) L.
Proof. intros O E. apply owns_put; auto. apply O. congruence. Qed.
Lemma links_bset (w : W) a b x : sget (w_tab w) a = Some b -> links_only w (up_tab w (sput (w_tab w) a (Some x))).
Proof. intros E. do 5 (split; auto). intros. eapply owns_put_some; eauto. Qed.
Lemma links_node (w : W) i b x : sget (w_node w) i = Some b -> links_only w (up_node w (sput (w_node w) i (Some x))).
Proof. intros E. do 4 (split; auto). split; auto. intros. cbn. eapply owns_put_some; eauto. Qed.

(** * Moving cells into the larger table *)
Definition place (n : Z) (N : list (list cell)) (c : cell) : list (list cell) :=
  let i := Z.to_nat (hv c mod n) in lupd N i (c :: nth i N []).

Lemma place_split n P r Q c : hv c mod n = zlen P -> place n (P ++ r :: Q) c = P ++ (c :: r) :: Q.
Proof.
  intros E. unfold place. rewrite E. unfold zlen. rewrite Nat2Z.id. rewrite nth_middle. now rewrite lupd_app.
Qed.

Lemma NoDup_mid_notin {A} (P Q : list A) x : NoDup (P ++ x :: Q) -> ~ In x P /\ ~ In x Q.
Proof.
  intros N. apply NoDup_remove_2 in N. split; intros H; apply N; apply in_or_app; auto.
Qed.

Lemma expand_bucket_ok old new n A B : old <> new -> 0 < n ->
  forall row fuel w N,
  (length row < fuel)%nat -> zlen N = n ->
  buckets w old (A ++ row :: B) -> buckets w new N ->
  NoDup (map c_id (concat (A ++ row :: B) ++ concat N)) ->
  exists w', expand_bucket fuel w old new n (zlen A) = Ok w' /\ links_only w w' /\
    buckets w' old (A ++ [] :: B) /\ buckets w' new (fold_left (place n) row N).
Proof.
  intros ON Hn. induction row as [|c row IH]; intros fuel w N HF HN BO BN ND;
    (destruct fuel as [|fuel]; [cbn in HF; lia|]); cbn [expand_bucket].
  - destruct (bget_ok _ _ _ _ _ BO) as (e & G & C). rewrite G. cbn in C. subst e. cbn [bind].
    exists w. split; auto. split; [apply links_refl|]. split; auto.
  - destruct (buckets_split _ _ _ _ _ BO) as (P' & e & Q' & EO & LP & FP & C & FQ).
    destruct (bget_ok _ _ _ _ _ BO) as (e' & G & C'). rewrite G. cbn [bind].
    assert (e' = e).
    { unfold bget in G. rewrite (sread_ok _ _ _ EO) in G. cbn [bind] in G. rewrite <- LP, aget_app in G. congruence. }
    subst e'. clear C'. destruct C as (-> & nx & En & Cr).
    rewrite (sread_ok _ _ _ En). cbn [bind]. rewrite <- LP.
    rewrite (bset_ok _ _ _ _ _ (n_next (node_of c nx)) EO). cbn [bind n_h node_of].
    unfold index_for. destruct (Z.eqb_spec n 0); [lia|]. cbn [bind].
    pose proof (Z.mod_pos_bound (hv c) n Hn) as MB.
    destruct (split_at N (hv c mod n)) as (P & r & Q & -> & LQ); [lia|].
    destruct (buckets_split _ _ _ _ _ BN) as (P2 & x & Q2 & EN & L2 & FP2 & Cx & FQ2).
    set (w1 := up_tab w _).
    assert (EN1 : sget (w_tab w1) new = Some (P2 ++ x :: Q2)).
    { cbn. destruct (Nat.eqb_spec new old); [congruence | auto]. }
    unfold bget. rewrite (sread_ok _ _ _ EN1). cbn [bind]. rewrite <- LQ, <- L2, aget_app. cbn [bind].
    assert (En1 : sget (w_node w1) (c_id c) = Some (node_of c nx)) by exact En.
    unfold swrite. rewrite En1. cbn [bind].
    set (w2 := up_node w1 _).
    assert (EN2 : sget (w_tab w2) new = Some (P2 ++ x :: Q2)) by exact EN1.
    rewrite (bset_ok _ _ _ _ _ (Some (c_id c)) EN2). cbn [bind].
    set (w3 := up_tab w2 _).
    pose proof ND as ND0.
    rewrite concat_mid, <- !app_assoc, !map_app in ND. cbn [map app] in ND.
    destruct (NoDup_mid_notin _ _ _ ND) as (NA & NB). rewrite !in_app_iff in NB.
    assert (NBrow : ~ In (c_id c) (map c_id row)) by (intro; apply NB; auto).
    assert (NBB : ~ In (c_id c) (map c_id (concat B))) by (intro; apply NB; auto).
    assert (NBN : ~ In (c_id c) (map c_id (concat (P ++ r :: Q)))) by (intro; apply NB; auto).
    assert (FR : forall d, ~ In (c_id c) (map c_id d) ->
              forall y, In y d -> sget (w_node w3) (c_id y) = sget (w_node w) (c_id y)).
    { intros d ND' y I. cbn. destruct (Nat.eqb_spec (c_id y) (c_id c)) as [E|]; auto.
      exfalso. apply ND'. rewrite <- E. now apply in_map. }
    assert (BO3 : buckets w3 old (A ++ row :: B)).
    { exists (P' ++ nx :: Q'). split.
      - cbn. destruct (Nat.eqb_spec old new); [congruence|]. now rewrite Nat.eqb_refl.
      - apply Forall2_app; [|constructor].
        + exact (chains_frame _ _ _ _ FP (FR _ NA)).
        + exact (chain_frame _ _ _ _ Cr (FR _ NBrow)).
        + exact (chains_frame _ _ _ _ FQ (FR _ NBB)). }
    assert (BN3 : buckets w3 new (place n (P ++ r :: Q) c)).
    { exists (P2 ++ Some (c_id c) :: Q2). split; [cbn; now rewrite Nat.eqb_refl|].
      rewrite (place_split n P r Q c) by auto.
      rewrite concat_mid, !map_app, !in_app_iff in NBN.
      apply Forall2_app; [|constructor].
      - exact (chains_frame _ _ _ _ FP2 (FR _ (fun H => NBN (or_introl H)))).
      - cbn [chain]. split; auto. exists x. split.
        + cbn. now rewrite Nat.eqb_refl.
        + exact (chain_frame _ _ _ _ Cx (FR _ (fun H => NBN (or_intror (or_introl H))))).
      - exact (chains_frame _ _ _ _ FQ2 (FR _ (fun H => NBN (or_intror (or_intror H))))). }
    destruct (IH fuel w3 (place n (P ++ r :: Q) c)) as (w' & X & LO & R1 & R2); auto.
    + cbn in HF. lia.
    + unfold place, zlen. rewrite lupd_length. exact HN.
    + rewrite (place_split n P r Q c) by auto. eapply Permutation_NoDup; [|exact ND0].
      apply Permutation_map. rewrite (perm_mid A B [] c row), (perm_mid P Q [] c r). cbn [app].
      apply Permutation_middle.
    + rewrite LP. exists w'. split; [exact X|]. split; [|split; auto].
      eapply links_trans; [|exact LO]. eapply links_trans; [|eapply links_bset; exact EN2].
      eapply links_trans; [|eapply links_node; exact En1]. eapply links_bset; exact EO.
Qed.

Fixpoint bucket_ok (n b : Z) (rows : list (list cell)) : Prop :=
  match rows with
  | [] => True
  | r :: rs => (forall c, In c r -> hv c mod n = b) /\ bucket_ok n (b + 1) rs
  end.
Lemma bucket_ok_app n A : forall b B, bucket_ok n b (A ++ B) <-> bucket_ok n b A /\ bucket_ok n (b + zlen A) B.
Proof.
  induction A as [|r A IH]; intros b B; cbn [app bucket_ok].
  - rewrite zlen_nil, Z.add_0_r. tauto.
  - rewrite IH, zlen_cons. replace (b + 1 + zlen A) with (b + (zlen A + 1)) by lia. tauto.
Qed.

Lemma bucket_range n d A : forall b, bucket_ok n b A -> In d (concat A) -> b <= hv d mod n < b + zlen A.
Proof.
  induction A as [|r A IH]; intros b HB HI; [destruct HI|]. destruct HB as (HB & HA). rewrite zlen_cons. cbn in HI.
  pose proof (zlen_nonneg A).
  apply in_app_or in HI. destruct HI as [HI|HI]; [rewrite (HB d HI); lia|]. specialize (IH _ HA HI). lia.
Qed.

Lemma place_facts n N c : 0 < n -> zlen N = n -> bucket_ok n 0 N ->
  zlen (place n N c) = n /\ bucket_ok n 0 (place n N c) /\ Permutation (concat (place n N c)) (c :: concat N).
Proof.
  intros Hn HN BK. pose proof (Z.mod_pos_bound (hv c) n Hn).
  destruct (split_at N (hv c mod n)) as (P & r & Q & -> & L); [lia|].
  rewrite (place_split n P r Q c) by auto. split; [|split].
  - rewrite zlen_app, zlen_cons in *. lia.
  - rewrite bucket_ok_app in *. destruct BK as (B1 & B2 & B3). split; auto. split; auto.
    intros d [<-|I]; auto.
  - apply (perm_mid P Q [] c r).
Qed.
Lemma place_all n row : forall N, 0 < n -> zlen N = n -> bucket_ok n 0 N ->
  zlen (fold_left (place n) row N) = n /\ bucket_ok n 0 (fold_left (place n) row N) /\
  Permutation (concat (fold_left (place n) row N)) (row ++ concat N).
Proof.
  induction row as [|c row IH]; intros N Hn HN BK; cbn [fold_left app]; auto.
  destruct (place_facts n N c Hn HN BK) as (L & B & P).
  destruct (IH _ Hn L B) as (L' & B' & P'). split; auto. split; auto.
  rewrite P', P. apply Permutation_sym, Permutation_middle.
Qed.

Lemma concat_empty {T} k : concat (repeat (@nil T) k) = [].
Proof. induction k; auto. Qed.
Lemma bucket_ok_empty n k : forall b, bucket_ok n b (repeat [] k).
Proof. induction k; cbn; auto. intros. split; [intros c []|auto]. Qed.

Lemma expand_loop_ok old new n : old <> new -> 0 < n ->
  forall B A w N,
  (forall row, In row B -> (length row <= snext (w_node w))%nat) ->
  zlen N = n -> bucket_ok n 0 N -> concat A = [] ->
  buckets w old (A ++ B) -> buckets w new N ->
  NoDup (map c_id (concat (A ++ B) ++ concat N)) ->
  exists w' N', expand_loop (length B) w old new n (zlen A) = Ok w' /\ links_only w w' /\
    buckets w' new N' /\ zlen N' = n /\ bucket_ok n 0 N' /\ Permutation (concat N') (concat B ++ concat N).
Proof.
  intros ON Hn. induction B as [|row B IH]; intros A w N HL HN BK CA BO BN ND; cbn [length expand_loop].
  - exists w, N. split; auto. split; [apply links_refl|]. repeat split; auto.
  - destruct (expand_bucket_ok old new n A B ON Hn row (fuel_of w) w N) as (w1 & X & LO & R1 & R2); auto.
    { unfold fuel_of. specialize (HL row (or_introl eq_refl)). lia. }
    rewrite X. cbn [bind].
    destruct (place_all n row N Hn HN BK) as (L1 & B1 & P1).
    assert (EA : A ++ [] :: B = (A ++ [[]]) ++ B) by now rewrite <- app_assoc.
    destruct (IH (A ++ [[]]) w1 (fold_left (place n) row N)) as (w2 & N2 & X2 & LO2 & R3 & L3 & B3 & P3); auto.
    + intros r I. destruct LO as (_ & _ & _ & -> & _). apply HL. now right.
    + rewrite concat_app, CA. reflexivity.
    + now rewrite <- EA.
    + eapply Permutation_NoDup; [|exact ND]. apply Permutation_map.
      rewrite <- EA, !concat_mid, CA. cbn [app]. rewrite P1, <- !app_assoc.
      rewrite !app_assoc. apply Permutation_app_tail. apply Permutation_app_comm.
    + exists w2, N2. rewrite zlen_app in X2. change (zlen [[]]) with 1 in X2.
      split; auto. split; [eapply links_trans; eauto|]. repeat split; auto.
      rewrite P3, P1. cbn [concat]. rewrite !app_assoc. apply Permutation_app_tail, Permutation_app_comm.
Qed.

(** * The representation *)
Record rep (w : W) (h : nat) (t : ht) (rows : list (list cell)) (fk fv : list nat) : Prop := {
  r_h : sget (w_ht w) h = Some t;
  r_hs : owns (w_ht w) [h];
  r_ts : owns (w_tab w) [t_tab t];
  r_b : buckets w (t_tab t) rows;
  r_ns : owns (w_node w) (map c_id (concat rows));
  r_ks : owns (w_key w) (map c_k (concat rows) ++ fk);
  r_vs : owns (w_val w) (vids (concat rows) ++ fv);
  r_keys : forall c, In c (concat rows) -> sget (w_key w) (c_k c) = Some (c_key c);
  r_len : t_len t = zlen rows;
  r_bk : bucket_ok (zlen rows) 0 rows;
  r_count : t_count t = zlen (concat rows);
  r_prime : exists i, aget primes i = Ok (t_len t) /\ i <= t_prime t < 26;
  r_load : t_load t = load_limit (t_len t);
  r_full : t_count t <= t_load t \/ t_prime t = prime_table_length - 1
}.

Lemma primes_range i p : aget primes i = Ok p -> 53 <= p /\ 0 <= i < 26.
Proof.
  unfold aget. destruct (Z.ltb_spec i 0); [discriminate|].
  intros E. destruct (nth_error primes (Z.to_nat i)) eqn:N; inversion E; subst.
  assert (Z.to_nat i < length primes)%nat by (apply nth_error_Some; congruence).
  change (length primes) with 26%nat in *. split; [|lia].
  apply nth_error_In in N. cbn in N. repeat destruct N as [<-|N]; lia.
Qed.

Lemma rep_pos w h t rows fk fv : rep w h t rows fk fv -> 0 < zlen rows.
Proof. intros R. rewrite <- (r_len _ _ _ _ _ _ R). destruct (r_prime _ _ _ _ _ _ R) as (i & A & _). pose proof (primes_range _ _ A). lia. Qed.

Lemma in_row_concat {T} (P Q : list (list T)) row x : In x row -> In x (concat (P ++ row :: Q)).
Proof. intros. rewrite concat_mid. apply in_or_app. right. apply in_or_app. auto. Qed.

Lemma row_fuel w h t P row Q fk fv : rep w h t (P ++ row :: Q) fk fv -> (length row <= snext (w_node w))%nat.
Proof.
  intros R. pose proof (owns_length _ _ (r_ns _ _ _ _ _ _ R)) as H.
  rewrite map_length, concat_mid, !app_length in H. lia.
Qed.

(** ** Walking along a chain *)
Definition hits (key : K) (c : cell) : bool := (enhanced_hash hashfn key =? hv c) && eqfn key (c_key c).
Definition last_id (parent : option nat) (pre : list cell) : option nat := last (map (fun c => Some (c_id c)) pre) parent.

Lemma last_cons_default {T} (l : list T) : forall x a b, last (x :: l) a = last (x :: l) b.
Proof. induction l as [|y l IH]; intros; auto. change (last (y :: l) a = last (y :: l) b). apply IH. Qed.
Lemma last_id_cons parent c pre : last_id parent (c :: pre) = last_id (Some (c_id c)) pre.
Proof.
  unfold last_id. destruct pre as [|d pre]; auto. cbn [map].
  change (last (Some (c_id d) :: map (fun c0 => Some (c_id c0)) pre) parent = last (Some (c_id d) :: map (fun c0 => Some (c_id c0)) pre) (Some (c_id c))).
  apply last_cons_default.
Qed.

Definition split_by (key : K) (row pre : list cell) (c : cell) (post : list cell) : Prop :=
  row = pre ++ c :: post /\ hits key c = true /\ forall d, In d pre -> hits key d = false.

Lemma find_node_ok (w : W) key row : forall fuel parent e,
  chain (w_node w) e row -> (length row < fuel)%nat ->
  (forall c, In c row -> sget (w_key w) (c_k c) = Some (c_key c)) ->
  (exists pre c post, split_by key row pre c post /\
     find_node eqfn fuel w (enhanced_hash hashfn key) key parent e = Ok (Some (c_id c, last_id parent pre))) \/
  ((forall d, In d row -> hits key d = false) /\
     find_node eqfn fuel w (enhanced_hash hashfn key) key parent e = Ok None).
Proof.
  induction row as [|c row IH]; intros fuel parent e C HF HK; (destruct fuel as [|fuel]; [cbn in HF; lia|]);
    cbn [find_node]; cbn [chain] in C.
  - subst e. right. split; auto. intros d [].
  - destruct C as (-> & nx & En & C). rewrite (sread_ok _ _ _ En). cbn [bind node_of n_h n_k n_next].
    assert (HC : hits key c = true \/ hits key c = false) by (destruct (hits key c); auto).
    destruct HC as [HC|HC].
    + left. exists [], c, row. split.
      * split; auto. split; auto. intros d [].
      * unfold hits in HC. apply andb_prop in HC. destruct HC as (-> & Q).
        rewrite (sread_ok _ _ _ (HK c (or_introl eq_refl))). cbn [bind]. now rewrite Q.
    + assert (X : forall y, (if enhanced_hash hashfn key =? hv c
            then kc <- sread (w_key w) (c_k c) ;; (if eqfn key kc then Ok (Some (c_id c, parent)) else y)
            else y) = y).
      { intros y. unfold hits in HC. destruct (enhanced_hash hashfn key =? hv c); auto.
        rewrite (sread_ok _ _ _ (HK c (or_introl eq_refl))). cbn [bind]. cbn [andb] in HC. now rewrite HC. }
      rewrite X.
      destruct (IH fuel (Some (c_id c)) nx) as [(pre & d & post & (-> & H1 & H2) & G)|(H1 & G)]; auto.
      * cbn in HF. lia.
      * intros; apply HK; now right.
      * left. exists (c :: pre), d, post. split.
        -- split; auto. split; auto. intros x [<-|I]; auto.
        -- now rewrite last_id_cons.
      * right. split; auto. intros d [<-|I]; auto.
Qed.

Lemma find_in_ok w h t rows fk fv key : rep w h t rows fk fv ->
  (exists P pre c post Q, rows = P ++ (pre ++ c :: post) :: Q /\ hits key c = true /\
     (forall d, In d pre -> hits key d = false) /\
     find_in hashfn eqfn w h key = Ok (zlen P, t_tab t, Some (c_id c, last_id None pre))) \/
  ((forall d, In d (concat rows) -> hits key d = false) /\
     exists i, find_in hashfn eqfn w h key = Ok (i, t_tab t, None)).
Proof.
  intros R. pose proof (rep_pos _ _ _ _ _ _ R) as HP.
  pose proof (Z.mod_pos_bound (enhanced_hash hashfn key) (zlen rows) HP) as MB.
  unfold find_in. rewrite (sread_ok _ _ _ (r_h _ _ _ _ _ _ R)). cbn [bind].
  unfold index_for. rewrite (r_len _ _ _ _ _ _ R). destruct (Z.eqb_spec (zlen rows) 0); [lia|]. cbn [bind].
  destruct (split_at rows (enhanced_hash hashfn key mod zlen rows)) as (P & row & Q & E & L); [lia|].
  rewrite <- L. pose proof R as R'. rewrite E in R'.
  destruct (bget_ok _ _ _ _ _ (r_b _ _ _ _ _ _ R')) as (e & G & C). rewrite G. cbn [bind].
  destruct (find_node_ok w key row (fuel_of w) None e C) as [(pre & c & post & (-> & H1 & H2) & F)|(H1 & F)].
  - unfold fuel_of. pose proof (row_fuel _ _ _ _ _ _ _ _ R'). lia.
  - intros c I. apply (r_keys _ _ _ _ _ _ R'). now apply in_row_concat.
  - left. exists P, pre, c, post, Q. rewrite F. repeat split; auto.
  - right. rewrite F. cbn [bind]. split; [|eauto].
    intros d I. destruct (hits key d) eqn:HD; auto. exfalso.
    assert (EQ : enhanced_hash hashfn key = hv d).
    { unfold hits in HD. apply andb_prop in HD. destruct HD as (HD & _). now apply Z.eqb_eq in HD. }
    pose proof (r_bk _ _ _ _ _ _ R') as BK. rewrite <- E in BK. rewrite E in BK at 2. rewrite bucket_ok_app in BK.
    destruct BK as (BA & BR & BB).
    rewrite E, concat_mid, !in_app_iff in I. destruct I as [I|[I|I]].
    + pose proof (bucket_range _ _ _ _ BA I) as X. rewrite <- EQ in X. lia.
    + now rewrite H1 in HD.
    + pose proof (bucket_range _ _ _ _ BB I) as X. rewrite <- EQ in X. lia.
Qed.

(** ** Creation and expansion *)
Lemma pick_ok minsize l : forall i, (exists p, In p l /\ minsize < p) ->
  exists p P Q, pick minsize l i = (p, i + zlen P) /\ l = P ++ p :: Q /\ minsize < p.
Proof.
  induction l as [|p l IH]; intros i (q & I & H); [destruct I|]. cbn [pick].
  destruct (Z.ltb_spec minsize p).
  - exists p, [], l. rewrite zlen_nil, Z.add_0_r. auto.
  - destruct I as [->|I]; [lia|]. destruct (IH (i + 1)) as (r & P & Q & E & -> & L); [eauto|].
    exists r, (p :: P), Q. rewrite E, zlen_cons. split; [f_equal; lia | auto].
Qed.

Lemma buckets_empty (w : W) a n : sget (w_tab w) a = Some (repeat None n) -> buckets w a (repeat [] n).
Proof. intros E. exists (repeat None n). split; auto. clear E. induction n; cbn; constructor; cbn; auto. Qed.

Lemma zlen_repeat {T} (x : T) n : 0 <= n -> zlen (repeat x (Z.to_nat n)) = n.
Proof. intros. unfold zlen. rewrite repeat_length. lia. Qed.

Lemma load_limit_nonneg n : 0 <= n -> 0 <= load_limit n.
Proof. intros. unfold load_limit. apply Z.div_pos; lia. Qed.

Lemma create_ok (w : W) minsize fk fv : minsize <= 1073741824 ->
  owns (w_ht w) [] -> owns (w_tab w) [] -> owns (w_node w) [] -> owns (w_key w) fk -> owns (w_val w) fv ->
  exists w' h t rows, arg_hashtable_create w minsize = (w', Some h) /\ rep w' h t rows fk fv /\ concat rows = [] /\
    minsize < t_len t /\ w_key w' = w_key w /\ w_val w' = w_val w.
Proof.
  intros HM OH OT ON OK OV. unfold arg_hashtable_create.
  destruct (Z.ltb_spec 1073741824 minsize); [lia|].
  destruct (pick_ok minsize primes 0) as (p & P & Q & E & EP & L).
  { exists 1610612741. split; [cbn; tauto | lia]. }
  rewrite E. cbn [salloc].
  assert (AG : aget primes (zlen P) = Ok p) by (rewrite EP; apply aget_app).
  pose proof (primes_range _ _ AG) as PR.
  eexists _, _, {| t_len := p; t_tab := snext (w_tab w); t_count := 0; t_load := load_limit p; t_prime := zlen P |},
    (repeat [] (Z.to_nat p)). split; [reflexivity|].
  split; [|split; [apply concat_empty | split; [exact L | split; reflexivity]]].
  constructor; cbn [t_len t_tab t_count t_load t_prime w_ht w_tab w_node w_key w_val up_ht up_tab].
  - cbn. now rewrite Nat.eqb_refl.
  - apply (owns_alloc (w_ht w) []). auto.
  - apply (owns_alloc (w_tab w) [] (repeat None (Z.to_nat p))). auto.
  - apply buckets_empty. cbn. now rewrite Nat.eqb_refl.
  - now rewrite concat_empty.
  - now rewrite concat_empty.
  - now rewrite concat_empty.
  - rewrite concat_empty. intros c [].
  - now rewrite zlen_repeat by lia.
  - apply bucket_ok_empty.
  - rewrite concat_empty. reflexivity.
  - exists (zlen P). split; [exact AG | lia].
  - reflexivity.
  - left. apply load_limit_nonneg. lia.
Qed.

Lemma primes_step i j p q : aget primes i = Ok p -> aget primes j = Ok q -> i < j ->
  load_limit p + 1 <= load_limit q /\ p <= q.
Proof.
  intros H1 H2 LT. pose proof (primes_range _ _ H1) as R1. pose proof (primes_range _ _ H2) as R2.
  set (ix := [0;1;2;3;4;5;6;7;8;9;10;11;12;13;14;15;16;17;18;19;20;21;22;23;24;25]).
  assert (X : forallb (fun i => forallb (fun j => match aget primes i, aget primes j with
                                | Ok p, Ok q => negb (i <? j) || (load_limit p + 1 <=? load_limit q) && (p <=? q)
                                | _, _ => true
                                end) ix) ix = true) by (vm_compute; reflexivity).
  rewrite forallb_forall in X. specialize (X i). rewrite forallb_forall in X.
  assert (Y1 : In i ix) by (unfold ix; cbn [In]; lia). assert (Y2 : In j ix) by (unfold ix; cbn [In]; lia).
  specialize (X Y1 j Y2). rewrite H1, H2 in X. destruct (Z.ltb_spec i j); [|lia]. cbn [negb orb] in X.
  apply andb_prop in X. destruct X as (Z1 & Z2). apply Z.leb_le in Z1, Z2. auto.
Qed.

Lemma expand_ok w h t rows fk fv : rep w h t rows fk fv ->
  exists w' t' rows', arg_hashtable_expand w h = Ok w' /\ rep w' h t' rows' fk fv /\
    Permutation (concat rows') (concat rows) /\ t_count t' = t_count t /\ t_len t <= t_len t' /\
    (t_count t + 1 <= t_load t' \/ t_prime t' = prime_table_length - 1) /\
    w_key w' = w_key w /\ w_val w' = w_val w /\ snext (w_node w') = snext (w_node w) /\
    (t_prime t = prime_table_length - 1 -> t' = t /\ rows' = rows).
Proof.
  intros R. unfold arg_hashtable_expand. rewrite (sread_ok _ _ _ (r_h _ _ _ _ _ _ R)). cbn [bind].
  destruct (Z.eqb_spec (t_prime t) (prime_table_length - 1)) as [EP|NP].
  { exists w, t, rows. repeat (split; auto); lia. }
  destruct (r_prime _ _ _ _ _ _ R) as (i0 & AG & IP). pose proof (primes_range _ _ AG) as PR.
  change prime_table_length with 26 in *.
  destruct (aget_ok primes (t_prime t + 1)) as (n & AN & _). { change (zlen primes) with 26. lia. }
  rewrite AN. cbn [bind salloc].
  pose proof (primes_range _ _ AN) as PN. destruct (primes_step _ _ _ _ AG AN ltac:(lia)) as (LL & LE).
  set (w1 := up_tab w _). set (new := snext (w_tab w)).
  assert (ON : t_tab t <> new).
  { pose proof (owns_lt _ _ (t_tab t) (r_ts _ _ _ _ _ _ R) (or_introl eq_refl)). unfold new. lia. }
  assert (OT1 : owns (w_tab w1) [new; t_tab t]).
  { apply (owns_alloc (w_tab w) _ (repeat None (Z.to_nat n))). apply (r_ts _ _ _ _ _ _ R). }
  pose proof (r_len _ _ _ _ _ _ R) as EL.
  destruct (expand_loop_ok (t_tab t) new n ON ltac:(lia) rows [] w1 (repeat [] (Z.to_nat n)))
    as (w2 & N & X & LO & BN & LN & BK & PM); auto.
  - intros row I. apply in_split in I. destruct I as (P & Q & ->). apply (row_fuel _ _ _ _ _ _ _ _ R).
  - apply zlen_repeat. lia.
  - apply bucket_ok_empty.
  - cbn [app]. destruct (r_b _ _ _ _ _ _ R) as (arr & E & F). exists arr. split; auto.
    cbn. destruct (Nat.eqb_spec (t_tab t) (snext (w_tab w))); [contradiction | auto].
  - apply buckets_empty. cbn. unfold new. now rewrite Nat.eqb_refl.
  - rewrite concat_empty, app_nil_r. apply (r_ns _ _ _ _ _ _ R).
  - rewrite concat_empty, app_nil_r in PM.
    rewrite EL. unfold zlen at 1. rewrite Nat2Z.id. change (zlen []) with 0 in X. rewrite X. cbn [bind].
    destruct LO as (L1 & L2 & L3 & L4 & L5 & L6).
    destruct (owns_del (w_tab w2) [new; t_tab t] [new] (t_tab t)) as (SF & OT2); auto. { constructor. }
    rewrite SF. cbn [bind].
    assert (OH2 : owns (w_ht w2) [h]) by (rewrite L1; apply (r_hs _ _ _ _ _ _ R)).
    rewrite (swrite_ok _ _ _ _ OH2 (or_introl eq_refl)). cbn [bind].
    eexists _, {| t_len := n; t_tab := new; t_count := t_count t; t_load := load_limit n; t_prime := t_prime t + 1 |}, N.
    split; [reflexivity|]. split.
    + constructor; cbn [t_len t_tab t_count t_load t_prime w_ht w_tab w_node w_key w_val up_ht up_tab].
      * apply sget_put_eq.
      * apply owns_put; auto. now left.
      * exact OT2.
      * destruct BN as (arr & E & F). exists arr. split; auto. cbn.
        fold new. destruct (Nat.eqb_spec new (t_tab t)); [congruence | auto].
      * apply L5. eapply owns_perm; [|apply (r_ns _ _ _ _ _ _ R)]. apply Permutation_map. now apply Permutation_sym.
      * rewrite L2. eapply owns_perm; [|apply (r_ks _ _ _ _ _ _ R)].
        apply Permutation_app_tail, Permutation_map. now apply Permutation_sym.
      * rewrite L3. eapply owns_perm; [|apply (r_vs _ _ _ _ _ _ R)].
        apply Permutation_app_tail, Permutation_flat_map. now apply Permutation_sym.
      * intros c I. rewrite L2. apply (r_keys _ _ _ _ _ _ R). eapply Permutation_in; eauto.
      * auto.
      * now rewrite LN.
      * rewrite (r_count _ _ _ _ _ _ R). unfold zlen. f_equal. apply Permutation_length. now apply Permutation_sym.
      * exists (t_prime t + 1). split; [exact AN | lia].
      * reflexivity.
      * left. destruct (r_full _ _ _ _ _ _ R) as [Q|Q]; [|contradiction].
        rewrite (r_load _ _ _ _ _ _ R) in Q. lia.
    + cbn [t_len t_tab t_count t_load t_prime w_ht w_tab w_node w_key w_val up_ht up_tab].
      split; auto. split; auto. split; [lia|]. split.
      * left. destruct (r_full _ _ _ _ _ _ R) as [Q|Q]; [|contradiction].
        rewrite (r_load _ _ _ _ _ _ R) in Q. lia.
      * rewrite L2, L3, L4. repeat (split; [reflexivity|]). contradiction.
Qed.

Definition optl (v : option nat) : list nat := match v with Some v => [v] | None => [] end.

Lemma insert_ok w h t rows k key v fk fv :
  rep w h t rows (k :: fk) (optl v ++ fv) -> sget (w_key w) k = Some key ->
  exists w' t' rows', arg_hashtable_insert hashfn w h k v = Ok w' /\ rep w' h t' rows' fk fv /\
    Permutation (concat rows') ({| c_id := snext (w_node w); c_k := k; c_key := key; c_v := v |} :: concat rows) /\
    t_len t <= t_len t' /\ w_key w' = w_key w /\ w_val w' = w_val w /\
    (t_count t + 1 <= t_load t \/ t_prime t = prime_table_length - 1 -> t' = set_count t (t_count t + 1) /\
       exists P row Q, rows = P ++ row :: Q /\ zlen P = enhanced_hash hashfn key mod zlen rows /\
         rows' = P ++ ({| c_id := snext (w_node w); c_k := k; c_key := key; c_v := v |} :: row) :: Q).
Proof.
  intros R0 EK. unfold arg_hashtable_insert. rewrite (sread_ok _ _ _ (r_h _ _ _ _ _ _ R0)). cbn [bind].
  assert (X : exists w1 t1 rows1, (if t_load t <? t_count t + 1 then arg_hashtable_expand w h else Ok w) = Ok w1 /\
    rep w1 h t1 rows1 (k :: fk) (optl v ++ fv) /\ Permutation (concat rows1) (concat rows) /\ t_count t1 = t_count t /\
    t_len t <= t_len t1 /\ (t_count t + 1 <= t_load t1 \/ t_prime t1 = prime_table_length - 1) /\
    w_key w1 = w_key w /\ w_val w1 = w_val w /\ snext (w_node w1) = snext (w_node w) /\
    (t_count t + 1 <= t_load t \/ t_prime t = prime_table_length - 1 -> t1 = t /\ rows1 = rows)).
  { destruct (Z.ltb_spec (t_load t) (t_count t + 1)).
    - destruct (expand_ok _ _ _ _ _ _ R0) as (w1 & t1 & rows1 & Y1 & Y2 & Y3 & Y4 & Y5 & Y6 & Y7 & Y8 & Y9 & Y10).
      exists w1, t1, rows1. repeat (split; [assumption|]). intros [B|B]; [lia|auto].
    - exists w, t, rows. repeat (split; auto); lia. }
  destruct X as (w1 & t1 & rows1 & -> & R & PM & EC & LL & FU & K1 & V1 & N1 & ST). cbn [bind]. clear R0.
  rewrite (sread_ok _ _ _ (r_h _ _ _ _ _ _ R)). cbn [bind].
  rewrite K1, (sread_ok _ _ _ EK). cbn [bind].
  set (c := {| c_id := snext (w_node w); c_k := k; c_key := key; c_v := v |}).
  change (enhanced_hash hashfn key) with (hv c).
  pose proof (rep_pos _ _ _ _ _ _ R) as HP. pose proof (Z.mod_pos_bound (hv c) (zlen rows1) HP) as MB.
  unfold index_for. rewrite (r_len _ _ _ _ _ _ R). destruct (Z.eqb_spec (zlen rows1) 0); [lia|]. cbn [bind].
  destruct (split_at rows1 (hv c mod zlen rows1)) as (P & row & Q & E & L); [lia|].
  rewrite <- L. pose proof R as R'. rewrite E in R'.
  destruct (buckets_split _ _ _ _ _ (r_b _ _ _ _ _ _ R')) as (P' & x & Q' & ET & LP & FP & C & FQ).
  unfold bget. rewrite (sread_ok _ _ _ ET). cbn [bind]. rewrite <- LP, aget_app. cbn [bind salloc].
  set (w2 := up_node w1 _).
  assert (ET2 : sget (w_tab w2) (t_tab t1) = Some (P' ++ x :: Q')) by exact ET.
  rewrite (bset_ok _ _ _ _ _ (Some (snext (w_node w1))) ET2). cbn [bind].
  set (w3 := up_tab w2 _).
  assert (OH : owns (w_ht w3) [h]) by apply (r_hs _ _ _ _ _ _ R).
  rewrite (swrite_ok _ _ _ _ OH (or_introl eq_refl)). cbn [bind].
  assert (FR : forall d, In d (concat rows1) -> sget (w_node w3) (c_id d) = sget (w_node w1) (c_id d)).
  { intros d I. cbn. destruct (Nat.eqb_spec (c_id d) (snext (w_node w1))) as [Q1|]; auto.
    exfalso. pose proof (owns_lt _ _ (c_id d) (r_ns _ _ _ _ _ _ R) (in_map _ _ _ I)). lia. }
  assert (PM2 : Permutation (concat (P ++ (c :: row) :: Q)) (c :: concat rows1)).
  { rewrite E. apply (perm_mid P Q [] c row). }
  eexists _, (set_count t1 (t_count t1 + 1)), (P ++ (c :: row) :: Q). split; [reflexivity|].
  split; [|split; [now rewrite PM2, PM|]].
  - constructor; cbn [t_len t_tab t_count t_load t_prime set_count w_ht w_tab w_node w_key w_val up_ht up_tab].
    + apply sget_put_eq.
    + apply owns_put; auto. now left.
    + apply (owns_put_some _ _ _ _ _ (r_ts _ _ _ _ _ _ R) ET).
    + exists (P' ++ Some (snext (w_node w1)) :: Q'). split.
      * cbn. now rewrite Nat.eqb_refl.
      * rewrite E, concat_mid in FR. cbn [w_node up_ht].
        apply Forall2_app; [|constructor].
        -- eapply chains_frame; [exact FP|]. intros; apply FR; rewrite !in_app_iff; auto.
        -- cbn [chain]. split; [now rewrite N1|]. exists x. split.
           ++ cbn. rewrite N1, Nat.eqb_refl. reflexivity.
           ++ eapply chain_frame; [exact C|]. intros; apply FR; rewrite !in_app_iff; auto.
        -- eapply chains_frame; [exact FQ|]. intros; apply FR; rewrite !in_app_iff; auto.
    + eapply owns_perm; [|apply (owns_alloc (w_node w1) _ _ (r_ns _ _ _ _ _ _ R))].
      rewrite PM2. cbn [map]. rewrite N1. auto.
    + eapply owns_perm; [|apply (r_ks _ _ _ _ _ _ R)].
      rewrite PM2. cbn [map app]. apply Permutation_sym, Permutation_middle.
    + eapply owns_perm; [|apply (r_vs _ _ _ _ _ _ R)].
      unfold vids. rewrite PM2. cbn [flat_map]. change (vid c) with (optl v).
      rewrite !app_assoc. apply Permutation_app_tail, Permutation_app_comm.
    + intros d I. apply (Permutation_in _ PM2) in I. destruct I as [<-|I].
      * cbn. now rewrite K1.
      * now apply (r_keys _ _ _ _ _ _ R).
    + rewrite (r_len _ _ _ _ _ _ R), E, !zlen_app, !zlen_cons. auto.
    + assert (EZ : zlen (P ++ (c :: row) :: Q) = zlen rows1) by (rewrite E, !zlen_app, !zlen_cons; auto).
      rewrite EZ. pose proof (r_bk _ _ _ _ _ _ R) as BK. rewrite E in BK at 2.
      rewrite bucket_ok_app in *. destruct BK as (B1 & B2 & B3). split; auto. split; auto.
      intros d [<-|I]; auto.
    + rewrite (r_count _ _ _ _ _ _ R). rewrite (zlen_perm _ _ PM2), zlen_cons. auto.
    + apply (r_prime _ _ _ _ _ _ R).
    + apply (r_load _ _ _ _ _ _ R).
    + rewrite EC. auto.
  - cbn. split; [auto|]. split; [auto|]. split; [auto|]. intros B. destruct (ST B) as (-> & ->). split; [reflexivity|].
    exists P, row, Q. split; [exact E|]. split; [|reflexivity]. exact L.
Qed.

Lemma search_ok w h t rows fk fv key : rep w h t rows fk fv ->
  (exists c, In c (concat rows) /\ hits key c = true /\ arg_hashtable_search hashfn eqfn w h key = Ok (c_v c)) \/
  ((forall d, In d (concat rows) -> hits key d = false) /\ arg_hashtable_search hashfn eqfn w h key = Ok None).
Proof.
  intros R. unfold arg_hashtable_search.
  destruct (find_in_ok w h t rows fk fv key R) as [(P & pre & c & post & Q & E & H1 & H2 & F)|(H1 & i & F)]; rewrite F; cbn [bind].
  - left. exists c.
    assert (I : In c (concat rows)) by (rewrite E; apply in_row_concat, in_or_app; right; now left).
    split; auto. split; auto.
    destruct (r_b _ _ _ _ _ _ R) as (arr & EA & FA). rewrite E in FA. apply Forall2_app_inv_r in FA.
    destruct FA as (P' & R' & F1 & F2 & ->). inversion F2 as [|e row' Q' Q'' C F3]; subst.
    clear - C. revert e C. induction pre as [|d pre IH]; intros e C.
    + destruct C as (_ & nx & En & _). now rewrite (sread_ok _ _ _ En).
    + destruct C as (_ & nx & En & C). eapply IH; eauto.
  - right. auto.
Qed.

(** ** Unlinking and freeing one cell *)
Lemma chain_at ns pre c post : forall e, chain ns e (pre ++ c :: post) ->
  exists nx, sget ns (c_id c) = Some (node_of c nx) /\ chain ns nx post.
Proof.
  induction pre as [|d pre IH]; intros e C.
  - destruct C as (_ & nx & En & C). eauto.
  - destruct C as (_ & nx & En & C). eapply IH; eauto.
Qed.

Lemma chain_unlink ns p c post nx : forall pre e,
  chain ns e (pre ++ p :: c :: post) -> NoDup (map c_id (pre ++ p :: c :: post)) ->
  chain ns nx post ->
  chain (sput ns (c_id p) (Some (node_of p nx))) e (pre ++ p :: post).
Proof.
  induction pre as [|d pre IH]; intros e C ND CP; cbn [app map] in *.
  - inversion ND as [|? ? N1 N2]; subst. destruct C as (-> & nx' & En & C). split; auto.
    exists nx. rewrite sget_put_eq. split; auto.
    eapply chain_frame; [exact CP|]. intros d I. apply sget_put_neq. intros Q. apply N1. rewrite <- Q.
    right. now apply in_map.
  - inversion ND as [|? ? N1 N2]; subst. destruct C as (-> & nx' & En & C). split; auto.
    exists nx'. split.
    + rewrite sget_put_neq; auto. intros Q. apply N1. rewrite Q, map_app. apply in_or_app. right. now left.
    + now apply IH.
Qed.

Lemma last_id_app parent pre p : last_id parent (pre ++ [p]) = Some (c_id p).
Proof. unfold last_id. rewrite map_app. cbn [map]. apply last_last. Qed.

Lemma NoDup_app_l {T} (a b : list T) : NoDup (a ++ b) -> NoDup a.
Proof. induction a; cbn; intros H; [constructor|]. inversion H; subst. constructor; auto. intro; apply H2; apply in_or_app; auto. Qed.
Lemma NoDup_app_r {T} (a b : list T) : NoDup (a ++ b) -> NoDup b.
Proof. induction a; cbn; auto. intros H. inversion H; auto. Qed.

Lemma unlink_ok (w : W) a P pre c post Q :
  buckets w a (P ++ (pre ++ c :: post) :: Q) -> NoDup (map c_id (concat (P ++ (pre ++ c :: post) :: Q))) ->
  exists w' nx, sget (w_node w) (c_id c) = Some (node_of c nx) /\
    unlink w a (zlen P) (last_id None pre) nx = Ok w' /\ links_only w w' /\
    buckets w' a (P ++ (pre ++ post) :: Q) /\ sget (w_node w') (c_id c) = Some (node_of c nx) /\
    chain (w_node w') nx post.
Proof.
  intros B ND. destruct (buckets_split _ _ _ _ _ B) as (P' & x & Q' & ET & LP & FP & C & FQ).
  destruct (chain_at _ _ _ _ _ C) as (nx & En & CP).
  rewrite concat_mid in ND.
  assert (NDrow : NoDup (map c_id (pre ++ c :: post))).
  { pose proof ND as X. rewrite map_app in X. apply NoDup_app_r in X. rewrite map_app in X. now apply NoDup_app_l in X. }
  assert (PRE : pre = [] \/ exists pre' p, pre = pre' ++ [p]).
  { destruct pre as [|d pre] using rev_ind; eauto. }
  destruct PRE as [->|(pre' & p & ->)].
  - cbn [app] in *. destruct C as (-> & nx' & En' & CP'). assert (nx' = nx) by (rewrite En in En'; now inversion En'). subst nx'.
    eexists _, nx. split; auto. unfold unlink. cbn [last_id map last]. rewrite <- LP, (bset_ok _ _ _ _ _ nx ET).
    split; [reflexivity|]. split; [eapply links_bset; eauto|]. split; [|split; auto].
    exists (P' ++ nx :: Q'). split; [cbn; now rewrite Nat.eqb_refl|].
    cbn [w_node up_tab]. apply Forall2_app; auto.
  - rewrite last_id_app. cbn [unlink]. rewrite <- app_assoc in C, ND. cbn [app] in C, ND.
    destruct (chain_at _ _ _ _ _ C) as (np & Ep & _).
    rewrite (sread_ok _ _ _ Ep). cbn [bind]. unfold swrite. rewrite Ep. cbn [bind].
    change (set_next (node_of p np) nx) with (node_of p nx).
    eexists _, nx. split; auto. split; [reflexivity|]. split; [eapply links_node; eauto|].
    rewrite !map_app in ND.
    assert (NP : ~ In (c_id p) (map c_id (concat P)) /\ ~ In (c_id p) (map c_id (concat Q)) /\ ~ In (c_id p) (map c_id (c :: post))).
    { cbn [map app] in ND. rewrite <- app_assoc in ND. cbn [app] in ND. rewrite app_assoc in ND.
      apply NoDup_mid_notin in ND. destruct ND as (N1 & N2). rewrite in_app_iff in N1.
      cbn [In] in N2. rewrite map_app, in_app_iff in N2. cbn [map In]. tauto. }
    destruct NP as (NP1 & NP2 & NP3).
    assert (FR : forall d, ~ In (c_id p) (map c_id d) ->
              forall y, In y d -> sget (sput (w_node w) (c_id p) (Some (node_of p nx))) (c_id y) = sget (w_node w) (c_id y)).
    { intros d ND' y I. apply sget_put_neq. intros Q1. apply ND'. rewrite <- Q1. now apply in_map. }
    split; [|split].
    + exists (P' ++ x :: Q'). split; auto. cbn [w_node up_node]. apply Forall2_app; [|constructor].
      * exact (chains_frame _ _ _ _ FP (FR _ NP1)).
      * rewrite <- app_assoc. cbn [app]. apply chain_unlink with (c := c); auto.
        now rewrite <- app_assoc in NDrow.
      * exact (chains_frame _ _ _ _ FQ (FR _ NP2)).
    + exact (eq_trans (FR (c :: post) NP3 c (or_introl eq_refl)) En).
    + cbn [w_node up_node]. eapply chain_frame; [exact CP|]. intros d I. apply (FR (c :: post) NP3). now right.
Qed.

(** The world after the bookkeeping of a removal, and then after freeing the node. *)
Definition freed_vals (s : store V) (v : option nat) : store V := match v with Some v => sput s v None | None => s end.
Definition drop1 (w1 : W) (h : nat) (t : ht) (c : cell) : W :=
  up_val (up_key (up_ht w1 (sput (w_ht w1) h (Some (set_count t (t_count t - 1))))) (sput (w_key w1) (c_k c) None))
         (freed_vals (w_val w1) (c_v c)).
Definition drop2 (w1 : W) (c : cell) : W := up_node w1 (sput (w_node w1) (c_id c) None).

Lemma sfree_opt_ok (s : store V) v L L' : owns s L -> Permutation L (optl v ++ L') ->
  sfree_opt s v = Ok (freed_vals s v) /\ owns (freed_vals s v) L'.
Proof.
  intros O P. destruct v as [v|]; cbn [sfree_opt freed_vals optl app] in *.
  - eapply owns_del; eauto.
  - split; auto. eapply owns_perm; eauto.
Qed.

Lemma drop_ok w h t P pre c post Q fk fv :
  rep w h t (P ++ (pre ++ c :: post) :: Q) fk fv ->
  exists w1 nx, sget (w_node w) (c_id c) = Some (node_of c nx) /\
    unlink w (t_tab t) (zlen P) (last_id None pre) nx = Ok w1 /\
    sread (w_ht w1) h = Ok t /\
    swrite (w_ht w1) h (set_count t (t_count t - 1)) = Ok (sput (w_ht w1) h (Some (set_count t (t_count t - 1)))) /\
    sfree (w_key w1) (c_k c) = Ok (sput (w_key w1) (c_k c) None) /\
    sfree_opt (w_val w1) (c_v c) = Ok (freed_vals (w_val w1) (c_v c)) /\
    sfree (w_node w1) (c_id c) = Ok (sput (w_node w1) (c_id c) None) /\
    w_val w1 = w_val w /\
    sget (w_node w1) (c_id c) = Some (node_of c nx) /\ chain (w_node w1) nx post /\
    buckets w1 (t_tab t) (P ++ (pre ++ post) :: Q) /\
    rep (drop2 (drop1 w1 h t c) c) h (set_count t (t_count t - 1)) (P ++ (pre ++ post) :: Q) fk fv.
Proof.
  intros R. pose proof (r_ns _ _ _ _ _ _ R) as ON.
  destruct (unlink_ok w (t_tab t) P pre c post Q (r_b _ _ _ _ _ _ R) (proj1 ON)) as (w1 & nx & En & UL & LO & B1 & E1 & C1).
  exists w1, nx. destruct LO as (L1 & L2 & L3 & L4 & L5 & L6).
  pose proof (perm_mid P Q pre c post) as PM.
  split; auto. split; auto.
  split. { rewrite L1. apply sread_ok, (r_h _ _ _ _ _ _ R). }
  assert (OH : owns (w_ht w1) [h]) by (rewrite L1; apply (r_hs _ _ _ _ _ _ R)).
  split. { apply (swrite_ok _ _ _ _ OH). now left. }
  destruct (owns_del (w_key w1) (map c_k (concat (P ++ (pre ++ c :: post) :: Q)) ++ fk)
              (map c_k (concat (P ++ (pre ++ post) :: Q)) ++ fk) (c_k c)) as (SK & OK').
  { rewrite L2. apply (r_ks _ _ _ _ _ _ R). }
  { now rewrite PM. }
  split; auto.
  destruct (sfree_opt_ok (w_val w1) (c_v c) (vids (concat (P ++ (pre ++ c :: post) :: Q)) ++ fv)
              (vids (concat (P ++ (pre ++ post) :: Q)) ++ fv)) as (SV & OV').
  { rewrite L3. apply (r_vs _ _ _ _ _ _ R). }
  { unfold vids. rewrite PM. cbn [flat_map]. rewrite app_assoc. reflexivity. }
  split; auto.
  destruct (owns_del (w_node w1) (map c_id (concat (P ++ (pre ++ c :: post) :: Q)))
              (map c_id (concat (P ++ (pre ++ post) :: Q))) (c_id c)) as (SN & ON').
  { now apply L5. }
  { now rewrite PM. }
  split; auto. split; auto. split; auto. split; auto. split; auto.
  assert (NID : ~ In (c_id c) (map c_id (concat (P ++ (pre ++ post) :: Q)))).
  { pose proof (proj1 ON) as ND. apply (Permutation_NoDup (Permutation_map c_id PM)) in ND. cbn [map] in ND. now inversion ND. }
  assert (NK : forall d, In d (concat (P ++ (pre ++ post) :: Q)) -> c_k d <> c_k c).
  { intros d I Q1. pose proof (proj1 (r_ks _ _ _ _ _ _ R)) as ND. apply NoDup_app_l in ND.
    apply (Permutation_NoDup (Permutation_map c_k PM)) in ND. cbn [map] in ND. inversion ND; subst.
    apply H1. rewrite <- Q1. now apply in_map. }
  assert (EZ : zlen (P ++ (pre ++ post) :: Q) = zlen (P ++ (pre ++ c :: post) :: Q)) by (rewrite !zlen_app, !zlen_cons; auto).
  constructor; cbn [t_len t_tab t_count t_load t_prime set_count w_ht w_tab w_node w_key w_val up_ht up_tab up_node up_key up_val drop1 drop2].
  - apply sget_put_eq.
  - apply owns_put; auto. now left.
  - apply L6. apply (r_ts _ _ _ _ _ _ R).
  - destruct B1 as (arr & E & F). exists arr. split; auto. cbn [w_node up_node drop1 drop2 up_val up_key up_ht].
    eapply chains_frame; [exact F|]. intros d I. apply sget_put_neq. intros Q1. apply NID. rewrite <- Q1. now apply in_map.
  - exact ON'.
  - exact OK'.
  - exact OV'.
  - intros d I. rewrite sget_put_neq by auto. rewrite L2. apply (r_keys _ _ _ _ _ _ R).
    apply (Permutation_in _ (Permutation_sym PM)). now right.
  - rewrite EZ. apply (r_len _ _ _ _ _ _ R).
  - rewrite EZ. pose proof (r_bk _ _ _ _ _ _ R) as BK. rewrite bucket_ok_app in *.
    destruct BK as (X1 & X2 & X3). split; auto. split; auto.
    intros d I. apply X2. rewrite in_app_iff in *. destruct I; auto. right. now right.
  - rewrite (r_count _ _ _ _ _ _ R), (zlen_perm _ _ PM), zlen_cons. lia.
  - apply (r_prime _ _ _ _ _ _ R).
  - apply (r_load _ _ _ _ _ _ R).
  - destruct (r_full _ _ _ _ _ _ R); [left; lia | now right].
Qed.

Lemma freed_keeps (s : store V) v i : ~ In i (optl v) -> sget (freed_vals s v) i = sget s i.
Proof. destruct v as [v|]; cbn; auto. intros. destruct (Nat.eqb_spec i v); auto. exfalso. auto. Qed.

Lemma remove_ok w h t rows fk fv key : rep w h t rows fk fv ->
  (exists w' c t' rows', arg_hashtable_remove hashfn eqfn w h key = Ok w' /\ hits key c = true /\
     Permutation (concat rows) (c :: concat rows') /\ rep w' h t' rows' fk fv /\ t_len t' = t_len t /\
     w_val w' = freed_vals (w_val w) (c_v c) /\
     exists P pre post Q, rows = P ++ (pre ++ c :: post) :: Q /\ rows' = P ++ (pre ++ post) :: Q /\ t' = set_count t (t_count t - 1)) \/
  ((forall d, In d (concat rows) -> hits key d = false) /\ arg_hashtable_remove hashfn eqfn w h key = Ok w).
Proof.
  intros R. unfold arg_hashtable_remove.
  destruct (find_in_ok w h t rows fk fv key R) as [(P & pre & c & post & Q & E & H1 & H2 & F)|(H1 & i & F)]; rewrite F; cbn [bind].
  2:{ right. auto. }
  left. subst rows.
  destruct (drop_ok _ _ _ _ _ _ _ _ _ _ R) as (w1 & nx & En & UL & SH & SW & SK & SV & SN & EV & _ & _ & _ & R').
  rewrite (sread_ok _ _ _ En). cbn [bind node_of n_next n_k n_v]. rewrite UL. cbn [bind].
  rewrite SH. cbn [bind]. rewrite SW. cbn [bind]. rewrite SK. cbn [bind]. rewrite SV. cbn [bind]. rewrite SN. cbn [bind].
  eexists _, c, _, _. split; [reflexivity|]. split; auto. split; [apply perm_mid|].
  split; [exact R'|]. split; auto. split; [cbn; now rewrite EV|]. exists P, pre, post, Q. auto.
Qed.

Lemma chain_replace ns pre c c' post nx : forall e,
  c_id c' = c_id c -> chain ns e (pre ++ c :: post) ->
  ~ In (c_id c) (map c_id pre) -> ~ In (c_id c) (map c_id post) ->
  sget ns (c_id c) = Some (node_of c nx) ->
  chain (sput ns (c_id c) (Some (node_of c' nx))) e (pre ++ c' :: post).
Proof.
  induction pre as [|d pre IH]; intros e EI C N1 N2 En.
  - destruct C as (-> & nx' & En' & C). rewrite En in En'. inversion En'; subst. cbn [app chain]. rewrite EI. split; auto.
    exists nx'. rewrite sget_put_eq. split; auto. eapply chain_frame; [exact C|].
    intros y I. apply sget_put_neq. intros Q1. apply N2. rewrite <- Q1. now apply in_map.
  - destruct C as (-> & nx' & En' & C). cbn [app chain map In] in *. split; auto. exists nx'. split.
    + rewrite sget_put_neq; auto.
    + apply IH; auto.
Qed.

Lemma change_ok w h t rows fk fv key v : rep w h t rows fk (optl v ++ fv) ->
  (exists w' c rows', arg_hashtable_change hashfn eqfn w h key v = Ok (w', true) /\ hits key c = true /\
     (exists l, Permutation (concat rows) (c :: l) /\
        Permutation (concat rows') ({| c_id := c_id c; c_k := c_k c; c_key := c_key c; c_v := v |} :: l)) /\
     rep w' h t rows' fk fv /\ w_val w' = freed_vals (w_val w) (c_v c)) \/
  ((forall d, In d (concat rows) -> hits key d = false) /\ arg_hashtable_change hashfn eqfn w h key v = Ok (w, false)).
Proof.
  intros R. unfold arg_hashtable_change.
  destruct (find_in_ok w h t rows fk (optl v ++ fv) key R) as [(P & pre & c & post & Q & E & H1 & H2 & F)|(H1 & i & F)]; rewrite F; cbn [bind].
  2:{ right. auto. }
  left. subst rows.
  destruct (buckets_split _ _ _ _ _ (r_b _ _ _ _ _ _ R)) as (P' & x & Q' & ET & LP & FP & C & FQ).
  destruct (chain_at _ _ _ _ _ C) as (nx & En & CP).
  rewrite (sread_ok _ _ _ En). cbn [bind node_of n_next n_k n_v n_h].
  set (c' := {| c_id := c_id c; c_k := c_k c; c_key := c_key c; c_v := v |}).
  pose proof (perm_mid P Q pre c post) as PM. pose proof (perm_mid P Q pre c' post) as PM'.
  destruct (sfree_opt_ok (w_val w) (c_v c) (vids (concat (P ++ (pre ++ c :: post) :: Q)) ++ optl v ++ fv)
              (vids (concat (P ++ (pre ++ c' :: post) :: Q)) ++ fv)) as (SV & OV').
  { apply (r_vs _ _ _ _ _ _ R). }
  { unfold vids. rewrite PM, PM'. cbn [flat_map]. change (vid c') with (optl v). change (vid c) with (optl (c_v c)).
    rewrite <- !app_assoc. apply Permutation_app_head. rewrite !app_assoc. apply Permutation_app_tail, Permutation_app_comm. }
  rewrite SV. cbn [bind].
  pose proof (r_ns _ _ _ _ _ _ R) as ON.
  assert (IC : In (c_id c) (map c_id (concat (P ++ (pre ++ c :: post) :: Q)))).
  { apply in_map, in_row_concat, in_or_app. right. now left. }
  rewrite (swrite_ok _ _ _ _ ON IC). cbn [bind].
  eexists _, c, (P ++ (pre ++ c' :: post) :: Q). split; [reflexivity|]. split; auto.
  split; [eauto|]. split; [|reflexivity].
  assert (EZ : zlen (P ++ (pre ++ c' :: post) :: Q) = zlen (P ++ (pre ++ c :: post) :: Q)) by (rewrite !zlen_app, !zlen_cons; auto).
  assert (NID : ~ In (c_id c) (map c_id (concat (P ++ (pre ++ post) :: Q)))).
  { pose proof (proj1 ON) as ND. apply (Permutation_NoDup (Permutation_map c_id PM)) in ND. cbn [map] in ND. now inversion ND. }
  rewrite concat_mid, !map_app, !in_app_iff in NID.
  assert (FR : forall nd d, ~ In (c_id c) (map c_id d) ->
            forall y, In y d -> sget (sput (w_node w) (c_id c) (Some nd)) (c_id y) = sget (w_node w) (c_id y)).
  { intros nd d ND' y I. apply sget_put_neq. intros Q1. apply ND'. rewrite <- Q1. now apply in_map. }
  constructor; cbn [t_len t_tab t_count t_load t_prime set_count w_ht w_tab w_node w_key w_val up_ht up_tab up_node up_key up_val].
  - apply (r_h _ _ _ _ _ _ R).
  - apply (r_hs _ _ _ _ _ _ R).
  - apply (r_ts _ _ _ _ _ _ R).
  - exists (P' ++ x :: Q'). split; auto. cbn [w_node up_node]. apply Forall2_app; [|constructor].
    + eapply chains_frame; [exact FP|]. apply FR. tauto.
    + assert (NR : ~ In (c_id c) (map c_id pre) /\ ~ In (c_id c) (map c_id post)) by tauto.
      apply (chain_replace (w_node w) pre c c' post nx x); auto; apply NR.
    + eapply chains_frame; [exact FQ|]. apply FR. tauto.
  - assert (EM : map c_id (concat (P ++ (pre ++ c' :: post) :: Q)) = map c_id (concat (P ++ (pre ++ c :: post) :: Q))).
    { rewrite !concat_mid, !map_app. reflexivity. }
    rewrite EM. apply owns_put; auto.
  - assert (EM : map c_k (concat (P ++ (pre ++ c' :: post) :: Q)) = map c_k (concat (P ++ (pre ++ c :: post) :: Q))).
    { rewrite !concat_mid, !map_app. reflexivity. }
    rewrite EM. apply (r_ks _ _ _ _ _ _ R).
  - exact OV'.
  - intros d I. apply (Permutation_in _ PM') in I. destruct I as [<-|I].
    + cbn [c_k c_key c']. apply (r_keys _ _ _ _ _ _ R c). apply in_row_concat, in_or_app. right. now left.
    + apply (r_keys _ _ _ _ _ _ R). apply (Permutation_in _ (Permutation_sym PM)). now right.
  - rewrite EZ. apply (r_len _ _ _ _ _ _ R).
  - rewrite EZ. pose proof (r_bk _ _ _ _ _ _ R) as BK. rewrite bucket_ok_app in *.
    destruct BK as (X1 & X2 & X3). split; auto. split; auto.
    intros d I. rewrite in_app_iff in I. destruct I as [I|[<-|I]].
    + apply X2. apply in_or_app. auto.
    + change (hv c') with (hv c). apply X2. apply in_or_app. right. now left.
    + apply X2. apply in_or_app. right. now right.
  - rewrite (r_count _ _ _ _ _ _ R), (zlen_perm _ _ PM), (zlen_perm _ _ PM'), !zlen_cons. auto.
  - apply (r_prime _ _ _ _ _ _ R).
  - apply (r_load _ _ _ _ _ _ R).
  - apply (r_full _ _ _ _ _ _ R).
Qed.

(** ** Destruction *)
Lemma destroy_chain_ok b F fk fv row : forall fuel (w : W) e,
  chain (w_node w) e row -> (length row < fuel)%nat ->
  owns (w_node w) (map c_id row ++ F) -> owns (w_key w) (map c_k row ++ fk) ->
  (b = true -> owns (w_val w) (vids row ++ fv)) ->
  exists w', destroy_chain fuel w b e = Ok w' /\ w_ht w' = w_ht w /\ w_tab w' = w_tab w /\
    owns (w_node w') F /\ (forall i, In i F -> sget (w_node w') i = sget (w_node w) i) /\
    snext (w_node w') = snext (w_node w) /\ owns (w_key w') fk /\
    (b = true -> owns (w_val w') fv) /\ (b = false -> w_val w' = w_val w).
Proof.
  induction row as [|c row IH]; intros fuel w e C HF ON OK OV; (destruct fuel as [|fuel]; [cbn in HF; lia|]); cbn [destroy_chain chain] in *.
  - subst e. exists w. do 9 (split; auto).
  - destruct C as (-> & nx & En & C). rewrite (sread_ok _ _ _ En). cbn [bind node_of n_k n_v n_next map app] in *.
    destruct (owns_del (w_key w) _ (map c_k row ++ fk) (c_k c) OK) as (SK & OK'); [reflexivity|]. rewrite SK. cbn [bind].
    assert (SV : exists vs, (if b then sfree_opt (w_val w) (c_v c) else Ok (w_val w)) = Ok vs /\
       (b = true -> owns vs (vids row ++ fv)) /\ (b = false -> vs = w_val w)).
    { destruct b.
      - destruct (sfree_opt_ok (w_val w) (c_v c) _ (vids row ++ fv) (OV eq_refl)) as (SV & OV').
        + unfold vids. cbn [flat_map]. rewrite <- app_assoc. reflexivity.
        + rewrite SV. eexists. split; [reflexivity|]. split; auto. discriminate.
      - eexists. split; [reflexivity|]. split; auto. discriminate. }
    destruct SV as (vs & -> & OV1 & OV2). cbn [bind].
    destruct (owns_del (w_node w) _ (map c_id row ++ F) (c_id c) ON) as (SN & ON'); [reflexivity|]. rewrite SN. cbn [bind].
    pose proof (proj1 ON) as ND. cbn [map app] in ND. inversion ND as [|? ? NI ND']; subst. rewrite in_app_iff in NI.
    set (w1 := up_node _ _).
    destruct (IH fuel w1 nx) as (w' & X & Y1 & Y2 & Y3 & Y4 & Y5 & Y6 & Y7 & Y8); auto.
    + eapply chain_frame; [exact C|]. intros d I. apply sget_put_neq. intros Q. apply NI. left. rewrite <- Q. now apply in_map.
    + cbn in HF. lia.
    + exists w'. split; [exact X|]. split; auto. split; auto. split; auto. split; [|split; [|split; [|split]]]; auto.
      * intros i I. rewrite Y4 by auto. apply sget_put_neq. intros ->. auto.
      * intros E. rewrite Y8 by auto. cbn. auto.
Qed.

Lemma destroy_loop_ok b a fk fv : forall B P' Q' (w : W),
  sget (w_tab w) a = Some (P' ++ Q') -> Forall2 (chain (w_node w)) Q' B ->
  (length (concat B) <= snext (w_node w))%nat ->
  owns (w_node w) (map c_id (concat B)) -> owns (w_key w) (map c_k (concat B) ++ fk) ->
  (b = true -> owns (w_val w) (vids (concat B) ++ fv)) ->
  exists w', destroy_loop (length B) w b a (zlen P') = Ok w' /\ w_ht w' = w_ht w /\ w_tab w' = w_tab w /\
    owns (w_node w') [] /\ owns (w_key w') fk /\
    (b = true -> owns (w_val w') fv) /\ (b = false -> w_val w' = w_val w).
Proof.
  induction B as [|row B IH]; intros P' Q' w ET FQ HL ON OK OV; cbn [length destroy_loop].
  - exists w. do 9 (split; auto).
  - inversion FQ as [|x row' Q1 B' C FQ1]; subst.
    unfold bget at 1. rewrite (sread_ok _ _ _ ET). cbn [bind]. rewrite aget_app. cbn [bind].
    cbn [concat] in *. rewrite map_app in ON, OK. rewrite <- app_assoc in OK.
    destruct (destroy_chain_ok b (map c_id (concat B)) (map c_k (concat B) ++ fk) (vids (concat B) ++ fv) row (fuel_of w) w x)
      as (w1 & X & Y1 & Y2 & Y3 & Y4 & Y5 & Y6 & Y7 & Y8); auto.
    + unfold fuel_of. rewrite app_length in HL. lia.
    + intros E. specialize (OV E). unfold vids in *. now rewrite flat_map_app, <- app_assoc in OV.
    + rewrite X. cbn [bind].
      destruct (IH (P' ++ [x]) Q1 w1) as (w2 & Z0 & Z1 & Z2 & Z3 & Z4 & Z5 & Z6); auto.
      * rewrite Y2, <- app_assoc. exact ET.
      * eapply chains_frame; [exact FQ1|]. intros c I. apply Y4. now apply in_map.
      * rewrite Y5. rewrite app_length in HL. lia.
      * rewrite zlen_app in Z0. change (zlen [x]) with 1 in Z0.
        exists w2. split; [exact Z0|]. split; [congruence|]. split; [congruence|]. do 3 (split; auto).
        intros E. rewrite Z6, Y8; auto.
Qed.

Lemma destroy_ok w h t rows fk fv b : rep w h t rows fk fv ->
  exists w', arg_hashtable_destroy w h b = Ok w' /\
    owns (w_ht w') [] /\ owns (w_tab w') [] /\ owns (w_node w') [] /\ owns (w_key w') fk /\
    (b = true -> owns (w_val w') fv) /\ (b = false -> w_val w' = w_val w).
Proof.
  intros R. unfold arg_hashtable_destroy. rewrite (sread_ok _ _ _ (r_h _ _ _ _ _ _ R)). cbn [bind].
  destruct (r_b _ _ _ _ _ _ R) as (arr & ET & F).
  destruct (destroy_loop_ok b (t_tab t) fk fv rows [] arr w) as (w1 & X & Y1 & Y2 & Y3 & Y4 & Y5 & Y6); auto.
  - rewrite <- (map_length c_id). apply owns_length. apply (r_ns _ _ _ _ _ _ R).
  - apply (r_ns _ _ _ _ _ _ R).
  - apply (r_ks _ _ _ _ _ _ R).
  - intros _. apply (r_vs _ _ _ _ _ _ R).
  - rewrite (r_len _ _ _ _ _ _ R). unfold zlen at 1. rewrite Nat2Z.id. change (zlen []) with 0 in X. rewrite X. cbn [bind].
    destruct (owns_del (w_tab w1) [t_tab t] [] (t_tab t)) as (ST & OT). { rewrite Y2. apply (r_ts _ _ _ _ _ _ R). } { reflexivity. }
    rewrite ST. cbn [bind].
    destruct (owns_del (w_ht w1) [h] [] h) as (SH & OH). { rewrite Y1. apply (r_hs _ _ _ _ _ _ R). } { reflexivity. }
    rewrite SH. cbn [bind]. eexists. split; [reflexivity|].
    cbn [w_ht w_tab w_node w_key w_val up_ht up_tab]. split; [exact OH|]. split; [exact OT|]. split; [exact Y3|]. split; [exact Y4|].
    split; auto.
Qed.

(** ** Iterators *)
Definition at_it (h : nat) (rows : list (list cell)) (it : itr) (rest : list cell) : Prop :=
  i_h it = h /\
  match i_e it with
  | None => rest = []
  | Some e => exists P pre c post Q, rows = P ++ (pre ++ c :: post) :: Q /\ e = c_id c /\
      i_parent it = last_id None pre /\ i_index it = zlen P /\ rest = c :: post ++ concat Q
  end.

Lemma next_bucket_ok (w : W) a : forall Q P, buckets w a (P ++ Q) ->
  (concat Q = [] /\ next_bucket (length Q) w a (zlen P) = Ok None) \/
  (exists E c post Q', Q = E ++ (c :: post) :: Q' /\ concat E = [] /\
     next_bucket (length Q) w a (zlen P) = Ok (Some (zlen P + zlen E, c_id c))).
Proof.
  induction Q as [|row Q IH]; intros P B; cbn [length next_bucket].
  - left. auto.
  - destruct (bget_ok _ _ _ _ _ B) as (e & G & C). rewrite G. cbn [bind].
    destruct row as [|c post].
    + cbn [chain] in C. subst e. specialize (IH (P ++ [[]])). rewrite <- app_assoc in IH. specialize (IH B).
      rewrite zlen_app in IH. change (zlen [[]]) with 1 in IH.
      destruct IH as [(E & X)|(E & c & post & Q' & -> & CE & X)].
      * left. auto.
      * right. exists ([] :: E), c, post, Q'. split; auto. split; auto. rewrite X, zlen_cons. do 3 f_equal. lia.
    + right. destruct C as (-> & _). exists [], c, post, Q. split; auto. split; auto.
      change (zlen (@nil (list cell))) with 0. now rewrite Z.add_0_r.
Qed.

Lemma itr_create_ok w h t rows fk fv : rep w h t rows fk fv ->
  exists it, arg_hashtable_itr_create w h = Ok it /\ at_it h rows it (concat rows).
Proof.
  intros R. unfold arg_hashtable_itr_create. rewrite (sread_ok _ _ _ (r_h _ _ _ _ _ _ R)). cbn [bind].
  rewrite (r_count _ _ _ _ _ _ R).
  destruct (Z.eqb_spec (zlen (concat rows)) 0) as [E|NE].
  - eexists. split; [reflexivity|]. split; auto. cbn. destruct (concat rows); auto. rewrite zlen_cons in E.
    pose proof (zlen_nonneg l). lia.
  - rewrite (r_len _ _ _ _ _ _ R). unfold zlen at 1. rewrite Nat2Z.id.
    destruct (next_bucket_ok w (t_tab t) rows [] (r_b _ _ _ _ _ _ R)) as [(E & X)|(E & c & post & Q' & EQ & CE & X)].
    + rewrite E in NE. now elim NE.
    + change (zlen (@nil (list cell))) with 0 in X. rewrite X. cbn [bind]. eexists. split; [reflexivity|].
      split; auto. cbn [i_e i_parent i_index]. exists E, [], c, post, Q'. split; auto. split; auto. split; auto. split; auto.
      rewrite EQ, concat_mid, CE. reflexivity.
Qed.

Lemma advance_gen (w : W) h t P row Q e nd post par :
  sget (w_ht w) h = Some t -> t_len t = zlen (P ++ row :: Q) -> buckets w (t_tab t) (P ++ row :: Q) ->
  sget (w_node w) e = Some nd -> chain (w_node w) (n_next nd) post ->
  exists it ret, arg_hashtable_itr_advance w {| i_h := h; i_e := Some e; i_parent := par; i_index := zlen P |} = Ok (it, ret) /\
    i_h it = h /\
    ((exists d post', post = d :: post' /\ ret = true /\ i_e it = Some (c_id d) /\ i_parent it = Some e /\ i_index it = zlen P) \/
     (post = [] /\ concat Q = [] /\ ret = false /\ i_e it = None /\ i_parent it = None) \/
     (post = [] /\ ret = true /\ exists E d post' Q', Q = E ++ (d :: post') :: Q' /\ concat E = [] /\
        i_e it = Some (c_id d) /\ i_parent it = None /\ i_index it = zlen (P ++ row :: E))).
Proof.
  intros EH EL B En C. unfold arg_hashtable_itr_advance. cbn [i_e i_h i_index].
  rewrite (sread_ok _ _ _ En). cbn [bind]. destruct post as [|d post]; cbn [chain] in C.
  - rewrite C. rewrite (sread_ok _ _ _ EH). cbn [bind]. rewrite EL.
    assert (ZL : zlen (P ++ row :: Q) = zlen P + 1 + zlen Q) by (rewrite zlen_app, zlen_cons; lia).
    pose proof (zlen_nonneg Q) as ZQ. rewrite ZL.
    destruct (Z.leb_spec (zlen P + 1 + zlen Q) (zlen P + 1)).
    + eexists _, _. split; [reflexivity|]. split; auto. right. left. cbn.
      assert (Q = []) by (destruct Q; auto; rewrite zlen_cons in *; pose proof (zlen_nonneg Q); lia). subst Q. auto.
    + replace (zlen P + 1 + zlen Q - (zlen P + 1)) with (zlen Q) by lia.
      replace (Z.to_nat (zlen Q)) with (length Q) by (unfold zlen; lia).
      assert (B' : buckets w (t_tab t) ((P ++ [row]) ++ Q)) by (rewrite <- app_assoc; exact B).
      pose proof (next_bucket_ok w (t_tab t) Q (P ++ [row]) B') as X.
      rewrite zlen_app in X. change (zlen [row]) with 1 in X.
      destruct X as [(CE & X)|(E & c & post & Q' & EQ & CE & X)]; rewrite X; cbn [bind].
      * eexists _, _. split; [reflexivity|]. split; auto. right. left. auto.
      * eexists _, _. split; [reflexivity|]. split; auto. right. right. split; auto. split; auto.
        exists E, c, post, Q'. cbn [i_e i_parent i_index]. split; auto. split; auto. split; auto. split; auto.
        rewrite zlen_app, zlen_cons. lia.
  - destruct C as (-> & _). eexists _, _. split; [reflexivity|]. split; auto. left. exists d, post. auto.
Qed.

Lemma itr_eta it : it = {| i_h := i_h it; i_e := i_e it; i_parent := i_parent it; i_index := i_index it |}.
Proof. now destruct it. Qed.

Lemma advance_ok w h t rows fk fv it c rest : rep w h t rows fk fv -> at_it h rows it (c :: rest) ->
  exists it' ret, arg_hashtable_itr_advance w it = Ok (it', ret) /\ at_it h rows it' rest /\
    (ret = true <-> rest <> []) /\ i_e it = Some (c_id c) /\ exists nx, sget (w_node w) (c_id c) = Some (node_of c nx).
Proof.
  intros R (EH & A). destruct (i_e it) as [e|] eqn:EE; [|discriminate].
  destruct A as (P & pre & c' & post & Q & ER & -> & EP & EI & EQ). inversion EQ; subst c' rest. clear EQ.
  rewrite ER in R.
  destruct (buckets_split _ _ _ _ _ (r_b _ _ _ _ _ _ R)) as (P' & x & Q' & ET & LP & FP & C & FQ).
  destruct (chain_at _ _ _ _ _ C) as (nx & En & CP).
  destruct (advance_gen w h t P (pre ++ c :: post) Q (c_id c) (node_of c nx) post (i_parent it)
              (r_h _ _ _ _ _ _ R) (r_len _ _ _ _ _ _ R) (r_b _ _ _ _ _ _ R) En CP) as (it' & ret & X & IH & D).
  rewrite (itr_eta it), EH, EE, EI. rewrite X. exists it', ret. split; auto.
  destruct D as [(d & post' & -> & -> & E1 & E2 & E3)|[(-> & CQ & -> & E1 & E2)|(-> & -> & E & d & post' & Q'' & -> & CE & E1 & E2 & E3)]].
  - split; [|split; [|eauto]].
    + split; auto. rewrite E1. exists P, (pre ++ [c]), d, post', Q. rewrite ER, E2, E3, <- app_assoc, last_id_app. auto.
    + cbn. split; auto. congruence.
  - split; [|split; [|eauto]].
    + split; auto. now rewrite E1.
    + cbn [app]. rewrite CQ. split; congruence.
  - split; [|split; [|eauto]].
    + split; auto. rewrite E1. exists (P ++ (pre ++ [c]) :: E), [], d, post', Q''.
      rewrite ER, E2, E3, <- app_assoc, concat_mid, CE. auto.
    + cbn [app]. rewrite concat_mid, CE. cbn. split; auto. congruence.
Qed.

Lemma itr_remove_ok w h t rows fk fv it c rest : rep w h t rows fk fv -> at_it h rows it (c :: rest) ->
  exists w' it' ret t' rows' before, arg_hashtable_itr_remove w it = Ok (w', it', ret) /\
    concat rows = before ++ c :: rest /\ concat rows' = before ++ rest /\
    rep w' h t' rows' fk fv /\ at_it h rows' it' rest /\ (ret = true <-> rest <> []) /\
    t_len t' = t_len t /\ w_val w' = freed_vals (w_val w) (c_v c).
Proof.
  intros R (EH & A). destruct (i_e it) as [e|] eqn:EE; [|discriminate].
  destruct A as (P & pre & c' & post & Q & ER & -> & EP & EI & EQ). inversion EQ; subst c' rest. clear EQ.
  rewrite ER in R.
  destruct (drop_ok _ _ _ _ _ _ _ _ _ _ R) as (w1 & nx & En & UL & SH & SW & SK & SV & SN & EV & En1 & C1 & B1 & R').
  unfold arg_hashtable_itr_remove. rewrite EE. rewrite (sread_ok _ _ _ En). cbn [bind node_of n_next n_k n_v].
  rewrite EH, (sread_ok _ _ _ (r_h _ _ _ _ _ _ R)). cbn [bind]. rewrite EP, EI, UL. cbn [bind].
  rewrite SH. cbn [bind]. rewrite SW. cbn [bind]. rewrite SK. cbn [bind]. rewrite SV. cbn [bind].
  change (up_val _ _) with (drop1 w1 h t c).
  assert (EZ : zlen (P ++ (pre ++ post) :: Q) = zlen (P ++ (pre ++ c :: post) :: Q)) by (rewrite !zlen_app, !zlen_cons; auto).
  destruct (advance_gen (drop1 w1 h t c) h (set_count t (t_count t - 1)) P (pre ++ post) Q (c_id c) (node_of c nx) post (i_parent it))
    as (it' & ret & X & IH & D); auto.
  - apply (r_h _ _ _ _ _ _ R').
  - rewrite EZ. apply (r_len _ _ _ _ _ _ R).
  - rewrite (itr_eta it), EH, EE, EI, X. cbn [bind].
    change (w_node (drop1 w1 h t c)) with (w_node w1). rewrite SN. cbn [bind].
    assert (CC : concat rows = (concat P ++ pre) ++ c :: post ++ concat Q).
    { rewrite ER, concat_mid, <- !app_assoc. reflexivity. }
    assert (CC' : concat (P ++ (pre ++ post) :: Q) = (concat P ++ pre) ++ post ++ concat Q).
    { rewrite concat_mid, <- !app_assoc. reflexivity. }
    assert (EV' : w_val (up_node (drop1 w1 h t c) (sput (w_node w1) (c_id c) None)) = freed_vals (w_val w) (c_v c)).
    { cbn. now rewrite EV. }
    destruct D as [(d & post' & -> & -> & E1 & E2 & E3)|[(-> & CQ & -> & E1 & E2)|(-> & -> & E & d & post' & Q'' & -> & CE & E1 & E2 & E3)]].
    + rewrite E2. cbn [onat_eqb]. rewrite Nat.eqb_refl.
      eexists _, _, _, _, _, (concat P ++ pre). split; [reflexivity|]. split; auto. split; [exact CC'|]. split; [exact R'|].
      split; [|split; [|split; auto]].
      * split; auto. cbn [i_e]. rewrite E1. exists P, pre, d, post', Q. cbn [i_parent i_index]. rewrite E3. auto.
      * cbn. split; auto. congruence.
    + rewrite E2. cbn [onat_eqb].
      eexists _, _, _, _, _, (concat P ++ pre). split; [reflexivity|]. split; auto. split; [exact CC'|]. split; [exact R'|].
      split; [|split; [|split; auto]].
      * split; auto. now rewrite E1.
      * cbn [app]. rewrite CQ. split; congruence.
    + rewrite E2. cbn [onat_eqb].
      eexists _, _, _, _, _, (concat P ++ pre). split; [reflexivity|]. split; auto. split; [exact CC'|]. split; [exact R'|].
      split; [|split; [|split; auto]].
      * split; auto. rewrite E1. exists (P ++ (pre ++ []) :: E), [], d, post', Q''.
        rewrite E2, E3, <- app_assoc, concat_mid, CE. auto.
      * cbn [app]. rewrite concat_mid, CE. cbn. split; auto. congruence.
Qed.

Lemma itr_search_ok w h t rows fk fv it key : rep w h t rows fk fv ->
  (exists it' c rest, arg_hashtable_itr_search hashfn eqfn w it h key = Ok (it', true) /\ hits key c = true /\
     at_it h rows it' (c :: rest)) \/
  ((forall d, In d (concat rows) -> hits key d = false) /\ arg_hashtable_itr_search hashfn eqfn w it h key = Ok (it, false)).
Proof.
  intros R. unfold arg_hashtable_itr_search.
  destruct (find_in_ok w h t rows fk fv key R) as [(P & pre & c & post & Q & E & H1 & H2 & F)|(H1 & i & F)]; rewrite F; cbn [bind].
  - left. eexists _, c, (post ++ concat Q). split; [reflexivity|]. split; auto. split; auto. cbn [i_e i_parent i_index].
    exists P, pre, c, post, Q. auto.
  - right. auto.
Qed.
End Hash.
