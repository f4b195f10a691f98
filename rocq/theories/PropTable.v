(** C44 and C45: checking and freeing argument tables. *)
From Coq Require Import ZArith List Bool Lia.
From Verif Require Import Base TableModel.
Import ListNotations.
Open Scope Z_scope.

(** ** Specification *)
(** Slot [i] holds NULL, an entry, the terminator. *)
Definition null_at (t : slots) (i : nat) : Prop := nth_error t i = Some None.
Definition end_at (m : heap) (t : slots) (i : nat) : Prop := exists b, nth_error t i = Some (Some b) /\ m b = Some true.
(** The blocks that the slots point to. *)
Fixpoint blocks (t : slots) : list nat :=
  match t with [] => [] | None :: t' => blocks t' | Some b :: t' => b :: blocks t' end.
Definition alive (m : heap) (t : slots) : Prop := forall b, In b (blocks t) -> m b <> None.
(** Memory [m'] is [m] with exactly the blocks [l] released. *)
Definition released (m m' : heap) (l : list nat) : Prop := forall b, m' b = if in_dec Nat.eq_dec b l then None else m b.

Lemma alive_tl m x t : alive m (x :: t) -> alive m t.
Proof. intros A b I. apply A. destruct x; [right|]; exact I. Qed.

(** ** C44 *)
(** The entries may be used up to the terminator, which there is unless a NULL comes first. *)
Theorem C44_nullcheck : forall m t, alive m t -> (exists i, null_at t i \/ end_at m t i) ->
  exists r, arg_nullcheck m (Some t) = Ok r /\
    (r = 1 <-> exists i, null_at t i /\ forall j, (j < i)%nat -> ~ end_at m t j) /\
    (r = 0 <-> exists i, end_at m t i /\ forall j, (j <= i)%nat -> ~ null_at t j) /\
    (r = 0 \/ r = 1).
Proof.
  intros m t. cbn [arg_nullcheck]. induction t as [|[b|] t IH]; intros A E.
  - destruct E as [[|i] [H|(b & H & _)]]; discriminate.
  - cbn [nullcheck_loop]. unfold is_terminator. destruct (m b) as [[|]|] eqn:B; cbn [bind].
    + exists 0. split; [reflexivity|]. split; [|split; [|auto]].
      * split; [discriminate|]. intros (i & N & F). exfalso. destruct i as [|i]; [discriminate|].
        apply (F 0%nat); [lia|]. exists b. auto.
      * split; [intros _|auto]. exists 0%nat. split; [exists b; auto|]. intros j J. replace j with 0%nat by lia. discriminate.
    + destruct IH as (r & R & R1 & R0 & RR); [exact (alive_tl _ _ _ A)| |].
      { destruct E as [i [N|(b' & N & T)]]; destruct i as [|i]; cbn in N; try discriminate.
        - exists i. left. exact N.
        - injection N as <-. congruence.
        - exists i. right. exists b'. auto. }
      exists r. split; [exact R|]. split; [|split; [|exact RR]].
      * rewrite R1. split.
        -- intros (i & N & F). exists (S i). split; [exact N|]. intros [|j] J (b' & N' & T); cbn in N'; [injection N' as <-; congruence|].
           apply (F j); [lia|]. exists b'. auto.
        -- intros (i & N & F). destruct i as [|i]; [discriminate|]. exists i. split; [exact N|]. intros j J (b' & N' & T).
           apply (F (S j)); [lia|]. exists b'. auto.
      * rewrite R0. split.
        -- intros (i & (b' & N & T) & F). exists (S i). split; [exists b'; auto|]. intros [|j] J; [discriminate|]. apply F. lia.
        -- intros (i & (b' & N & T) & F). destruct i as [|i]; [cbn in N; injection N as <-; congruence|]. exists i. split; [exists b'; auto|].
           intros j J. apply (F (S j)). lia.
    + exfalso. apply (A b); [left; reflexivity|exact B].
  - exists 1. split; [reflexivity|]. split; [|split; [|auto]].
    + split; [intros _|auto]. exists 0%nat. split; [reflexivity|]. intros j J. lia.
    + split; [discriminate|]. intros (i & _ & F). exfalso. apply (F 0%nat); [lia|reflexivity].
Qed.
Theorem C44_null_table : forall m, arg_nullcheck m None = Ok 1.
Proof. reflexivity. Qed.

(** ** C45 *)
Lemma released_cons m m1 m2 b l : release m b = Ok m1 -> released m1 m2 l -> released m m2 (b :: l).
Proof.
  unfold release. destruct (m b); [|discriminate]. intros [= <-] R x. rewrite (R x). destruct (in_dec Nat.eq_dec x l) as [I|I], (in_dec Nat.eq_dec x (b :: l)) as [J|J]; auto.
  - exfalso. apply J. right. exact I.
  - destruct (Nat.eqb_spec x b) as [E|E]; [reflexivity|]. destruct J as [J|J]; congruence.
  - destruct (Nat.eqb_spec x b) as [E|E]; [|reflexivity]. exfalso. apply J. left. congruence.
Qed.
Lemma released_nil m : released m m [].
Proof. intros b. destruct (in_dec Nat.eq_dec b []) as [[]|]; reflexivity. Qed.
Lemma alive_release m m1 b t : release m b = Ok m1 -> ~ In b (blocks t) -> alive m t -> alive m1 t.
Proof.
  unfold release. destruct (m b); [|discriminate]. intros [= <-] N A x I. destruct (Nat.eqb_spec x b) as [E|E]; [congruence|exact (A x I)].
Qed.
Lemma release_ok m b : m b <> None -> exists m1, release m b = Ok m1.
Proof. unfold release. destruct (m b); [eauto|congruence]. Qed.

(** arg_freetable: everything that the first [n] slots point to is released, once (a second time would be undefined), nothing
    else; these slots become NULL and the others are not touched. *)
Theorem C45_freetable : forall m t n, (n <= List.length t)%nat -> NoDup (blocks (firstn n t)) -> alive m (firstn n t) ->
  exists m', arg_freetable m t n = Ok (m', repeat None n ++ skipn n t) /\ released m m' (blocks (firstn n t)).
Proof.
  intros m t n. revert m t. induction n as [|n IH]; intros m t L ND A.
  - exists m. split; [reflexivity|apply released_nil].
  - destruct t as [|[b|] t]; cbn [List.length] in L; [lia|..]; cbn [firstn blocks] in *; cbn [arg_freetable].
    + apply NoDup_cons_iff in ND as [N ND].
      destruct (release_ok m b) as [m1 R]; [apply A; left; reflexivity|]. rewrite R. cbn [bind].
      destruct (IH m1 t) as (m' & E & RL); [lia|exact ND|exact (alive_release _ _ _ _ R N (alive_tl _ _ _ A))|].
      rewrite E. cbn [bind]. exists m'. split; [reflexivity|]. exact (released_cons _ _ _ _ _ R RL).
    + destruct (IH m t) as (m' & E & RL); [lia|exact ND|exact (alive_tl _ _ _ A)|]. rewrite E. cbn [bind]. exists m'. split; [reflexivity|exact RL].
Qed.
(** A second call does nothing. *)
Theorem C45_freetable_twice : forall m m' t t' n, arg_freetable m t n = Ok (m', t') -> arg_freetable m' t' n = Ok (m', t').
Proof.
  intros m m' t t' n. revert m m' t t'. induction n as [|n IH]; intros m m' t t' H; cbn [arg_freetable] in H; [injection H as <- <-; reflexivity|].
  destruct t as [|[b|] t]; [discriminate|..].
  - apply bind_ok in H as (m1 & _ & H). apply bind_ok in H as ([m2 t2] & H2 & H). injection H as <- <-. cbn [arg_freetable]. rewrite (IH _ _ _ _ H2). reflexivity.
  - apply bind_ok in H as ([m2 t2] & H2 & H). injection H as <- <-. cbn [arg_freetable]. rewrite (IH _ _ _ _ H2). reflexivity.
Qed.

(** arg_free: only up to the terminator, or to the first NULL. [n] entries come before that slot. *)
Theorem C45_free : forall m t n, (n < List.length t)%nat ->
  (forall i, (i < n)%nat -> ~ null_at t i /\ ~ end_at m t i) -> (null_at t n \/ end_at m t n) ->
  NoDup (blocks (firstn (S n) t)) -> alive m (firstn (S n) t) ->
  exists m', arg_free m t = Ok (m', repeat None (S n) ++ skipn (S n) t) /\ released m m' (blocks (firstn (S n) t)).
Proof.
  intros m t n. revert m t. induction n as [|n IH]; intros m t L B E ND A; destruct t as [|[b|] t]; cbn [List.length] in L; try lia; cbn [arg_free].
  - destruct E as [E|(b' & E & T)]; [discriminate|]. injection E as <-. unfold is_terminator. rewrite T. cbn [bind].
    destruct (release_ok m b) as [m1 R]; [congruence|]. rewrite R. cbn [bind]. exists m1. split; [reflexivity|]. cbn [firstn blocks].
    exact (released_cons _ _ _ _ _ R (released_nil _)).
  - exists m. split; [reflexivity|]. apply released_nil.
  - assert (F : m b = Some false).
    { destruct (m b) as [[|]|] eqn:X; [|reflexivity|].
      - exfalso. apply (proj2 (B 0%nat ltac:(lia))). exists b. auto.
      - exfalso. apply (A b); [left; reflexivity|exact X]. }
    unfold is_terminator. rewrite F. cbn [bind]. change (firstn (S (S n)) (Some b :: t)) with (Some b :: firstn (S n) t) in *.
    cbn [blocks] in *. apply NoDup_cons_iff in ND as [N ND].
    destruct (release_ok m b) as [m1 R]; [congruence|]. rewrite R. cbn [bind].
    assert (M : forall x, x <> b -> m1 x = m x).
    { intros x X. unfold release in R. rewrite F in R. injection R as <-. destruct (Nat.eqb_spec x b); congruence. }
    assert (P : forall i b', nth_error t i = Some (Some b') -> (i <= n)%nat -> In b' (blocks (firstn (S n) t))).
    { clear. intros i b'. revert t n. induction i as [|i IH]; intros [|[x|] t] n H K; try discriminate; cbn in *.
      - injection H as ->. left. reflexivity.
      - right. destruct n as [|n]; [lia|]. apply IH; [exact H|lia].
      - destruct n as [|n]; [lia|]. apply IH; [exact H|lia]. }
    destruct (IH m1 t) as (m' & E' & RL); [lia| | |exact ND|exact (alive_release _ _ _ _ R N (alive_tl _ _ _ A))|].
    + intros i I. destruct (B (S i) ltac:(lia)) as [B1 B2]. split; [exact B1|]. intros (b' & N' & T). apply B2. exists b'. split; [exact N'|].
      rewrite <- M; [exact T|]. intros ->. apply N. eapply P; [exact N'|lia].
    + destruct E as [E|(b' & E & T)]; [left; exact E|]. right. exists b'. split; [exact E|]. cbn in E. rewrite M; [exact T|].
      intros ->. apply N. eapply P; [exact E|lia].
    + rewrite E'. cbn [bind]. exists m'. split; [reflexivity|]. exact (released_cons _ _ _ _ _ R RL).
  - exfalso. apply (proj1 (B 0%nat ltac:(lia))). reflexivity.
Qed.

(** ** Examples *)
(** Blocks 1 to 4, of which 4 is the terminator. *)
Definition ex_heap : heap := fun b => match b with 1%nat | 2%nat | 3%nat => Some false | 4%nat => Some true | _ => None end.
Example C44_case_full : arg_nullcheck ex_heap (Some [Some 1; Some 2; Some 4]%nat) = Ok 0.
Proof. reflexivity. Qed.
Example C44_case_missing : arg_nullcheck ex_heap (Some [Some 1; None; Some 4]%nat) = Ok 1.
Proof. reflexivity. Qed.
Example C44_case_after_end : arg_nullcheck ex_heap (Some [Some 1; Some 4; None]%nat) = Ok 0.
Proof. reflexivity. Qed.
Example C44_hypotheses : alive ex_heap [Some 1; None; Some 4]%nat /\ exists i, null_at [Some 1; None; Some 4]%nat i \/ end_at ex_heap [Some 1; None; Some 4]%nat i.
Proof.
  split; [|exists 1%nat; left; reflexivity]. intros b [<- | [<- | []]]; discriminate.
Qed.
Example C45_case : exists m, arg_freetable ex_heap [Some 1; None; Some 3; Some 4; Some 2]%nat 4 = Ok (m, [None; None; None; None; Some 2]%nat) /\
  m 1%nat = None /\ m 2%nat = Some false /\ m 3%nat = None /\ m 4%nat = None.
Proof. eexists. split; [reflexivity|]. repeat split; reflexivity. Qed.
Example C45_hypotheses : NoDup (blocks [Some 1; None; Some 3; Some 4]%nat) /\ alive ex_heap [Some 1; None; Some 3; Some 4]%nat.
Proof.
  split; [repeat constructor; cbn; intuition discriminate|]. intros b [<- | [<- | [<- | []]]]; discriminate.
Qed.
Example C45_case_free : exists m, arg_free ex_heap [Some 1; Some 4; Some 2]%nat = Ok (m, [None; None; Some 2]%nat) /\ m 1%nat = None /\ m 4%nat = None /\ m 2%nat = Some false.
Proof. eexists. split; [reflexivity|]. repeat split; reflexivity. Qed.

(** ** What does not hold *)
(** arg_free leaves the entries behind a NULL entry allocated (as its comment says). *)
Theorem C45_free_leaks_refuted : exists m t m' t' b, alive m t /\ NoDup (blocks t) /\ end_at m t (pred (List.length t)) /\
  arg_free m t = Ok (m', t') /\ In b (blocks t) /\ m' b <> None.
Proof.
  exists ex_heap, [Some 1; None; Some 4]%nat. eexists _, _, 4%nat.
  split; [exact (proj1 C44_hypotheses)|]. split; [repeat constructor; cbn; intuition discriminate|].
  split; [exists 4%nat; split; reflexivity|]. split; [reflexivity|]. split; [right; left; reflexivity|discriminate].
Qed.
(** An entry that stands in two slots is freed twice. *)
Theorem C45_shared_entry_refuted : exists m t, alive m t /\ arg_freetable m t (List.length t) = UB DoubleFree.
Proof.
  exists ex_heap, [Some 1; Some 1]%nat. split; [|reflexivity]. intros b [<- | [<- | []]]; discriminate.
Qed.

Print Assumptions C44_nullcheck.
Print Assumptions C44_null_table.
Print Assumptions C45_freetable.
Print Assumptions C45_freetable_twice.
Print Assumptions C45_free.
Print Assumptions C45_free_leaks_refuted.
Print Assumptions C45_shared_entry_refuted.
