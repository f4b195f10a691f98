(** DstrProofs: the dynamic string refines plain concatenation and owns exactly what it should. *)
From Coq Require Import ZArith List Ascii Bool Lia Permutation.
From Verif Require Import Base ParseModel MemModel DstrModel DstrSpec.
Import ListNotations.
Open Scope Z_scope.

(** ** Memory operations *)
Lemma rd_str_ext m m' p : mget m (fst p) = mget m' (fst p) -> rd_str m p = rd_str m' p.
Proof. intro H. unfold rd_str, rd, mblk. rewrite H. reflexivity. Qed.

Lemma rd_str_0 m b k s : mget m b = Some k -> scan0 (b_data k) = Some s -> rd_str m (b, 0) = Ok s.
Proof.
  intros H K. unfold rd_str, rd, mblk. cbn [fst snd]. rewrite H. cbn [bind].
  pose proof (zlen_nonneg (b_data k)).
  replace (0 <=? zlen (b_data k)) with true by (symmetry; apply Z.leb_le; lia).
  cbn [andb]. change (0 <=? 0) with true. cbn [andb bind].
  change (Z.to_nat 0) with 0%nat. cbn [skipn]. rewrite K. reflexivity.
Qed.

Lemma rd_str_alive m p s : rd_str m p = Ok s -> mget m (fst p) <> None.
Proof. unfold rd_str, rd, mblk. destruct (mget m (fst p)); cbn [bind]; congruence. Qed.

Lemma rd_str_cstr m p s : rd_str m p = Ok s -> cstr s.
Proof.
  unfold rd_str. destruct (rd m p) as [l|u|]; cbn [bind]; try discriminate.
  destruct (scan0 l) as [x|] eqn:E; [|discriminate]. intro H. injection H as <-.
  apply (scan0_some _ _ E).
Qed.

Lemma wr_ok m b k off s :
  mget m b = Some k -> 0 <= off -> off + zlen s <= zlen (b_data k) ->
  wr m (b, off) s = Ok (mset m b (Some {| b_heap := b_heap k;
     b_data := firstn (Z.to_nat off) (b_data k) ++ s ++ skipn (Z.to_nat off + List.length s) (b_data k) |})).
Proof.
  intros H A B. unfold wr, mblk. cbn [fst snd]. rewrite H. cbn [bind].
  destruct (Z.leb_spec 0 off); [|lia]. destruct (Z.leb_spec (off + zlen s) (zlen (b_data k))); [|lia]. reflexivity.
Qed.

Lemma memset0_ok m b k n :
  mget m b = Some k -> 0 <= n -> n = zlen (b_data k) ->
  memset0 m (b, 0) n = Ok (mset m b (Some {| b_heap := b_heap k; b_data := repeat NUL (Z.to_nat n) |})).
Proof.
  intros H A B. unfold memset0. rewrite (wr_ok m b k) ; auto; [|lia|].
  - do 4 f_equal. change (Z.to_nat 0) with 0%nat. cbn [firstn app plus].
    rewrite skipn_all2; [apply app_nil_r|]. rewrite repeat_length. unfold zlen in B. lia.
  - unfold zlen at 1. rewrite repeat_length. lia.
Qed.

Lemma xfree_ok m b k : mget m b = Some k -> b_heap k = true -> xfree m (b, 0) = Ok (mset m b None).
Proof. intros H K. unfold xfree. cbn [fst snd]. rewrite H, K. reflexivity. Qed.

Lemma c_int_ok z : INT_MIN <= z <= INT_MAX -> c_int z = Ok z.
Proof.
  intro H. unfold c_int, in_intb.
  destruct (Z.leb_spec INT_MIN z); [|lia]. destruct (Z.leb_spec z INT_MAX); [|lia]. reflexivity.
Qed.

Lemma strcpy_ok m d k src s :
  mget m d = Some k -> rd_str m src = Ok s -> fst src <> d -> zlen s + 1 <= zlen (b_data k) ->
  strcpy m (d, 0) src = Ok (mset m d (Some {| b_heap := b_heap k;
     b_data := s ++ NUL :: skipn (S (List.length s)) (b_data k) |})).
Proof.
  intros H R N L. unfold strcpy. rewrite R. cbn [bind].
  unfold overlap. cbn [fst]. replace (Nat.eqb d (fst src)) with false by (symmetry; apply Nat.eqb_neq; congruence).
  cbn [andb]. rewrite (wr_ok m d k); auto; [|lia|].
  - change (Z.to_nat 0) with 0%nat. cbn [firstn app plus]. rewrite app_length. cbn [List.length].
    rewrite <- app_assoc. replace (List.length s + 1)%nat with (S (List.length s)) by lia. reflexivity.
  - rewrite zlen_app. change (zlen [NUL]) with 1. lia.
Qed.

Lemma skipn_repeat {A} (x : A) n k : skipn n (repeat x k) = repeat x (k - n).
Proof.
  revert k. induction n as [|n IH]; intro k; cbn [skipn].
  - rewrite Nat.sub_0_r. reflexivity.
  - destruct k; cbn [repeat skipn]; [reflexivity|]. rewrite IH. reflexivity.
Qed.

Lemma scan0_zeros t k : cstr t -> (0 < k)%nat -> scan0 (t ++ repeat NUL k) = Some t.
Proof. intros H K. destruct k; [lia|]. cbn [repeat]. apply scan0_app. assumption. Qed.

(** Allocation *)
Lemma xmalloc_get junk m n : mget (fst (xmalloc junk m n)) (mnext m) = Some {| b_heap := true; b_data := fresh junk n |}.
Proof. cbn [xmalloc mnew fst mget]. rewrite Nat.eqb_refl. reflexivity. Qed.

(** ** What the dynamic string owns *)
Definition own (ds : dstr) : list nat :=
  (match d_free ds with FStatic => [] | _ => [fst (d_data ds)] end)
  ++ (match d_app ds with Some x => [x] | None => [] end).

Record live (m : mem) (L : list nat) : Prop := {
  live_iff : forall i, mget m i <> None <-> In i L;
  live_nodup : NoDup L;
  live_next : forall i, In i L -> (i < mnext m)%nat
}.

(** The release procedure to be called is the one of the specification. *)
Definition releasable (m : mem) (ds : dstr) (a : abs) : Prop :=
  match d_free ds with
  | FStatic => held a = None
  | FDynamic => (exists k, mget m (fst (d_data ds)) = Some k /\ b_heap k = true) /\ snd (d_data ds) = 0
                /\ exists t, held a = Some (FDynamic, t)
  | FProc n => exists t, held a = Some (FProc n, t) /\ rd_str m (d_data ds) = Ok t
  | FVolatile => False
  end.

Definition in_block (m : mem) (b : nat) (d : list ascii) : Prop := mget m b = Some {| b_heap := true; b_data := d |}.

Definition shape (m : mem) (ds : dstr) (a : abs) : Prop :=
  releasable m ds a /\
  match d_app ds with
  | None => d_size ds = 0
            /\ match text a with
               | Some t => rd_str m (d_data ds) = Ok t
               | None => d_free ds = FStatic
               end
  | Some x => d_free ds = FStatic /\ d_data ds = (x, 0)
              /\ exists t k, text a = Some t /\ cstr t /\ (0 < k)%nat /\ in_block m x (t ++ repeat NUL k)
                             /\ d_size ds = zlen t + Z.of_nat k /\ 0 <= d_used ds <= zlen t
  end.

Record Inv (m : mem) (ds : dstr) (a : abs) (F : list (nat * mblock)) : Prop := {
  i_live : live m (d_self ds :: own ds ++ map fst F);
  i_frame : forall b k, In (b, k) F -> mget m b = Some k;
  i_self : exists d, in_block m (d_self ds) d /\ zlen d = ARG_DSTR_SIZE + 1;
  i_log : mlog m = log a;
  i_shape : shape m ds a
}.

Lemma live_equiv m L L' : (forall i, In i L <-> In i L') -> NoDup L' -> live m L -> live m L'.
Proof.
  intros H N [A B C]. constructor; auto.
  - intro i. rewrite A. apply H.
  - intros i K. apply C. apply H. assumption.
Qed.

Lemma live_new m L h d : live m L -> live (fst (mnew m h d)) (mnext m :: L).
Proof.
  intros [A B C]. constructor; cbn [mnew fst mget mnext].
  - intro i. cbn [In]. destruct (Nat.eqb_spec i (mnext m)).
    + split; intros; [left; congruence|discriminate].
    + rewrite A. split; intros; [right; assumption|]. destruct H; [congruence|assumption].
  - constructor; [|assumption]. intro H. apply C in H. lia.
  - intros i [H|H]; [lia|]. apply C in H. lia.
Qed.

Lemma live_set m L b k : live m L -> In b L -> live (mset m b (Some k)) L.
Proof.
  intros [A B C] H. constructor; auto. intro i. destruct (Nat.eq_dec i b) as [->|E].
  - rewrite mget_mset_eq. split; [auto|discriminate].
  - rewrite mget_mset_neq by assumption. apply A.
Qed.

Lemma live_del m L b L' : live m L -> NoDup L' -> ~ In b L' -> (forall i, In i L <-> i = b \/ In i L') -> live (mset m b None) L'.
Proof.
  intros [A B C] N H K. constructor; auto.
  - intro i. destruct (Nat.eq_dec i b) as [->|E].
    + rewrite mget_mset_eq. split; [congruence|tauto].
    + rewrite mget_mset_neq by assumption. rewrite A, K. split; [intros [X|X]; congruence|auto].
  - intros i X. apply C. apply K. auto.
Qed.

Lemma live_log m L l : live m L -> live {| mget := mget m; mnext := mnext m; mlog := l |} L.
Proof. intros [A B C]. constructor; auto. Qed.

(** Giving back what is held. *)
Lemma release_ok m ds a :
  releasable m ds a -> mlog m = log a ->
  exists m', release m (d_free ds) (d_data ds) = Ok m' /\ mlog m' = give_back a /\ mnext m' = mnext m /\
    match d_free ds with
    | FStatic => m' = m
    | _ => forall i, mget m' i = if Nat.eqb i (fst (d_data ds)) then None else mget m i
    end.
Proof.
  intros H L. unfold releasable in H. unfold release, give_back.
  destruct (d_free ds) as [| | |n] eqn:F.
  - exists m. rewrite H. auto.
  - contradiction.
  - destruct H as [[k [A B]] [C [t D]]]. destruct (d_data ds) as [b off]. cbn [fst snd] in *. subst off.
    rewrite (xfree_ok m b k A B). exists (mset m b None). repeat split; auto.
    cbn [mlog mset]. rewrite L, D. reflexivity.
  - destruct H as [t [A B]]. rewrite B. cbn [bind]. rewrite A.
    eexists. split; [reflexivity|]. cbn [mlog mnext mget mset]. rewrite L. auto.
Qed.

Lemma releasable_ext m m' ds a :
  releasable m ds a -> (d_free ds <> FStatic -> mget m' (fst (d_data ds)) = mget m (fst (d_data ds))) -> releasable m' ds a.
Proof.
  unfold releasable. intros H E. destruct (d_free ds) as [| | |n]; auto.
  - rewrite E by discriminate. assumption.
  - destruct H as [t [A B]]. exists t. split; auto. rewrite <- B. apply rd_str_ext. apply E. discriminate.
Qed.

Lemma nodup_swap {A} (x y : A) L : NoDup (x :: y :: L) -> NoDup (y :: x :: L).
Proof.
  intro H. inversion H as [|a b C D]; subst. inversion D as [|a b E G]; subst. constructor.
  - intros [X|X]; [apply C; left; congruence|contradiction].
  - constructor; [|assumption]. intro X. apply C. right. assumption.
Qed.


(** ** arg_dstr_free, drop_append *)

(** Releasing through a view of the memory in which other blocks may have changed already. *)
Lemma release_live m ds a L :
  releasable m ds a -> mlog m = log a ->
  live m (match d_free ds with FStatic => [] | _ => [fst (d_data ds)] end ++ L) ->
  exists m', release m (d_free ds) (d_data ds) = Ok m' /\ mlog m' = give_back a
    /\ live m' L /\ forall i, In i L -> mget m' i = mget m i.
Proof.
  intros RL LG LV. destruct (release_ok m ds a RL LG) as [m' [E [L' [N' G]]]].
  exists m'. split; [exact E|]. split; [exact L'|].
  assert (X : (forall i, mget m' i = if Nat.eqb i (fst (d_data ds)) then None else mget m i) ->
              live m (fst (d_data ds) :: L) -> live m' L /\ forall i, In i L -> mget m' i = mget m i).
  { clear LV. intros G' LV. assert (ND := live_nodup _ _ LV). inversion ND as [|p q U V]; subst.
    assert (X : live (mset m (fst (d_data ds)) None) L).
    { apply (live_del m _ _ _ LV); auto. intro i. cbn [In]. intuition congruence. }
    split.
    - destruct X as [A B C]. constructor; auto.
      + intro i. rewrite G'. rewrite <- A. cbn [mset mget]. reflexivity.
      + intros i K. rewrite N'. apply C in K. exact K.
    - intros i K. rewrite G'. destruct (Nat.eqb_spec i (fst (d_data ds))); [congruence|reflexivity]. }
  destruct (d_free ds) eqn:FP.
  - subst m'. cbn [app] in LV. auto.
  - apply X; auto.
  - apply X; auto.
  - apply X; auto.
Qed.

Lemma held_free m ds a : releasable m ds a -> (held a = None <-> d_free ds = FStatic).
Proof.
  unfold releasable. destruct (d_free ds) as [| | |n]; intro H; split; intro K; try congruence; auto; try contradiction.
  - destruct H as [_ [_ [t H]]]. congruence.
  - destruct H as [t [H _]]. congruence.
Qed.

Lemma app_static m ds a x : shape m ds a -> d_app ds = Some x -> d_free ds = FStatic.
Proof. intros [_ H] E. rewrite E in H. apply H. Qed.

Lemma free_ok m ds a F :
  Inv m ds a F ->
  exists m', arg_dstr_free m ds = Ok (m', upd_data (d_data ds) FStatic ds)
    /\ Inv m' (upd_data (d_data ds) FStatic ds) (spec_op a OFree) F.
Proof.
  intros [LV FR [d [SB SL]] LG SH].
  set (L := d_self ds :: (match d_app ds with Some x => [x] | None => [] end) ++ map fst F).
  assert (LV' : live m (match d_free ds with FStatic => [] | _ => [fst (d_data ds)] end ++ L)).
  { unfold own in LV. assert (N := live_nodup _ _ LV).
    destruct (d_free ds); [exact LV| | |]; cbn [app] in *; unfold L;
      (eapply live_equiv; [| |exact LV]; [intro i; cbn [In]; tauto|apply nodup_swap; exact N]). }
  destruct (release_live m ds a L (proj1 SH) LG LV') as [m' [E [L' [V' G]]]].
  exists m'. unfold arg_dstr_free. rewrite E. split; [reflexivity|].
  constructor; cbn [d_self upd_data].
  - exact V'.
  - intros b k K. rewrite G; [apply FR; assumption|]. right. apply in_or_app. right. apply (in_map fst) in K. exact K.
  - exists d. split; [|assumption]. unfold in_block. rewrite G; [assumption|left; reflexivity].
  - exact L'.
  - assert (HF := held_free _ _ _ (proj1 SH)). split; [reflexivity|].
    cbn [d_free upd_data spec_op text held d_app d_size d_data d_used].
    destruct SH as [RL SH]. destruct (d_app ds) as [x|] eqn:AP.
    + destruct SH as [S1 [S2 [t [k [T1 [T2 [T3 [T4 [T5 T6]]]]]]]]].
      split; [reflexivity|]. split; [assumption|]. exists t, k.
      rewrite (proj2 HF S1). repeat split; auto; try tauto.
      unfold in_block. rewrite G; [exact T4|]. right. left. reflexivity.
    + destruct SH as [S1 S2]. split; [assumption|].
      destruct (held a) as [h|] eqn:HH; [reflexivity|].
      destruct (text a) as [t|]; [|reflexivity].
      rewrite <- S2. apply rd_str_ext. apply G. unfold L.
      assert (FS : d_free ds = FStatic) by (apply HF; reflexivity).
      apply rd_str_alive in S2. apply (live_iff _ _ LV) in S2. unfold own in S2. rewrite FS, AP in S2. exact S2.
Qed.

Lemma drop_append_ok m ds L :
  live m ((match d_app ds with Some x => [x] | None => [] end) ++ L) ->
  match d_app ds with Some x => (exists k, mget m x = Some k /\ b_heap k = true) /\ 0 < d_size ds | None => d_size ds = 0 end ->
  exists m', drop_append m ds = Ok (m', upd_app None 0 ds) /\ mlog m' = mlog m /\ live m' L /\ forall i, In i L -> mget m' i = mget m i.
Proof.
  intros LV H. unfold drop_append. destruct (d_app ds) as [x|] eqn:AP.
  - destruct H as [[k [A B]] C]. destruct (Z.ltb_spec 0 (d_size ds)); [|lia]. rewrite (xfree_ok m x k A B). cbn [bind].
    eexists. split; [reflexivity|]. split; [reflexivity|].
    assert (ND := live_nodup _ _ LV). inversion ND as [|p q U V]; subst. split.
    + apply (live_del m _ _ _ LV); auto. intro i. cbn [In app]. intuition congruence.
    + intros i K. apply mget_mset_neq. congruence.
  - exists m. split; [|auto]. do 2 f_equal. unfold upd_app. destruct ds. cbn in *. subst. reflexivity.
Qed.

(** ** arg_dstr_set *)
Definition owns (f : fproc) (p : ptr) : list nat := match f with FStatic => [] | _ => [fst p] end.

Definition set_tail (m : mem) (old : fproc) (old_result : ptr) (ds : dstr) : res (mem * dstr) :=
  m <- (match old with
        | FStatic => Ok m
        | f => if ptr_eqb old_result (d_data ds) then Ok m else release m f old_result
        end) ;;
  drop_append m ds.

Lemma perm_live m L L' : Permutation.Permutation L L' -> live m L -> live m L'.
Proof.
  intros P H. apply (live_equiv m L).
  - intro i. split; apply Permutation.Permutation_in; [|apply Permutation.Permutation_sym]; assumption.
  - apply (Permutation.Permutation_NoDup P). apply (live_nodup _ _ H).
  - assumption.
Qed.

Lemma ptr_eqb_neq p q : p <> q -> ptr_eqb p q = false.
Proof.
  intro H. unfold ptr_eqb. destruct (Nat.eqb_spec (fst p) (fst q)); [|reflexivity]. cbn [andb].
  apply Z.eqb_neq. intro. apply H. destruct p, q. cbn in *. congruence.
Qed.

Lemma app_block m ds a x :
  shape m ds a -> d_app ds = Some x -> (exists k, mget m x = Some k /\ b_heap k = true) /\ 0 < d_size ds.
Proof.
  intros [_ H] E. rewrite E in H. destruct H as [_ [_ [t [k [_ [_ [K [B [S _]]]]]]]]].
  split; [eexists; split; [exact B|reflexivity]|]. rewrite S. pose proof (zlen_nonneg t). lia.
Qed.

Lemma set_tail_ok m ds a F m1 p f F' h t :
  Inv m ds a F ->
  mlog m1 = mlog m ->
  live m1 (own ds ++ (d_self ds :: owns f p ++ map fst F')) ->
  (forall i, In i (own ds) -> mget m1 i = mget m i) ->
  (forall b k, In (b, k) F' -> mget m1 b = Some k) ->
  (exists d, in_block m1 (d_self ds) d /\ zlen d = ARG_DSTR_SIZE + 1) ->
  (d_free ds <> FStatic -> p <> d_data ds) ->
  rd_str m1 p = Ok t ->
  In (fst p) (d_self ds :: owns f p ++ map fst F') ->
  releasable m1 (upd_data p f ds) {| text := Some t; held := h; log := log a |} ->
  exists m' ds', set_tail m1 (d_free ds) (d_data ds) (upd_data p f ds) = Ok (m', ds')
    /\ Inv m' ds' {| text := Some t; held := h; log := give_back a |} F' /\ d_self ds' = d_self ds.
Proof.
  intros [LV FR SB LG SH] LG1 LV1 OWN FR1 [d [SB1 SL1]] NE RD IN RL1.
  assert (RL := releasable_ext m m1 ds a (proj1 SH)).
  destruct (release_live m1 ds a ((match d_app ds with Some x => [x] | None => [] end) ++ (d_self ds :: owns f p ++ map fst F')))
    as [m2 [E2 [LG2 [LV2 G2]]]].
  { apply RL. intro X. apply OWN. unfold own. destruct (d_free ds); try congruence; left; reflexivity. }
  { congruence. }
  { unfold own in LV1. rewrite <- app_assoc in LV1. exact LV1. }
  destruct (drop_append_ok m2 (upd_data p f ds) (d_self ds :: owns f p ++ map fst F')) as [m3 [E3 [LG3 [LV3 G3]]]].
  { exact LV2. }
  { cbn [d_app upd_data d_size]. destruct (d_app ds) as [x|] eqn:AP.
    - destruct (app_block m ds a x SH AP) as [[k [A B]] C]. split; [|exact C].
      exists k. split; [|exact B]. rewrite G2 by (left; reflexivity). rewrite OWN; [exact A|].
      unfold own. rewrite AP. apply in_or_app. right. left. reflexivity.
    - destruct SH as [_ SH]. rewrite AP in SH. apply SH. }
  assert (G : forall i, In i (d_self ds :: owns f p ++ map fst F') -> mget m3 i = mget m1 i).
  { intros i K. rewrite G3 by assumption. apply G2. apply in_or_app. right. assumption. }
  exists m3, (upd_app None 0 (upd_data p f ds)). split; [|split].
  - unfold set_tail.
    assert (PE : d_free ds <> FStatic -> ptr_eqb (d_data ds) (d_data (upd_data p f ds)) = false).
    { intro X. apply ptr_eqb_neq. cbn [d_data upd_data]. intro. apply (NE X). congruence. }
    destruct (d_free ds) eqn:FP; [injection E2 as <-; exact E3| | |]; rewrite PE by discriminate;
      rewrite E2; cbn [bind]; exact E3.
  - constructor; cbn [d_self upd_app upd_data].
    + unfold own. cbn [d_free d_data d_app upd_app upd_data]. rewrite app_nil_r. exact LV3.
    + intros b k K. rewrite G; [apply FR1; assumption|]. right. apply in_or_app. right. apply (in_map fst) in K. exact K.
    + exists d. split; [|assumption]. unfold in_block. rewrite G; [assumption|left; reflexivity].
    + cbn [log]. congruence.
    + unfold shape. cbn [d_app upd_app upd_data d_size d_data text]. split.
      * assert (X := releasable_ext m1 m3 (upd_data p f ds) {| text := Some t; held := h; log := log a |} RL1).
        unfold releasable in *. cbn [d_free d_data upd_app upd_data held text] in *. apply X.
        intros _. apply G. exact IN.
      * split; [reflexivity|]. rewrite <- RD. apply rd_str_ext. apply G. exact IN.
  - reflexivity.
Qed.

Lemma arg_dstr_set_eq junk m ds str f :
  arg_dstr_set junk m ds str f =
  ('(m1, ds1) <-
    match str with
    | None => m <- wr m (sbuf ds) [NUL] ;; Ok (m, upd_data (sbuf ds) FStatic ds)
    | Some p =>
        match f with
        | FVolatile =>
            s <- rd_str m p ;;
            length <- c_int (zlen s) ;;
            let '(m, ds) :=
              if ARG_DSTR_SIZE <? length then
                let '(m, b) := xmalloc junk m (length + 1) in (m, upd_data (b, 0) FDynamic ds)
              else (m, upd_data (sbuf ds) FStatic ds) in
            m <- strcpy m (d_data ds) p ;;
            Ok (m, ds)
        | _ => Ok (m, upd_data p f ds)
        end
    end ;;
   set_tail m1 (d_free ds) (d_data ds) ds1).
Proof. reflexivity. Qed.

(** Writing into sbuf. *)
Lemma self_write m ds a F s :
  Inv m ds a F -> cstr s -> zlen s <= ARG_DSTR_SIZE ->
  exists m1, wr m (sbuf ds) (s ++ [NUL]) = Ok m1 /\ mlog m1 = mlog m /\
    live m1 (own ds ++ (d_self ds :: map fst F)) /\
    (forall i, i <> d_self ds -> mget m1 i = mget m i) /\
    (exists d, in_block m1 (d_self ds) d /\ zlen d = ARG_DSTR_SIZE + 1) /\
    rd_str m1 (sbuf ds) = Ok s.
Proof.
  intros [LV FR [d [SB SL]] LG SH] CS LS. unfold sbuf.
  unfold in_block in SB. rewrite (wr_ok m _ _ 0 _ SB); [|lia|cbn [b_data]; rewrite zlen_app; change (zlen [NUL]) with 1; lia].
  cbn [b_heap b_data]. change (Z.to_nat 0) with 0%nat. cbn [firstn app plus].
  eexists. split; [reflexivity|]. split; [reflexivity|]. split; [|split; [|split]].
  - apply (perm_live _ (d_self ds :: own ds ++ map fst F)).
    + apply Permutation.Permutation_middle.
    + apply live_set; [exact LV|left; reflexivity].
  - intros i K. apply mget_mset_neq. assumption.
  - eexists. split; [apply mget_mset_eq|]. rewrite !zlen_app. unfold zlen at 3. rewrite skipn_length.
    rewrite app_length. unfold zlen in *. cbn [List.length]. lia.
  - eapply rd_str_0; [apply mget_mset_eq|]. cbn [b_data]. rewrite <- app_assoc. cbn [app]. apply scan0_app. assumption.
Qed.

Lemma live_disjoint m x L L' : live m (x :: L ++ L') -> forall i, In i L -> i <> x /\ ~ In i L'.
Proof.
  intros V i K. assert (N := live_nodup _ _ V). inversion N as [|p q U W]; subst. split.
  - intro. subst. apply U. apply in_or_app. left. assumption.
  - clear - W K. induction L as [|y L IH]; [contradiction|]. cbn [app] in W. inversion W as [|p q A B]; subst.
    destruct K as [->|K].
    + intro. apply A. apply in_or_app. right. assumption.
    + auto.
Qed.

Lemma set_null_ok junk m ds a F f :
  Inv m ds a F ->
  exists m' ds', arg_dstr_set junk m ds None f = Ok (m', ds') /\ Inv m' ds' (spec_op a (OSet None f)) F /\ d_self ds' = d_self ds.
Proof.
  intro I. destruct (self_write m ds a F [] I) as [m1 [W [LG1 [LV1 [G [SB RD]]]]]].
  { intros []. } { unfold ARG_DSTR_SIZE. change (zlen (@nil ascii)) with 0. lia. }
  rewrite arg_dstr_set_eq. cbn [app] in W. rewrite W. cbn [bind].
  assert (D := live_disjoint _ _ _ _ (i_live _ _ _ _ I)).
  apply (set_tail_ok m ds a F m1 (sbuf ds) FStatic F None []); auto.
  - intros i K. apply G. apply D. assumption.
  - intros b k K. rewrite G; [apply (i_frame _ _ _ _ I); assumption|]. intro. subst.
    assert (N := live_nodup _ _ (i_live _ _ _ _ I)). inversion N as [|p q U V]; subst. apply U. apply in_or_app. right.
    apply (in_map fst) in K. exact K.
  - intros X E. destruct (D (d_self ds)) as [D1 _].
    + unfold own. apply in_or_app. left. destruct (d_free ds); try congruence; rewrite <- E; left; reflexivity.
    + congruence.
  - left. reflexivity.
  - reflexivity.
Qed.

(** A foreign block added to or removed from the frame. *)
Lemma inv_new m ds a F h d :
  Inv m ds a F ->
  Inv (fst (mnew m h d)) ds a ((mnext m, {| b_heap := h; b_data := d |}) :: F).
Proof.
  intros [LV FR [e [SB SL]] LG SH].
  assert (NX : forall i, In i (d_self ds :: own ds ++ map fst F) -> mget (fst (mnew m h d)) i = mget m i).
  { intros i K. apply (live_next _ _ LV) in K. cbn [mnew fst mget]. destruct (Nat.eqb_spec i (mnext m)); [lia|reflexivity]. }
  constructor.
  - cbn [map fst]. apply (perm_live _ (mnext m :: d_self ds :: own ds ++ map fst F)).
    + apply Permutation.perm_trans with (d_self ds :: mnext m :: own ds ++ map fst F); [apply Permutation.perm_swap|].
      apply Permutation.perm_skip. apply Permutation.Permutation_middle.
    + apply live_new. assumption.
  - intros b k [K|K].
    + injection K as <- <-. cbn [mnew fst mget]. rewrite Nat.eqb_refl. reflexivity.
    + rewrite NX; [apply FR; assumption|]. right. apply in_or_app. right. apply (in_map fst) in K. exact K.
  - exists e. split; [|assumption]. unfold in_block. rewrite NX; [assumption|left; reflexivity].
  - exact LG.
  - destruct SH as [RL SH]. split.
    + apply (releasable_ext m _ ds a RL). intro X. apply NX. right. apply in_or_app. left. unfold own.
      destruct (d_free ds); try congruence; left; reflexivity.
    + destruct (d_app ds) as [x|] eqn:AP.
      * destruct SH as [S1 [S2 [t [k [T1 [T2 [T3 [T4 [T5 T6]]]]]]]]].
        split; [assumption|]. split; [assumption|]. exists t, k. repeat split; auto; try tauto.
        unfold in_block. rewrite NX; [exact T4|]. right. apply in_or_app. left. unfold own. rewrite AP, S1. left. reflexivity.
      * destruct SH as [S1 S2]. split; [assumption|]. destruct (text a); [|assumption].
        rewrite <- S2. apply rd_str_ext. apply NX. apply (live_iff _ _ LV). apply rd_str_alive in S2. assumption.
Qed.

Lemma inv_del m ds a b k F :
  Inv m ds a ((b, k) :: F) -> fst (d_data ds) <> b -> Inv (mset m b None) ds a F.
Proof.
  intros [LV FR [e [SB SL]] LG SH] NE.
  assert (P : live m (b :: d_self ds :: own ds ++ map fst F)).
  { apply (perm_live _ _ _ (Permutation.Permutation_sym (Permutation.Permutation_cons_app (d_self ds :: own ds) (map fst F) b (Permutation.Permutation_refl _)))).
    exact LV. }
  assert (N := live_nodup _ _ P). inversion N as [|p q U V]; subst.
  constructor.
  - apply (live_del m _ _ _ P); auto. intro i. cbn [In]. intuition congruence.
  - intros c q K. rewrite mget_mset_neq; [apply FR; right; assumption|]. intro. subst. apply U.
    right. apply in_or_app. right. apply (in_map fst) in K. exact K.
  - exists e. split; [|assumption]. unfold in_block. rewrite mget_mset_neq; [assumption|]. intro E. apply U. left. assumption.
  - exact LG.
  - destruct SH as [RL SH]. split.
    + apply (releasable_ext m _ ds a RL). intro X. apply mget_mset_neq. assumption.
    + destruct (d_app ds) as [x|] eqn:AP.
      * destruct SH as [S1 [S2 [t [j [T1 [T2 [T3 [T4 [T5 T6]]]]]]]]].
        split; [assumption|]. split; [assumption|]. exists t, j. repeat split; auto; try tauto.
        unfold in_block. rewrite mget_mset_neq; [exact T4|]. rewrite S2 in NE. exact NE.
      * destruct SH as [S1 S2]. split; [assumption|]. destruct (text a); [|assumption].
        rewrite <- S2. apply rd_str_ext. apply mget_mset_neq. assumption.
Qed.

Lemma strcpy_wr m d src s :
  rd_str m src = Ok s -> fst src <> fst d -> strcpy m d src = wr m d (s ++ [NUL]).
Proof.
  intros R N. unfold strcpy. rewrite R. cbn [bind]. unfold overlap.
  replace (Nat.eqb (fst d) (fst src)) with false by (symmetry; apply Nat.eqb_neq; congruence). reflexivity.
Qed.

Definition client (f : fproc) (t : str) : mblock :=
  {| b_heap := match f with FDynamic => true | _ => false end; b_data := t ++ [NUL] |}.

Lemma frame_ne m ds a F b k : Inv m ds a F -> In (b, k) F -> b <> d_self ds /\ ~ In b (own ds).
Proof.
  intros I K. assert (N := i_live _ _ _ _ I). assert (D := live_disjoint _ _ _ _ N).
  apply (in_map fst) in K. cbn [fst] in K. split.
  - intro. subst. assert (ND := live_nodup _ _ N). inversion ND as [|p q U V]; subst. apply U. apply in_or_app. auto.
  - intro X. apply D in X. tauto.
Qed.

Lemma own_data ds : d_free ds <> FStatic -> In (fst (d_data ds)) (own ds).
Proof. intro H. unfold own. apply in_or_app. left. destruct (d_free ds); try congruence; left; reflexivity. Qed.

Lemma set_some_ok junk m ds a F b t f :
  Inv m ds a ((b, client f t) :: F) -> cstr t -> zlen t <= 1073741824 ->
  exists m' ds', arg_dstr_set junk m ds (Some (b, 0)) f = Ok (m', ds') /\ d_self ds' = d_self ds /\
    match f with
    | FStatic => Inv m' ds' (spec_op a (OSet (Some t) f)) ((b, client f t) :: F)
    | FVolatile => Inv (mset m' b None) ds' (spec_op a (OSet (Some t) f)) F
    | _ => Inv m' ds' (spec_op a (OSet (Some t) f)) F
    end.
Proof.
  intros I CS LS. rewrite arg_dstr_set_eq. unfold spec_op.
  assert (IN : In (b, client f t) ((b, client f t) :: F)) by (left; reflexivity).
  destruct (frame_ne _ _ _ _ _ _ I IN) as [NS NO].
  assert (GB : mget m b = Some (client f t)) by (apply (i_frame _ _ _ _ I); assumption).
  assert (RD : rd_str m (b, 0) = Ok t).
  { eapply rd_str_0; [exact GB|]. cbn [client b_data]. apply scan0_app. assumption. }
  assert (NE : d_free ds <> FStatic -> (b, 0) <> d_data ds).
  { intros X E. apply NO. assert (O := own_data ds X). rewrite <- E in O. exact O. }
  assert (LV := i_live _ _ _ _ I).
  assert (FR := i_frame _ _ _ _ I).
  assert (P : live m (own ds ++ d_self ds :: map fst ((b, client f t) :: F))).
  { apply (perm_live _ _ _ (Permutation_middle (own ds) _ (d_self ds))). exact LV. }
  destruct f as [| | |n].
  - (* static *)
    cbn [bind].
    destruct (set_tail_ok m ds a ((b, client FStatic t) :: F) m (b, 0) FStatic ((b, client FStatic t) :: F) None t I)
      as [m' [ds' [E [I' S']]]]; auto.
    + apply (i_self _ _ _ _ I).
    + right. left. reflexivity.
    + reflexivity.
    + exists m', ds'. auto.
  - (* volatile *)
    rewrite RD. cbn [bind]. rewrite c_int_ok by (unfold INT_MIN, INT_MAX; pose proof (zlen_nonneg t); lia). cbn [bind].
    unfold ARG_DSTR_SIZE at 1. destruct (Z.ltb_spec 200 (zlen t)) as [BIG|SMALL].
    + cbn [xmalloc mnew]. cbn [d_data upd_data].
      set (m0 := fst (mnew m true (fresh junk (zlen t + 1)))).
      set (fr := fresh junk (zlen t + 1)).
      change {| mget := fun i : nat => if Nat.eqb i (mnext m) then Some {| b_heap := true; b_data := fr |} else mget m i;
                mnext := S (mnext m); mlog := mlog m |} with m0.
      assert (I0 := inv_new _ _ _ _ true fr I). fold m0 in I0.
      assert (GB0 : mget m0 b = Some (client FVolatile t)) by (apply (i_frame _ _ _ _ I0); right; assumption).
      assert (GN : mget m0 (mnext m) = Some {| b_heap := true; b_data := fr |}) by (apply (i_frame _ _ _ _ I0); left; reflexivity).
      destruct (frame_ne _ _ _ _ (mnext m) _ I0 (or_introl eq_refl)) as [NS0 NO0].
      assert (NB : b <> mnext m).
      { assert (X := live_next _ _ LV b). assert (b < mnext m)%nat; [|lia]. apply X. right. apply in_or_app. right. left. reflexivity. }
      assert (RD0 : rd_str m0 (b, 0) = Ok t).
      { eapply rd_str_0; [exact GB0|]. cbn [client b_data]. apply scan0_app. assumption. }
      rewrite (strcpy_ok m0 (mnext m) _ (b, 0) t GN RD0); auto.
      2:{ cbn [b_data]. unfold fr. rewrite fresh_len; pose proof (zlen_nonneg t); lia. }
      cbn [bind b_heap b_data].
      set (bl := {| b_heap := true; b_data := t ++ NUL :: skipn (S (List.length t)) fr |}).
      destruct (set_tail_ok m ds a ((b, client FVolatile t) :: F) (mset m0 (mnext m) (Some bl)) (mnext m, 0) FDynamic ((b, client FVolatile t) :: F)
                  (Some (FDynamic, t)) t I)
        as [m' [ds' [E [I' S']]]]; auto.
      * cbn [owns fst].
        assert (LV0 := i_live _ _ _ _ I0).
        eapply perm_live; [|apply live_set; [exact LV0|right; apply in_or_app; right; left; reflexivity]].
        cbn [map fst]. eapply perm_trans; [apply Permutation_middle|]. cbn [app]. apply Permutation_refl.
      * intros i K. rewrite mget_mset_neq by congruence.
        unfold m0. cbn [mnew fst mget]. destruct (Nat.eqb_spec i (mnext m)); [congruence|reflexivity].
      * intros c k K. rewrite mget_mset_neq; [apply (i_frame _ _ _ _ I0); right; assumption|].
        assert (c < mnext m)%nat; [|lia]. apply (live_next _ _ LV). right. apply in_or_app. right.
        apply (in_map fst) in K. exact K.
      * destruct (i_self _ _ _ _ I0) as [d [A B]]. exists d. split; [|assumption]. unfold in_block. rewrite mget_mset_neq by congruence. exact A.
      * intros X E. apply NO0. assert (O := own_data ds X). rewrite <- E in O. exact O.
      * eapply rd_str_0; [apply mget_mset_eq|]. cbn [bl b_data]. apply scan0_app. assumption.
      * right. left. reflexivity.
      * unfold releasable. cbn [d_free d_data upd_data fst snd held]. repeat split; [|eauto].
        eexists. split; [apply mget_mset_eq|reflexivity].
      * exists m', ds'. split; [exact E|]. split; [exact S'|]. eapply inv_del; [exact I'|].
        assert (D : d_data ds' = (mnext m, 0)).
        { clear - E. unfold set_tail in E. apply bind_ok in E. destruct E as [m2 [_ E]].
          unfold drop_append in E. cbn [d_app upd_data d_size] in E.
          destruct (d_app ds); [destruct (0 <? d_size ds); [apply bind_ok in E; destruct E as [m4 [_ E]]|]|]; injection E as <- <-; reflexivity. }
        rewrite D. cbn [fst]. congruence.
    + cbn [d_data upd_data]. rewrite (strcpy_wr m (sbuf ds) (b, 0) t RD) by (cbn [fst sbuf]; congruence).
      destruct (self_write m ds a _ t I CS) as [m1 [W [LG1 [LV1 [G [SB RD1]]]]]]; [unfold ARG_DSTR_SIZE; lia|].
      rewrite W. cbn [bind].
      destruct (set_tail_ok m ds a ((b, client FVolatile t) :: F) m1 (sbuf ds) FStatic ((b, client FVolatile t) :: F) None t I)
        as [m' [ds' [E [I' S']]]]; auto.
      * intros i K. apply G. apply (live_disjoint _ _ _ _ LV). assumption.
      * intros c k K. rewrite G; [apply FR; assumption|]. eapply frame_ne; [exact I|exact K].
      * intros X E. assert (O := own_data ds X). rewrite <- E in O. apply (live_disjoint _ _ _ _ LV) in O. cbn [sbuf fst] in O. tauto.
      * left. reflexivity.
      * reflexivity.
      * exists m', ds'. split; [exact E|]. split; [exact S'|]. eapply inv_del; [exact I'|].
        assert (D : d_data ds' = sbuf ds).
        { clear - E. unfold set_tail in E. apply bind_ok in E. destruct E as [m2 [_ E]].
          unfold drop_append in E. cbn [d_app upd_data d_size] in E.
          destruct (d_app ds); [destruct (0 <? d_size ds); [apply bind_ok in E; destruct E as [m4 [_ E]]|]|]; injection E as <- <-; reflexivity. }
        rewrite D. cbn [fst sbuf]. congruence.
  - (* dynamic *)
    cbn [bind].
    destruct (set_tail_ok m ds a ((b, client FDynamic t) :: F) m (b, 0) FDynamic F (Some (FDynamic, t)) t I)
      as [m' [ds' [E [I' S']]]]; auto.
    + intros c k K. apply FR. right. assumption.
    + apply (i_self _ _ _ _ I).
    + right. left. reflexivity.
    + unfold releasable. cbn [d_free d_data upd_data fst snd held]. repeat split; [|eauto].
      eexists. split; [exact GB|reflexivity].
    + exists m', ds'. auto.
  - (* client procedure *)
    cbn [bind].
    destruct (set_tail_ok m ds a ((b, client (FProc n) t) :: F) m (b, 0) (FProc n) F (Some (FProc n, t)) t I)
      as [m' [ds' [E [I' S']]]]; auto.
    + intros c k K. apply FR. right. assumption.
    + apply (i_self _ _ _ _ I).
    + right. left. reflexivity.
    + unfold releasable. cbn [d_free d_data upd_data fst snd held]. eauto.
    + exists m', ds'. auto.
Qed.

(** ** The append buffer *)
Definition appended (a : abs) (t : str) : abs := {| text := Some t; held := None; log := give_back a |}.

Record Space (m : mem) (ds : dstr) (a : abs) (F : list (nat * mblock)) (t : str) (x k : nat) : Prop := {
  sp_live : live m (d_self ds :: x :: map fst F);
  sp_frame : forall b k, In (b, k) F -> mget m b = Some k;
  sp_self : exists d, in_block m (d_self ds) d /\ zlen d = ARG_DSTR_SIZE + 1;
  sp_log : mlog m = give_back a;
  sp_data : d_data ds = (x, 0);
  sp_app : d_app ds = Some x;
  sp_free : d_free ds = FStatic;
  sp_size : d_size ds = zlen t + Z.of_nat k;
  sp_used : 0 <= d_used ds <= zlen t;
  sp_text : cstr t;
  sp_block : in_block m x (t ++ repeat NUL k)
}.

Lemma space_inv m ds a F t x k : Space m ds a F t x k -> (0 < k)%nat -> Inv m ds (appended a t) F.
Proof.
  intros [H1 H2 H3 H4 H5 H6 H7 H8 H9 H10 H11] K. constructor; auto.
  - unfold own. rewrite H6, H7. exact H1.
  - unfold shape, releasable. rewrite H6, H7. split; [reflexivity|]. split; [reflexivity|]. split; [assumption|].
    exists t, k. repeat split; auto; tauto.
Qed.

Lemma text_cstr m ds a F t : Inv m ds a F -> text a = Some t -> cstr t.
Proof.
  intros I T. destruct (i_shape _ _ _ _ I) as [_ SH]. destruct (d_app ds) as [x|].
  - destruct SH as [_ [_ [u [k [E [C _]]]]]]. congruence.
  - destruct SH as [_ SH]. rewrite T in SH. apply rd_str_cstr in SH. assumption.
Qed.

Lemma text_read m ds a F t : Inv m ds a F -> text a = Some t -> rd_str m (d_data ds) = Ok t.
Proof.
  intros I T. destruct (i_shape _ _ _ _ I) as [_ SH]. destruct (d_app ds) as [x|].
  - destruct SH as [_ [D [u [k [E [C [K [B _]]]]]]]]. rewrite D. assert (u = t) by congruence. subst u.
    eapply rd_str_0; [exact B|]. cbn [b_data]. apply scan0_zeros; assumption.
  - destruct SH as [_ SH]. rewrite T in SH. assumption.
Qed.

(** The new buffer: allocated, cleared, and the text copied into it. *)
Lemma new_buffer junk m ds a F t total :
  Inv m ds a F -> text a = Some t -> zlen t < total ->
  exists m2,
    (m' <- memset0 (fst (xmalloc junk m total)) (mnext m, 0) total ;; strcpy m' (mnext m, 0) (d_data ds)) = Ok m2 /\
    mlog m2 = mlog m /\ mnext m2 = S (mnext m) /\
    (forall i, i <> mnext m -> mget m2 i = mget m i) /\
    in_block m2 (mnext m) (t ++ repeat NUL (Z.to_nat total - List.length t)) /\
    live m2 (mnext m :: d_self ds :: own ds ++ map fst F).
Proof.
  intros I T L. pose proof (zlen_nonneg t) as Z0.
  assert (R := text_read _ _ _ _ _ I T). assert (C := text_cstr _ _ _ _ _ I T).
  assert (AL := rd_str_alive _ _ _ R). apply (live_iff _ _ (i_live _ _ _ _ I)) in AL.
  assert (LT := live_next _ _ (i_live _ _ _ _ I) _ AL).
  set (m1 := fst (xmalloc junk m total)).
  assert (G1 : mget m1 (mnext m) = Some {| b_heap := true; b_data := fresh junk total |}) by apply xmalloc_get.
  rewrite (memset0_ok m1 (mnext m) _ total G1) by (cbn [b_data]; try rewrite fresh_len; lia).
  cbn [bind b_heap].
  set (m2 := mset m1 (mnext m) _).
  assert (O : forall i, i <> mnext m -> mget m2 i = mget m i).
  { intros i K. unfold m2. rewrite mget_mset_neq by assumption. unfold m1. cbn [xmalloc mnew fst mget].
    destruct (Nat.eqb_spec i (mnext m)); [congruence|reflexivity]. }
  erewrite (strcpy_ok m2 (mnext m) _ (d_data ds) t); [|apply mget_mset_eq| | |].
  - eexists. split; [reflexivity|]. split; [reflexivity|]. split; [reflexivity|]. split; [|split].
    + intros i K. rewrite mget_mset_neq by assumption. apply O. assumption.
    + unfold in_block. rewrite mget_mset_eq. cbn [b_heap b_data]. do 3 f_equal.
      rewrite skipn_repeat. unfold zlen in L.
      replace (Z.to_nat total - List.length t)%nat with (S (Z.to_nat total - S (List.length t)))%nat by lia. reflexivity.
    + assert (X := live_new m _ true (fresh junk total) (i_live _ _ _ _ I)). fold m1 in X.
      change (fst (mnew m true (fresh junk total))) with m1 in X.
      apply live_set; [|left; reflexivity]. unfold m2. apply live_set; [exact X|left; reflexivity].
  - rewrite <- R. apply rd_str_ext. apply O. lia.
  - lia.
  - cbn [b_data]. unfold zlen at 2. rewrite repeat_length. lia.
Qed.

Definition grow (total : Z) : Z := if total <? 100 then 200 else total * 2.

Lemma aget_nth {A} (l : list A) i (x : A) : 0 <= i -> nth_error l (Z.to_nat i) = Some x -> aget l i = Ok x.
Proof. intros H K. unfold aget. destruct (Z.ltb_spec i 0); [lia|]. rewrite K. reflexivity. Qed.

Lemma setup_ok junk m ds a F t n :
  Inv m ds a F -> text a = Some t -> 1 <= n -> n + zlen t <= 1073741823 ->
  exists m' ds' x k, setup_append_buf junk m ds n = Ok (m', ds') /\ Space m' ds' a F t x k /\ n < Z.of_nat k
    /\ d_self ds' = d_self ds.
Proof.
  intros I T N1 BD. pose proof (zlen_nonneg t) as Z0.
  assert (R := text_read _ _ _ _ _ I T). assert (C := text_cstr _ _ _ _ _ I T).
  assert (SH := i_shape _ _ _ _ I). assert (LV := i_live _ _ _ _ I).
  assert (SZ : Z.of_nat (List.length t) = zlen t) by reflexivity.
  assert (GR : n + zlen t < grow (n + zlen t)) by (unfold grow; destruct (Z.ltb_spec (n + zlen t) 100); lia).
  assert (GI : (if n + zlen t <? 100 then Ok 200 else c_int ((n + zlen t) * 2)) = Ok (grow (n + zlen t))).
  { unfold grow. destruct (Z.ltb_spec (n + zlen t) 100); [reflexivity|]. apply c_int_ok. unfold INT_MIN, INT_MAX. lia. }
  unfold setup_append_buf. unfold shape in SH.
  destruct (d_app ds) as [x|] eqn:AP.
  - (* the text is already in the append buffer *)
    destruct SH as [RL [S1 [S2 [u [k [T1 [T2 [T3 [T4 [T5 T6]]]]]]]]]].
    assert (u = t) by congruence. subst u. clear T1.
    rewrite S2 in *. unfold ptr_eqb. cbn [fst snd]. rewrite Nat.eqb_refl. change (0 =? 0) with true. cbn [andb negb].
    assert (U : exists u', (c <- rd_byte m (padd (x, 0) (d_used ds)) ;;
               if negb (ceqb c NUL) then s <- rd_str m (x, 0) ;; u <- c_int (zlen s) ;; Ok (m, upd_used u ds) else Ok (m, ds))
               = Ok (m, upd_used u' ds) /\ u' = zlen t).
    { unfold rd_byte, mblk, padd. cbn [fst snd]. unfold in_block in T4. rewrite T4. cbn [bind b_data].
      rewrite Z.add_0_l.
      destruct (Z_lt_ge_dec (d_used ds) (zlen t)) as [LT|GE].
      - destruct (nth_error t (Z.to_nat (d_used ds))) as [c|] eqn:NE.
        2:{ apply nth_error_None in NE. unfold zlen in *. lia. }
        rewrite (aget_nth _ _ c); [|lia|rewrite nth_error_app1 by (unfold zlen in *; lia); exact NE]. cbn [bind].
        assert (CN : c <> NUL) by (intro; subst; apply C; eapply nth_error_In; exact NE).
        apply ceqb_neq in CN. rewrite CN. cbn [negb]. rewrite R. cbn [bind].
        rewrite c_int_ok by (unfold INT_MIN, INT_MAX; lia). cbn [bind]. eauto.
      - assert (E : d_used ds = zlen t) by lia.
        rewrite (aget_nth _ _ NUL); [|lia|].
        + cbn [bind]. rewrite ceqb_refl. cbn [negb]. exists (d_used ds). split; [|assumption]. destruct ds; reflexivity.
        + rewrite nth_error_app2 by (unfold zlen in *; lia). rewrite E. rewrite <- SZ, Nat2Z.id, Nat.sub_diag.
          destruct k; [lia|]. reflexivity. }
    destruct U as [u' [U ->]]. rewrite U. cbn [bind d_used d_size upd_used d_app].
    rewrite c_int_ok by (unfold INT_MIN, INT_MAX; lia). cbn [bind].
    destruct (Z.leb_spec (d_size ds) (n + zlen t)) as [SMALL|BIG].
    + (* a larger one *)
      rewrite GI. cbn [bind].
      destruct (new_buffer junk m ds a F t (grow (n + zlen t)) I T) as [m2 [E [LG2 [NX2 [G2 [B2 LV2]]]]]]; [lia|].
      rewrite S2 in E. cbn [d_data upd_used].
      destruct (xmalloc junk m (grow (n + zlen t))) as [m1 nb] eqn:XM.
      assert (nb = mnext m) by (injection XM as _ <-; reflexivity). subst nb. cbn [fst] in E.
      apply bind_ok in E. destruct E as [m1' [E1 E2]]. rewrite E1. cbn [bind]. rewrite S2, E2. cbn [bind].
      rewrite AP.
      assert (XN : x <> mnext m).
      { assert (x < mnext m)%nat; [|lia]. apply (live_next _ _ LV). right. apply in_or_app. left. unfold own. rewrite S1, AP. left. reflexivity. }
      assert (GX : mget m2 x = Some {| b_heap := true; b_data := t ++ repeat NUL k |}) by (rewrite G2 by assumption; exact T4).
      rewrite (xfree_ok m2 x _ GX) by reflexivity. cbn [bind].
      cbn [arg_dstr_free d_free upd_app upd_used release d_data bind]. unfold arg_dstr_free. cbn [d_free upd_app upd_used upd_data d_app d_data].
      rewrite S1. cbn [release bind d_app upd_data upd_app upd_used].
      eexists _, _, (mnext m), _. split; [reflexivity|].
      assert (NDs : NoDup (mnext m :: d_self ds :: x :: map fst F)).
      { assert (X := live_nodup _ _ LV2). unfold own in X. rewrite S1, AP in X. exact X. }
      assert (LVX : live m2 (x :: d_self ds :: mnext m :: map fst F)).
      { unfold own in LV2. rewrite S1, AP in LV2. cbn [app] in LV2.
        apply (perm_live _ _ _ (Permutation_trans (perm_swap _ _ _) (Permutation_trans (perm_skip _ (perm_swap _ _ _)) (perm_swap _ _ _)))).
        exact LV2. }
      assert (NDx := live_nodup _ _ LVX). inversion NDx as [|p q UX VX]; subst.
      split; [|split].
      * constructor; cbn [d_self d_data d_free d_app d_size d_used upd_data upd_app upd_used]; auto.
        -- apply (live_del _ _ _ _ LVX); auto. intro i. cbn [In]. intuition congruence.
        -- intros b kk K. destruct (frame_ne _ _ _ _ _ _ I K) as [FN1 FN2].
           assert (b <> mnext m).
           { assert (b < mnext m)%nat; [|lia]. apply (live_next _ _ LV). right. apply in_or_app. right. apply (in_map fst) in K. exact K. }
           rewrite mget_mset_neq.
           ++ rewrite G2 by assumption. apply (i_frame _ _ _ _ I). assumption.
           ++ intro. subst. apply FN2. unfold own. rewrite S1, AP. left. reflexivity.
        -- destruct (i_self _ _ _ _ I) as [d [D1 D2]]. exists d. split; [|assumption].
           unfold in_block. rewrite mget_mset_neq by (intro X; apply UX; left; exact X).
           rewrite G2; [exact D1|]. inversion NDs as [|p q U1 V1]; subst. intro X. apply U1. left. exact X.
        -- cbn [mlog mset]. rewrite LG2, (i_log _ _ _ _ I). unfold give_back. unfold releasable in RL. rewrite S1 in RL. rewrite RL. reflexivity.
        -- instantiate (1 := (Z.to_nat (grow (n + zlen t)) - List.length t)%nat). unfold zlen in *. lia.
        -- lia.
        -- unfold in_block. rewrite mget_mset_neq by congruence. exact B2.
      * unfold zlen in *. lia.
      * reflexivity.
    + (* room is left *)
      rewrite AP. cbn [bind]. unfold arg_dstr_free. cbn [d_free upd_used d_data]. rewrite S1. cbn [release bind d_app upd_data upd_used].
      rewrite AP. eexists _, _, x, k. split; [reflexivity|]. split; [|split].
      * constructor; cbn [d_self d_data d_free d_app d_size d_used upd_data upd_app upd_used]; auto.
        -- unfold own in LV. rewrite S1, AP in LV. exact LV.
        -- apply (i_frame _ _ _ _ I).
        -- apply (i_self _ _ _ _ I).
        -- rewrite (i_log _ _ _ _ I). unfold give_back. unfold releasable in RL. rewrite S1 in RL. rewrite RL. reflexivity.
        -- lia.
      * lia.
      * reflexivity.
  - (* the text is elsewhere *)
    destruct SH as [RL [S1 S2]]. rewrite T in S2. cbn [negb]. rewrite S1. change (500 <? 0) with false. cbv iota. cbn [bind].
    rewrite S2. cbn [bind]. rewrite c_int_ok by (unfold INT_MIN, INT_MAX; lia). cbn [bind d_used upd_used].
    rewrite c_int_ok by (unfold INT_MIN, INT_MAX; lia). cbn [bind d_size upd_used]. rewrite S1.
    destruct (Z.leb_spec 0 (n + zlen t)); [|lia]. rewrite GI. cbn [bind].
    destruct (new_buffer junk m ds a F t (grow (n + zlen t)) I T) as [m2 [E [LG2 [NX2 [G2 [B2 LV2]]]]]]; [lia|].
    cbn [d_data upd_used d_app].
    destruct (xmalloc junk m (grow (n + zlen t))) as [m1 nb] eqn:XM.
    assert (nb = mnext m) by (injection XM as _ <-; reflexivity). subst nb. cbn [fst] in E.
    apply bind_ok in E. destruct E as [m1' [E1 E2]]. rewrite E1. cbn [bind]. rewrite E2. cbn [bind].
    rewrite AP. cbn [bind].
    unfold arg_dstr_free. cbn [d_free upd_app upd_used upd_data d_app d_data].
    destruct (release_live m2 ds a (d_self ds :: mnext m :: map fst F)) as [m3 [E3 [LG3 [LV3 G3]]]].
    { apply (releasable_ext m m2 ds a RL). intro X. apply G2.
      assert (fst (d_data ds) < mnext m)%nat; [|lia]. apply (live_next _ _ LV). right. apply in_or_app. left. apply own_data. assumption. }
    { rewrite LG2. apply (i_log _ _ _ _ I). }
    { unfold own in LV2. rewrite AP, app_nil_r in LV2.
      eapply perm_live; [|exact LV2].
      destruct (d_free ds); cbn [app]; try apply perm_swap;
        (eapply perm_trans; [apply perm_skip; apply perm_swap|]; eapply perm_trans; [apply perm_swap|]; apply perm_skip; apply perm_swap). }
    rewrite E3. cbn [bind d_app upd_data upd_app].
    eexists _, _, (mnext m), _. split; [reflexivity|]. split; [|split].
    + constructor; cbn [d_self d_data d_free d_app d_size d_used upd_data upd_app upd_used]; auto.
      * intros b kk K. rewrite G3 by (right; right; apply (in_map fst) in K; exact K).
        rewrite G2; [apply (i_frame _ _ _ _ I); assumption|].
        assert (b < mnext m)%nat; [|lia]. apply (live_next _ _ LV). right. apply in_or_app. right. apply (in_map fst) in K. exact K.
      * destruct (i_self _ _ _ _ I) as [d [D1 D2]]. exists d. split; [|assumption].
        unfold in_block. rewrite G3 by (left; reflexivity). rewrite G2; [exact D1|].
        assert (d_self ds < mnext m)%nat; [|lia]. apply (live_next _ _ LV). left. reflexivity.
      * instantiate (1 := (Z.to_nat (grow (n + zlen t)) - List.length t)%nat). unfold zlen in *. lia.
      * lia.
      * unfold in_block. rewrite G3 by (right; left; reflexivity). exact B2.
    + unfold zlen in *. lia.
    + reflexivity.
Qed.

(** ** Appending *)
Lemma space_write m ds a F t x k s :
  Space m ds a F t x k -> cstr s -> (List.length s < k)%nat ->
  exists m', wr m (x, zlen t) s = Ok m' /\ Space m' ds a F (t ++ s) x (k - List.length s).
Proof.
  intros [H1 H2 H3 H4 H5 H6 H7 H8 H9 H10 H11] CS L. unfold in_block in H11.
  assert (Z0 := zlen_nonneg t). assert (ZS : zlen s = Z.of_nat (List.length s)) by reflexivity.
  rewrite (wr_ok m x _ (zlen t) s H11); [|lia|].
  2:{ cbn [b_data]. rewrite zlen_app. unfold zlen at 4. rewrite repeat_length. lia. }
  eexists. split; [reflexivity|]. cbn [b_heap b_data].
  replace (Z.to_nat (zlen t)) with (List.length t) by (unfold zlen; lia).
  rewrite firstn_app, firstn_all, Nat.sub_diag. cbn [firstn]. rewrite app_nil_r.
  rewrite skipn_app. rewrite skipn_all2 by lia. cbn [app].
  replace (List.length t + List.length s - List.length t)%nat with (List.length s) by lia.
  rewrite skipn_repeat.
  assert (XS : x <> d_self ds).
  { assert (N := live_nodup _ _ H1). inversion N as [|p q U V]; subst. intro. subst. apply U. left. reflexivity. }
  constructor; auto.
  - apply live_set; [exact H1|right; left; reflexivity].
  - intros b kk K. rewrite mget_mset_neq; [apply H2; assumption|]. intro. subst.
    assert (N := live_nodup _ _ H1). inversion N as [|p q U V]; subst. inversion V as [|p q U' V']; subst.
    apply U'. apply (in_map fst) in K. exact K.
  - destruct H3 as [d [D1 D2]]. exists d. split; [|assumption]. unfold in_block. rewrite mget_mset_neq by congruence. exact D1.
  - rewrite H8, zlen_app. lia.
  - rewrite zlen_app. lia.
  - intro K. apply in_app_or in K. destruct K as [K|K]; [exact (H10 K)|exact (CS K)].
  - unfold in_block. rewrite mget_mset_eq. rewrite app_assoc. reflexivity.
Qed.

Lemma space_read m ds a F t x k : Space m ds a F t x k -> (0 < k)%nat -> rd_str m (x, 0) = Ok t.
Proof.
  intros [H1 H2 H3 H4 H5 H6 H7 H8 H9 H10 H11] K. eapply rd_str_0; [exact H11|]. cbn [b_data]. apply scan0_zeros; assumption.
Qed.

Lemma append_text a t s : text a = Some t -> append a s = appended a (t ++ s).
Proof. intro H. unfold append, appended. rewrite H. reflexivity. Qed.

Lemma rd_frame m b k s : mget m b = Some k -> scan0 (b_data k) = Some s ->
  exists l, rd m (b, 0) = Ok l /\ zlen s <= zlen l /\ firstn (List.length s) l = s.
Proof.
  intros G S. exists (b_data k). unfold rd, mblk. cbn [fst snd]. rewrite G. cbn [bind].
  assert (Z0 := zlen_nonneg (b_data k)). destruct (Z.leb_spec 0 (zlen (b_data k))); [|lia].
  change (0 <=? 0) with true. cbn [andb]. split; [reflexivity|].
  destruct (scan0_some _ _ S) as [_ [r E]]. rewrite E. split.
  - rewrite zlen_app. pose proof (zlen_nonneg (NUL :: r)). lia.
  - rewrite firstn_app, firstn_all, Nat.sub_diag. cbn [firstn]. apply app_nil_r.
Qed.

Lemma cat_ok junk m ds a F b k s t :
  Inv m ds a F -> In (b, k) F -> scan0 (b_data k) = Some s -> text a = Some t -> zlen s + zlen t <= 1073741820 ->
  exists m' ds', arg_dstr_cat junk m ds (b, 0) = Ok (m', ds') /\ Inv m' ds' (append a s) F
    /\ d_self ds' = d_self ds /\ fst (d_data ds') <> b.
Proof.
  intros I IN S T BD. assert (Z0 := zlen_nonneg t). assert (ZS := zlen_nonneg s).
  unfold arg_dstr_cat. rewrite (rd_str_0 m b k s (i_frame _ _ _ _ I _ _ IN) S). cbn [bind].
  rewrite c_int_ok by (unfold INT_MIN, INT_MAX; lia). cbn [bind].
  rewrite c_int_ok by (unfold INT_MIN, INT_MAX; lia). cbn [bind].
  destruct (setup_ok junk m ds a F t (zlen s + 1) I T) as [m' [ds' [x [j [E [SP [L SF]]]]]]]; [lia|lia|].
  rewrite E. cbn [bind]. rewrite (sp_data _ _ _ _ _ _ _ SP). rewrite (space_read _ _ _ _ _ _ _ SP) by lia. cbn [bind].
  assert (GB := sp_frame _ _ _ _ _ _ _ SP _ _ IN).
  rewrite (rd_str_0 m' b k s GB S). cbn [bind].
  destruct (rd_frame m' b k s GB S) as [l [RL [LL FL]]].
  assert (XB : x <> b).
  { assert (N := live_nodup _ _ (sp_live _ _ _ _ _ _ _ SP)). inversion N as [|p q U V]; subst. inversion V as [|p q U' V']; subst.
    intro. subst. apply U'. apply (in_map fst) in IN. exact IN. }
  unfold memcpy. rewrite RL. cbn [bind]. destruct (Z.ltb_spec (zlen l) (zlen s)); [lia|].
  unfold overlap, padd. cbn [fst snd]. replace (Nat.eqb x b) with false by (symmetry; apply Nat.eqb_neq; assumption).
  cbn [andb]. rewrite andb_false_r. rewrite Z.add_0_l.
  replace (Z.to_nat (zlen s)) with (List.length s) by (unfold zlen; lia). rewrite FL.
  destruct (space_write m' ds' a F t x j s SP) as [m2 [W SP2]].
  { apply (scan0_some _ _ S). } { unfold zlen in *. lia. }
  rewrite W. cbn [bind]. exists m2, ds'. split; [reflexivity|]. split; [|split].
  - rewrite (append_text a t s T). apply (space_inv _ _ _ _ _ _ _ SP2). unfold zlen in *. lia.
  - exact SF.
  - rewrite (sp_data _ _ _ _ _ _ _ SP). exact XB.
Qed.

Lemma catc_ok junk m ds a F c t :
  Inv m ds a F -> text a = Some t -> zlen t <= 1073741820 ->
  exists m' ds', arg_dstr_catc junk m ds c = Ok (m', ds') /\ Inv m' ds' (append a (upto_nul [c])) F /\ d_self ds' = d_self ds.
Proof.
  intros I T BD. assert (Z0 := zlen_nonneg t). unfold arg_dstr_catc.
  destruct (setup_ok junk m ds a F t 2 I T) as [m' [ds' [x [j [E [SP [L SF]]]]]]]; [lia|lia|].
  rewrite E. cbn [bind]. rewrite (sp_data _ _ _ _ _ _ _ SP). rewrite (space_read _ _ _ _ _ _ _ SP) by lia. cbn [bind].
  unfold padd. cbn [fst snd]. rewrite Z.add_0_l. rewrite (append_text a t _ T). cbn [upto_nul].
  destruct (ceqb_spec c NUL) as [->|N].
  - (* a NUL byte goes where a NUL byte is *)
    assert (B := sp_block _ _ _ _ _ _ _ SP). unfold in_block in B.
    rewrite (wr_ok m' x _ (zlen t) [NUL] B); [|lia|].
    2:{ cbn [b_data]. rewrite zlen_app. unfold zlen at 4. rewrite repeat_length. change (zlen [NUL]) with 1. lia. }
    cbn [bind b_heap b_data List.length].
    replace (Z.to_nat (zlen t)) with (List.length t) by (unfold zlen; lia).
    rewrite firstn_app, firstn_all, Nat.sub_diag. cbn [firstn]. rewrite app_nil_r.
    rewrite skipn_app, skipn_all2 by lia. cbn [app].
    replace (List.length t + 1 - List.length t)%nat with 1%nat by lia.
    assert (J : NUL :: skipn 1 (repeat NUL j) = repeat NUL j) by (destruct j; [lia|reflexivity]).
    rewrite J. eexists _, ds'. split; [reflexivity|]. split; [|exact SF].
    try rewrite app_nil_r. apply (space_inv _ _ _ _ _ x j); [|lia].
    destruct SP as [H1 H2 H3 H4 H5 H6 H7 H8 H9 H10 H11]. constructor; auto.
    + apply live_set; [exact H1|right; left; reflexivity].
    + intros b kk K. destruct (Nat.eq_dec b x) as [->|NE].
      * rewrite mget_mset_eq. apply H2 in K. congruence.
      * rewrite mget_mset_neq by assumption. auto.
    + destruct H3 as [d [D1 D2]]. exists d. split; [|assumption]. unfold in_block. destruct (Nat.eq_dec (d_self ds') x) as [E1|E1].
      * rewrite E1, mget_mset_eq. unfold in_block in *. congruence.
      * rewrite mget_mset_neq by assumption. exact D1.
    + unfold in_block. apply mget_mset_eq.
  - destruct (space_write m' ds' a F t x j [c] SP) as [m2 [W SP2]].
    { intros [K|[]]. congruence. } { cbn [List.length]. lia. }
    rewrite W. cbn [bind]. exists m2, ds'. split; [reflexivity|]. split; [|exact SF].
    apply (space_inv _ _ _ _ _ _ _ SP2). cbn [List.length]. lia.
Qed.

(** ** Formatted appending *)
Lemma scan0_upto l r : scan0 (l ++ NUL :: r) = Some (upto_nul l).
Proof.
  induction l as [|c l IH]; cbn [app scan0 upto_nul].
  - rewrite ceqb_refl. reflexivity.
  - destruct (ceqb c NUL); [reflexivity|]. rewrite IH. reflexivity.
Qed.

Lemma upto_snoc l : upto_nul (l ++ [NUL]) = upto_nul l.
Proof. induction l as [|c l IH]; cbn [app upto_nul]; [rewrite ceqb_refl; reflexivity|]. rewrite IH. reflexivity. Qed.

Lemma upto_len l : (List.length (upto_nul l) <= List.length l)%nat.
Proof. induction l as [|c l IH]; cbn [upto_nul List.length]; [lia|]. destruct (ceqb c NUL); cbn [List.length]; lia. Qed.

Lemma upto_firstn n l : (List.length (upto_nul (firstn n l)) < n)%nat -> upto_nul (firstn n l) = upto_nul l.
Proof.
  revert l. induction n as [|n IH]; intros l H; [lia|]. destruct l as [|c l]; [reflexivity|].
  cbn [firstn upto_nul] in *. destruct (ceqb c NUL); [reflexivity|]. cbn [List.length] in H. f_equal. apply IH. lia.
Qed.

Lemma inv_frame_write m ds a b k k' F :
  Inv m ds a ((b, k) :: F) -> fst (d_data ds) <> b -> Inv (mset m b (Some k')) ds a ((b, k') :: F).
Proof.
  intros I NE. destruct (frame_ne _ _ _ _ b k I (or_introl eq_refl)) as [NS NO].
  destruct I as [LV FR [e [SB SL]] LG SH].
  assert (NF : ~ In b (map fst F)).
  { assert (N := live_nodup _ _ LV). cbn [map fst] in N. inversion N as [|p q U V]; subst.
    apply NoDup_remove_2 in V. intro K. apply V. apply in_or_app. right. assumption. }
  constructor.
  - cbn [map fst] in *. apply live_set; [exact LV|]. right. apply in_or_app. right. left. reflexivity.
  - intros c q [K|K].
    + injection K as <- <-. apply mget_mset_eq.
    + rewrite mget_mset_neq; [apply FR; right; assumption|]. intro. subst. apply NF. apply (in_map fst) in K. exact K.
  - exists e. split; [|assumption]. unfold in_block. rewrite mget_mset_neq; [assumption|congruence].
  - exact LG.
  - destruct SH as [RL SH]. split.
    + apply (releasable_ext m _ ds a RL). intro X. apply mget_mset_neq. assumption.
    + destruct (d_app ds) as [x|] eqn:AP.
      * destruct SH as [S1 [S2 [t [j [T1 [T2 [T3 [T4 [T5 T6]]]]]]]]].
        split; [assumption|]. split; [assumption|]. exists t, j. repeat split; auto; try tauto.
        unfold in_block. rewrite mget_mset_neq; [exact T4|]. rewrite S2 in NE. exact NE.
      * destruct SH as [S1 S2]. split; [assumption|]. destruct (text a); [|assumption].
        rewrite <- S2. apply rd_str_ext. apply mget_mset_neq. assumption.
Qed.

Definition zeros (n : Z) : mblock := {| b_heap := true; b_data := repeat NUL (Z.to_nat n) |}.

Lemma data_below m ds a F t : Inv m ds a F -> text a = Some t -> (fst (d_data ds) < mnext m)%nat.
Proof.
  intros I T. assert (R := text_read _ _ _ _ _ I T). apply rd_str_alive in R.
  apply (live_iff _ _ (i_live _ _ _ _ I)) in R. apply (live_next _ _ (i_live _ _ _ _ I)). assumption.
Qed.

(** A cleared buffer. *)
Lemma buffer_ok junk m ds a F t n :
  Inv m ds a F -> text a = Some t -> 0 <= n ->
  exists m', memset0 (fst (xmalloc junk m n)) (mnext m, 0) n = Ok m' /\ Inv m' ds a ((mnext m, zeros n) :: F)
    /\ fst (d_data ds) <> mnext m.
Proof.
  intros I T N. assert (DB := data_below _ _ _ _ _ I T).
  assert (I1 := inv_new _ _ _ _ true (fresh junk n) I).
  assert (G1 : mget (fst (xmalloc junk m n)) (mnext m) = Some {| b_heap := true; b_data := fresh junk n |}) by apply xmalloc_get.
  rewrite (memset0_ok _ (mnext m) _ n G1) by (cbn [b_data]; try rewrite fresh_len; lia).
  eexists. split; [reflexivity|]. split; [|lia].
  cbn [b_heap]. apply (inv_frame_write _ _ _ _ _ _ _ I1). lia.
Qed.

Lemma vsn_bytes legacy n out :
  16 <= n ->
  let '(bytes, r) := vsnprintf legacy n out in
  zlen bytes <= n + 1 /\
  (zlen (upto_nul bytes) < n -> upto_nul bytes = upto_nul out) /\
  (n <= zlen (upto_nul bytes) -> n <= zlen out) /\
  (r <= zlen out).
Proof.
  intro N. unfold vsnprintf. assert (ZO := zlen_nonneg out).
  assert (UL : zlen (upto_nul out) <= zlen out) by (assert (X := upto_len out); unfold zlen; lia).
  destruct legacy.
  - destruct (Z.leb_spec (zlen out) n) as [A|A]; [|destruct (Z.eqb_spec (zlen out) (n + 1)) as [B|B]].
    + rewrite upto_snoc, zlen_app. change (zlen [NUL]) with 1. repeat split; lia.
    + repeat split; lia.
    + assert (LF : zlen (firstn (Z.to_nat (n + 1)) out) = n + 1).
      { unfold zlen in *. rewrite firstn_length. lia. }
      repeat split; try lia. intro H. apply upto_firstn. unfold zlen in H. lia.
  - rewrite upto_snoc, zlen_app. change (zlen [NUL]) with 1.
    assert (LF : zlen (firstn (Z.to_nat n) out) <= n /\ zlen (firstn (Z.to_nat n) out) <= zlen out).
    { unfold zlen in *. rewrite firstn_length. lia. }
    assert (X := upto_len (firstn (Z.to_nat n) out)).
    repeat split; try lia.
    + intro H. apply upto_firstn. unfold zlen in H. lia.
    + unfold zlen in *. lia.
Qed.

Lemma catf_loop_ok junk legacy out ds a F t :
  text a = Some t -> zlen out <= 536870912 ->
  forall fuel m buff n,
    Inv m ds a ((buff, zeros (n + 2)) :: F) -> fst (d_data ds) <> buff ->
    16 <= n <= 1073741824 -> (1 <= fuel)%nat -> zlen out + 2 - n <= Z.of_nat fuel ->
    exists m' b k, catf_loop junk legacy out fuel m buff n = Ok (m', b) /\ Inv m' ds a ((b, k) :: F)
      /\ b_heap k = true /\ scan0 (b_data k) = Some (upto_nul out).
Proof.
  intros T BD. induction fuel as [|fuel IH]; intros m buff n I NE NB F1 FU; [lia|].
  cbn [catf_loop]. assert (V := vsn_bytes legacy n out (proj1 NB)).
  destruct (vsnprintf legacy n out) as [bytes r]. destruct V as [V1 [V2 [V3 V4]]].
  assert (ZO := zlen_nonneg out). assert (ZB := zlen_nonneg bytes).
  assert (GB : mget m buff = Some (zeros (n + 2))) by (apply (i_frame _ _ _ _ I); left; reflexivity).
  rewrite (wr_ok m buff _ 0 bytes GB); [|lia|].
  2:{ cbn [zeros b_data]. unfold zlen at 2. rewrite repeat_length. lia. }
  cbn [zeros b_heap b_data bind]. change (Z.to_nat 0) with 0%nat. cbn [firstn app plus].
  rewrite skipn_repeat.
  set (k := {| b_heap := true; b_data := bytes ++ repeat NUL (Z.to_nat (n + 2) - List.length bytes) |}).
  assert (I2 : Inv (mset m buff (Some k)) ds a ((buff, k) :: F)) by (apply (inv_frame_write _ _ _ _ _ _ _ I NE)).
  assert (SC : scan0 (b_data k) = Some (upto_nul bytes)).
  { cbn [k b_data].
    assert (X : (Z.to_nat (n + 2) - List.length bytes)%nat = S (Z.to_nat (n + 2) - List.length bytes - 1)) by (unfold zlen in *; lia).
    rewrite X. cbn [repeat]. apply scan0_upto. }
  rewrite (rd_str_0 _ buff k (upto_nul bytes) (mget_mset_eq _ _ _) SC). cbn [bind].
  destruct (Z.ltb_spec (zlen (upto_nul bytes)) n) as [DONE|MORE].
  - exists (mset m buff (Some k)), buff, k. split; [reflexivity|]. split; [exact I2|]. split; [reflexivity|].
    rewrite SC, (V2 DONE). reflexivity.
  - specialize (V3 MORE).
    assert (NN : exists n', (if n <? r then Ok r else c_int (n + n)) = Ok n' /\ n + 1 <= n' <= 1073741824).
    { destruct (Z.ltb_spec n r).
      - exists r. split; [reflexivity|lia].
      - exists (n + n). split; [apply c_int_ok; unfold INT_MIN, INT_MAX; lia|lia]. }
    destruct NN as [n' [EN RN]]. rewrite EN. cbn [bind].
    rewrite (xfree_ok _ buff k (mget_mset_eq _ _ _)) by reflexivity. cbn [bind].
    rewrite c_int_ok by (unfold INT_MIN, INT_MAX; lia). cbn [bind].
    assert (I3 := inv_del _ _ _ _ _ _ I2 NE).
    set (m3 := mset (mset m buff (Some k)) buff None) in *.
    destruct (buffer_ok junk m3 ds a F t (n' + 2) I3 T) as [m4 [E4 [I4 NE4]]]; [lia|].
    destruct (xmalloc junk m3 (n' + 2)) as [m5 nb] eqn:XM.
    assert (nb = mnext m3) by (injection XM as _ <-; reflexivity). subst nb. cbn [fst] in E4. rewrite E4. cbn [bind].
    apply (IH m4 (mnext m3) n' I4 NE4); lia.
Qed.

Lemma catf_ok junk legacy m ds a F t flen out :
  Inv m ds a F -> text a = Some t -> 0 <= flen -> flen + zlen out + zlen t <= 536870912 ->
  exists m' ds', arg_dstr_catf junk legacy m ds (Some flen) out = Ok (m', ds')
    /\ Inv m' ds' (append a (upto_nul out)) F /\ d_self ds' = d_self ds.
Proof.
  intros I T FL BD. assert (ZO := zlen_nonneg out). assert (ZT := zlen_nonneg t).
  unfold arg_dstr_catf. rewrite c_int_ok by (unfold INT_MIN, INT_MAX; lia). cbn [bind].
  set (n := if 2 * flen <? 16 then 16 else 2 * flen).
  assert (NB : 16 <= n <= 1073741824) by (unfold n; destruct (Z.ltb_spec (2 * flen) 16); lia).
  rewrite c_int_ok by (unfold INT_MIN, INT_MAX; lia). cbn [bind].
  destruct (buffer_ok junk m ds a F t (n + 2) I T) as [m4 [E4 [I4 NE4]]]; [lia|].
  destruct (xmalloc junk m (n + 2)) as [m5 nb] eqn:XM.
  assert (nb = mnext m) by (injection XM as _ <-; reflexivity). subst nb. cbn [fst] in E4. rewrite E4. cbn [bind].
  destruct (catf_loop_ok junk legacy out ds a F t T) with (fuel := (4 + List.length out)%nat) (m := m4) (buff := mnext m) (n := n)
    as [m6 [b [k [E6 [I6 [H6 S6]]]]]]; auto; try lia.
  { unfold zlen in *. lia. }
  rewrite E6. cbn [bind].
  assert (LU : zlen (upto_nul out) <= zlen out) by (assert (X := upto_len out); unfold zlen; lia).
  destruct (cat_ok junk m6 ds a _ b k (upto_nul out) t I6 (or_introl eq_refl) S6 T) as [m7 [ds7 [E7 [I7 [S7 N7]]]]]; [lia|].
  rewrite E7. cbn [bind].
  assert (G7 : mget m7 b = Some k) by (apply (i_frame _ _ _ _ I7); left; reflexivity).
  rewrite (xfree_ok m7 b k G7 H6). cbn [bind]. exists (mset m7 b None), ds7. split; [reflexivity|]. split; [|exact S7].
  apply (inv_del _ _ _ _ _ _ I7 N7).
Qed.

(** ** Reset, create, destroy *)
Lemma reset_ok m ds a F :
  Inv m ds a F ->
  exists m' ds', arg_dstr_reset m ds = Ok (m', ds') /\ Inv m' ds' (spec_op a OReset) F /\ d_self ds' = d_self ds /\ own ds' = [].
Proof.
  intro I. destruct (free_ok m ds a F I) as [m1 [E1 I1]]. unfold arg_dstr_reset. rewrite E1. cbn [bind].
  set (ds1 := upd_data (d_data ds) FStatic ds) in *.
  destruct (drop_append_ok m1 ds1 (d_self ds :: map fst F)) as [m2 [E2 [L2 [V2 G2]]]].
  - assert (X := i_live _ _ _ _ I1). unfold own in X. cbn [ds1 d_free upd_data app d_self] in X.
    eapply perm_live; [|exact X]. apply Permutation_middle.
  - destruct (d_app ds1) as [x|] eqn:AP.
    + apply (app_block _ _ _ _ (i_shape _ _ _ _ I1) AP).
    + destruct (i_shape _ _ _ _ I1) as [_ SH]. rewrite AP in SH. apply SH.
  - rewrite E2. cbn [bind]. unfold sbuf. cbn [upd_app ds1 d_self upd_data].
    destruct (i_self _ _ _ _ I1) as [d [D1 D2]]. cbn [ds1 d_self upd_data] in D1.
    assert (GS : mget m2 (d_self ds) = Some {| b_heap := true; b_data := d |}) by (rewrite G2 by (left; reflexivity); exact D1).
    rewrite (wr_ok m2 _ _ 0 [NUL] GS); [|lia|change (zlen [NUL]) with 1; cbn [b_data]; unfold ARG_DSTR_SIZE in D2; lia].
    cbn [bind b_heap b_data List.length]. change (Z.to_nat 0) with 0%nat. cbn [firstn app plus].
    eexists _, _. split; [reflexivity|]. split; [|split; reflexivity].
    constructor; cbn [d_self upd_data upd_app].
    + apply live_set; [exact V2|left; reflexivity].
    + intros b k K. rewrite mget_mset_neq.
      * rewrite G2 by (right; apply (in_map fst) in K; exact K). apply (i_frame _ _ _ _ I1). exact K.
      * destruct (frame_ne _ _ _ _ _ _ I K). assumption.
    + eexists. split; [apply mget_mset_eq|]. rewrite zlen_cons. unfold zlen. rewrite skipn_length. unfold zlen in D2. unfold ARG_DSTR_SIZE in *. lia.
    + cbn [mlog mset]. rewrite L2. rewrite (i_log _ _ _ _ I1). reflexivity.
    + split; [reflexivity|]. cbn [d_app upd_app upd_data d_size text spec_op d_data]. split; [reflexivity|].
      eapply rd_str_0; [apply mget_mset_eq|]. cbn [b_data scan0]. rewrite ceqb_refl. reflexivity.
Qed.

Lemma create_ok junk : exists m ds, arg_dstr_create junk mem0 = Ok (m, ds) /\ Inv m ds abs0 [].
Proof.
  unfold arg_dstr_create. change (ARG_DSTR_SIZE + 1) with 201.
  assert (G1 := xmalloc_get junk mem0 201).
  destruct (xmalloc junk mem0 201) as [m1 nb] eqn:XM.
  assert (nb = 0%nat) by (injection XM as _ <-; reflexivity). subst nb. cbn [fst mnext mem0] in G1.
  rewrite (memset0_ok m1 0%nat _ 201 G1) by (cbn [b_data]; try rewrite fresh_len; lia). cbn [bind b_heap].
  set (m2 := mset m1 0%nat _).
  erewrite (wr_ok m2 0%nat _ 0 [NUL] (mget_mset_eq _ _ _)); [|lia|cbn [b_data]; change (zlen [NUL]) with 1; unfold zlen; rewrite repeat_length; lia].
  cbn [bind b_heap b_data List.length]. change (Z.to_nat 0) with 0%nat. cbn [firstn app plus]. rewrite skipn_repeat.
  eexists _, _. split; [reflexivity|]. constructor; cbn [d_self].
  - unfold own. cbn [d_free d_app app map]. apply live_set; [|left; reflexivity]. unfold m2. apply live_set; [|left; reflexivity].
    assert (X := live_new mem0 [] true (fresh junk 201)).
    change (fst (mnew mem0 true (fresh junk 201))) with (fst (xmalloc junk mem0 201)) in X. rewrite XM in X. apply X.
    constructor; [|constructor|]; intros i; cbn [In mem0 mget]; [split; intro K; [congruence|contradiction]|contradiction].
  - intros b k [].
  - eexists. split; [apply mget_mset_eq|]. rewrite zlen_cons. unfold zlen. rewrite repeat_length. reflexivity.
  - injection XM as <-. reflexivity.
  - split; [reflexivity|]. cbn [d_app d_size text abs0 d_data]. split; [reflexivity|].
    eapply rd_str_0; [apply mget_mset_eq|]. cbn [b_data scan0]. rewrite ceqb_refl. reflexivity.
Qed.

Lemma destroy_ok m ds a F :
  Inv m ds a F ->
  exists m', arg_dstr_destroy m ds = Ok m' /\ live m' (map fst F) /\ (forall b k, In (b, k) F -> mget m' b = Some k)
    /\ mlog m' = give_back a.
Proof.
  intro I. destruct (reset_ok m ds a F I) as [m1 [ds1 [E1 [I1 [S1 O1]]]]]. unfold arg_dstr_destroy. rewrite E1. cbn [bind].
  destruct (i_self _ _ _ _ I1) as [d [D1 D2]]. rewrite (xfree_ok m1 _ _ D1) by reflexivity.
  eexists. split; [reflexivity|]. assert (LV := i_live _ _ _ _ I1). rewrite O1 in LV. cbn [app] in LV.
  assert (N := live_nodup _ _ LV). inversion N as [|p q U V]; subst. split; [|split].
  - apply (live_del _ _ _ _ LV); auto. intro i. cbn [In]. intuition congruence.
  - intros b k K. rewrite mget_mset_neq; [apply (i_frame _ _ _ _ I1); assumption|].
    intro. subst. apply U. apply (in_map fst) in K. exact K.
  - cbn [mlog mset]. apply (i_log _ _ _ _ I1).
Qed.
