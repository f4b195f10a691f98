(** PropRexCost: how many steps the matching of one argument against a pattern takes (C83). [trex_c] is [trex] with a count of the
    visits of nodes of the compiled pattern and of items of sets. *)
From Coq Require Import ZArith String List Ascii Bool Lia Psatz.
From Verif Require Import Base RexModel RexSpec RexMatch RexTerm RexCompile RexForward RexComplete RexCost PropRex.
Import ListNotations.
Open Scope Z_scope.

(** ** What the bounds are made of *)

(** The number of repetitions in an expression: suffixes *, +, ? and {...} *)
Fixpoint reps (e : elem) : Z :=
  match e with Repeat _ _ e => 1 + reps e | Group _ a => reps_alt a | _ => 0 end
with reps_seq (s : seq) : Z := match s with One e => reps e | More e s => reps e + reps_seq s end
with reps_alt (a : alt) : Z := match a with Just _ s => reps_seq s | Or _ s a => reps_seq s + reps_alt a end.
(** Expressions that take at least one character whenever they match *)
Fixpoint solid (e : elem) : Prop :=
  match e with
  | Boundary _ | End => False
  | Repeat lo _ e => 1 <= lo < 65536 /\ solid e
  | Group _ a => solid_alt a
  | _ => True
  end
with solid_seq (s : seq) : Prop := match s with One e => solid e | More e s => solid e \/ solid_seq s end
with solid_alt (a : alt) : Prop := match a with Just _ s => solid_seq s | Or _ s a => solid_seq s /\ solid_alt a end.
(** [N] is a bound for the number of times that a repetition tries its operand: if that takes a character each time, the length of the
    text; the upper limit of the repetition; never more than 65536 *)
Definition tries (text : str) (N : Z) (e : elem) : Prop :=
  match e with
  | Repeat _ hi e => 65536 <= N \/ solid e /\ 1 <= N /\ zlen text <= N \/ exists h, hi = Some h /\ 0 <= h < 65535 /\ h <= N
  | _ => True
  end.

(** ** The answers are those of the matcher without the count *)
Section Erase.
Context (T : list node) (nsub flags : Z) (text : str).
Lemma fst_cbind {A B} (m : cost A) (k : A -> cost B) : fst (cbind m k) = (a <- fst m ;; fst (k a)).
Proof. destruct m as [[a|u|] c]; cbn [cbind fst bind]; [|reflexivity|reflexivity]. destruct (k a); reflexivity. Qed.
Lemma fst_tick {A} (m : cost A) : fst (tick m) = fst m.
Proof. destruct m; reflexivity. Qed.
Lemma fst_calm {A} (r : res A) : fst (calm r) = r.
Proof. reflexivity. Qed.
Lemma bind_ext {A B} (m : res A) (k k' : A -> res B) : (forall a, k a = k' a) -> bind m k = bind m k'.
Proof. intro H. destruct m; cbn [bind]; auto. Qed.

Lemma matchclass_erase fuel : forall i c, fst (matchclass_c T flags fuel i c) = trex_matchclass T flags fuel i c.
Proof.
  induction fuel as [|fuel IH]; intros i c; [reflexivity|]. cbn [matchclass_c trex_matchclass]. rewrite fst_cbind, fst_tick, fst_calm.
  apply bind_ext. intro n. destruct (class_item flags n c); [reflexivity|]. destruct (n_next n =? -1); [reflexivity|apply IH].
Qed.
Definition erases (mc : Z -> nat -> option Z -> cost (option nat)) (mn : Z -> nat -> option Z -> res (option nat)) : Prop :=
  forall i s next, fst (mc i s next) = mn i s next.
Lemma stop_here_erase mc mn p0 p1 stop next nm s : erases mc mn -> fst (stop_here_c T mc p0 p1 stop next nm s) = stop_here T mn p0 p1 stop next nm s.
Proof.
  intro E. unfold stop_here_c, stop_here. destruct stop as [g|]; [|reflexivity]. rewrite fst_cbind, fst_calm. apply bind_ext. intro gn.
  destruct (negb _ || negb _); [|reflexivity]. rewrite fst_cbind, fst_calm. apply bind_ext. intro gnext. rewrite fst_cbind, E. apply bind_ext.
  intros [?|]; reflexivity.
Qed.
Lemma greedy_erase mc mn p0 p1 left stop next : erases mc mn -> forall fuel nm s good,
  fst (greedy_c T text mc p0 p1 left stop next fuel nm s good) = greedy T text mn p0 p1 left stop next fuel nm s good.
Proof.
  intro E. induction fuel as [|fuel IH]; intros nm s good; [reflexivity|]. cbn [greedy_c greedy]. destruct ((nm =? 65535) || (nm <? p1)); [|reflexivity].
  rewrite fst_cbind, E. apply bind_ext. intros [s'|]; [|reflexivity]. rewrite fst_cbind, (stop_here_erase mc mn) by exact E. apply bind_ext.
  intro b. destruct (b || (List.length text <=? s')%nat); [reflexivity|apply IH].
Qed.
Lemma branch_erase mc mn : erases mc mn -> forall fuel temp asd, fst (branch_c T mc fuel temp asd) = branch T mn fuel temp asd.
Proof.
  intro E. induction fuel as [|fuel IH]; intros temp asd; [reflexivity|]. cbn [branch_c branch]. rewrite fst_cbind, E. apply bind_ext.
  intros [asd'|]; [|reflexivity]. rewrite fst_cbind, fst_calm. apply bind_ext. intro n. destruct (n_next n =? -1); [reflexivity|apply IH].
Qed.
Lemma sequence_erase mc mn : erases mc mn -> forall fuel n cur next, fst (sequence_c T mc fuel n cur next) = sequence T mn fuel n cur next.
Proof.
  intro E. induction fuel as [|fuel IH]; intros n cur next; [reflexivity|]. cbn [sequence_c sequence]. rewrite fst_cbind, fst_calm. apply bind_ext.
  intro nd. rewrite fst_cbind, E. apply bind_ext. intros [cur'|]; [|reflexivity]. destruct (n_next nd =? -1); [reflexivity|apply IH].
Qed.
Lemma matchnode_erase fuel : erases (matchnode_c T nsub flags text fuel) (trex_matchnode T nsub flags text fuel).
Proof.
  induction fuel as [|fuel IH]; intros i s next; [reflexivity|]. cbn [matchnode_c trex_matchnode]. rewrite fst_cbind, fst_tick, fst_calm.
  apply bind_ext. intro n. cbv zeta. destruct (n_type n =? OP_GREEDY); [apply greedy_erase; exact IH|].
  destruct (n_type n =? OP_OR).
  { rewrite fst_cbind, (branch_erase _ _ IH). apply bind_ext. intros [e|]; [reflexivity|apply branch_erase; exact IH]. }
  destruct ((n_type n =? OP_EXPR) || (n_type n =? OP_NOCAPEXPR)).
  { destruct ((n_type n =? OP_EXPR) && _); [reflexivity|apply sequence_erase; exact IH]. }
  destruct (n_type n =? OP_WB); [reflexivity|]. destruct (n_type n =? OP_BOL); [reflexivity|]. destruct (n_type n =? OP_EOL); [reflexivity|].
  destruct (n_type n =? OP_DOT); [reflexivity|]. destruct ((n_type n =? OP_NCLASS) || (n_type n =? OP_CLASS)).
  { rewrite fst_cbind, fst_calm. apply bind_ext. intro c. rewrite fst_cbind, matchclass_erase. apply bind_ext. intro b. reflexivity. }
  destruct (n_type n =? OP_CCLASS); reflexivity.
Qed.
Lemma match_erase : fst (match_c T nsub flags text) = trex_match T nsub flags text.
Proof. unfold match_c, trex_match. rewrite fst_cbind, matchnode_erase. apply bind_ext. intros [e|]; reflexivity. Qed.
End Erase.

Theorem C83_answers pat flags text : fst (trex_c pat flags text) = trex pat flags text.
Proof. unfold trex_c, trex. destruct (trex_compile pat) as [u st| | |]; try reflexivity. apply match_erase. Qed.

(** ** Progress *)
Definition solid_nk (x : nk) : Prop := match x with NE e => solid e | NB => False | NO b s a => solid_seq s /\ solid_alt a end.
Lemma solid_seq_list s : solid_seq s -> Exists solid_nk (seq_list s).
Proof. induction s as [e|e s IH]; cbn [solid_seq seq_list]; [intro H; left; exact H|]. intros [H|H]; [left; exact H|right; auto]. Qed.
Lemma solid_start b s : solid_seq s -> Exists solid_nk (start b s).
Proof. intro H. apply solid_seq_list in H. destruct b; cbn [start]; auto. Qed.
Lemma solid_alt_list a : solid_alt a -> Exists solid_nk (alt_list a).
Proof. destruct a as [b s|b s a]; cbn [solid_alt alt_list]; [apply solid_start|intro H; left; exact H]. Qed.

Section Moves.
Context (T : list node) (nsub flags : Z) (text : str).
Notation mn := (trex_matchnode T nsub flags text).
Definition moves (f : Z -> nat -> option Z -> res (option nat)) : Prop :=
  forall i x s next j, rep T nsub i x -> f i s next = Ok (Some j) -> (s <= j)%nat /\ (solid_nk x -> (s < j)%nat).

Lemma greedy_moves f e left p0 p1 stop next : moves f -> repl T nsub left [NE e] -> forall fuel nm s j, 0 <= nm ->
  greedy T text f p0 p1 left stop next fuel nm s s = Ok (Some j) -> (s <= j)%nat /\ (solid e -> nm < p0 -> (s < j)%nat).
Proof.
  intros F R. assert (RE : rep T nsub left (NE e)) by (inversion R; auto).
  assert (EN : forall n, enough p0 p1 n = true -> p0 <= n).
  { intro n. unfold enough. rewrite !orb_true_iff, !andb_true_iff, !Z.eqb_eq, !Z.leb_le. lia. }
  induction fuel as [|fuel IH]; intros nm s j N; cbn [greedy]; [discriminate|].
  assert (FIN : Ok (if enough p0 p1 nm then Some s else None) = Ok (Some j) -> (s <= j)%nat /\ (solid e -> nm < p0 -> (s < j)%nat)).
  { destruct (enough p0 p1 nm) eqn:E; [|discriminate]. apply EN in E. intro H. injection H as <-. split; [lia|]. intros _ L. lia. }
  destruct ((nm =? 65535) || (nm <? p1)); [|exact FIN].
  destruct (f left s stop) as [[s'|]|u|] eqn:E; cbn [bind]; try discriminate; [|exact FIN].
  destruct (F _ _ _ _ _ RE E) as [L1 M1]. cbn [solid_nk] in M1.
  destruct (stop_here T f p0 p1 stop next (nm + 1) s') as [b|u|]; cbn [bind]; try discriminate.
  destruct (b || (List.length text <=? s')%nat).
  - destruct (enough p0 p1 (nm + 1)); [|discriminate]. intro H. injection H as <-. split; [exact L1|]. intros SO _. apply M1. exact SO.
  - intro H. destruct (IH (nm + 1) s' j ltac:(lia) H) as [L2 _]. split; [lia|]. intros SO _. specialize (M1 SO). lia.
Qed.
Lemma branch_moves f : moves f -> forall fuel i l s j, repl T nsub i l -> branch T f fuel i s = Ok (Some j) ->
  (s <= j)%nat /\ (Exists solid_nk l -> (s < j)%nat).
Proof.
  intros F. induction fuel as [|fuel IH]; intros i l s j R; cbn [branch]; [discriminate|].
  destruct (f i s None) as [[s'|]|u|] eqn:E; cbn [bind]; try discriminate.
  inversion R as [i' n x G X RX|i' n x l' G X RX RL]; subst; rewrite G; cbn [bind]; destruct (F _ _ _ _ _ RX E) as [L1 M1].
  - rewrite X. cbn [Z.eqb Pos.eqb]. intro H. injection H as <-. split; [auto|]. intro EX. inversion EX as [? ? Y|? ? Y]; subst; [auto|inversion Y].
  - destruct (Z.eqb_spec (n_next n) (-1)); [contradiction|]. intro H. destruct (IH _ _ _ _ RL H) as [L2 M2]. split; [lia|].
    intro EX. inversion EX as [? ? Y|? ? Y]; subst; [specialize (M1 Y)|specialize (M2 Y)]; lia.
Qed.
Lemma sequence_moves f : moves f -> forall fuel i l s next j, repl T nsub i l -> sequence T f fuel i s next = Ok (Some j) ->
  (s <= j)%nat /\ (Exists solid_nk l -> (s < j)%nat).
Proof.
  intros F. induction fuel as [|fuel IH]; intros i l s next j R; cbn [sequence]; [discriminate|].
  inversion R as [i' n x G X RX|i' n x l' G X RX RL]; subst; rewrite G; cbn [bind].
  - rewrite X. cbn [Z.eqb Pos.eqb]. destruct (f i s next) as [[s'|]|u|] eqn:E; cbn [bind]; try discriminate. destruct (F _ _ _ _ _ RX E) as [L1 M1].
    intro H. injection H as <-. split; [auto|]. intro EX. inversion EX as [? ? Y|? ? Y]; subst; [auto|inversion Y].
  - destruct (Z.eqb_spec (n_next n) (-1)); [contradiction|]. destruct (f i s (Some (n_next n))) as [[s'|]|u|] eqn:E; cbn [bind]; try discriminate.
    destruct (F _ _ _ _ _ RX E) as [L1 M1]. intro H. destruct (IH _ _ _ _ _ RL H) as [L2 M2]. split; [lia|].
    intro EX. inversion EX as [? ? Y|? ? Y]; subst; [specialize (M1 Y)|specialize (M2 Y)]; lia.
Qed.
Lemma matchnode_moves fuel : moves (mn fuel).
Proof.
  induction fuel as [|fuel IH]; intros i x s next j R; cbn [trex_matchnode]; [discriminate|].
  inversion R as [i' n c G E|i' n k G E E2 K|i' n b G E E2|i' n G E|i' n G E|i' n neg l G E IT|i' n lo hi e G E E2 RL|i' n cap a G E CP RL|i' n G E|i' n b q a G E RL RR];
    subst; rewrite G; cbn [bind].
  - rewrite E. destruct (char_type c (sc_range c)) as (-> & -> & -> & -> & -> & -> & -> & -> & -> & -> & ->). cbn [orb].
    destruct (rd text s) as [y|u|]; cbn [bind]; try discriminate. destruct (if icase flags then _ else _); [|discriminate]. intro H. injection H as <-. lia.
  - settype E. destruct (rd text s) as [y|u|]; cbn [bind]; try discriminate. destruct (trex_matchcclass _ _); [|discriminate]. intro H. injection H as <-. lia.
  - settype E. destruct (boundary text s) as [y|u|]; cbn [bind]; try discriminate. destruct (Bool.eqb _ _); [|discriminate]. intro H. injection H as <-. cbn [solid_nk solid]. split; [lia|tauto].
  - settype E. intro H. injection H as <-. lia.
  - settype E. destruct (s =? _)%nat; [|discriminate]. intro H. injection H as <-. cbn [solid_nk solid]. split; [lia|tauto].
  - assert (SH : forall b, (c <- rd text s ;; b' <- trex_matchclass T flags (List.length T) (n_left n) c ;;
        Ok (if Bool.eqb b' b then Some (S s) else None)) = Ok (Some j) -> (s < j)%nat).
    { intro b. destruct (rd text s) as [y|u|]; cbn [bind]; try discriminate. destruct (trex_matchclass _ _ _ _ _) as [z|u|]; cbn [bind]; try discriminate.
      destruct (Bool.eqb z b); [|discriminate]. intro H. injection H as <-. lia. }
    intro H. assert (L : (s < j)%nat); [|lia]. destruct neg; revert H; settype E; apply SH.
  - settype E.
    assert (P1 : 0 <= match hi with Some h => h mod 65536 | None => 65535 end < 65536) by (destruct hi as [h|]; [apply Z.mod_pos_bound; lia|lia]).
    destruct (low_pack _ _ _ E2 ltac:(apply Z.mod_pos_bound; lia) P1) as [-> ->].
    intro H. destruct (greedy_moves _ e _ _ _ _ _ IH RL _ _ _ _ (Z.le_refl 0) H) as [L1 L2]. split; [exact L1|]. cbn [solid_nk solid].
    intros [LO SO]. apply L2; [exact SO|]. rewrite Z.mod_small; lia.
  - assert (SH : sequence T (mn fuel) (List.length T) (n_left n) s next = Ok (Some j) -> (s <= j)%nat /\ (solid_nk (NE (Group cap a)) -> (s < j)%nat)).
    { intro H. destruct (sequence_moves _ IH _ _ _ _ _ _ RL H) as [L1 L2]. split; [exact L1|]. intro SO. apply L2. apply solid_alt_list. exact SO. }
    destruct cap; settype E; [|exact SH]. destruct (negb _); [discriminate|exact SH].
  - settype E. destruct (s =? 0)%nat; [|discriminate]. intro H. injection H as <-. cbn [solid_nk]. split; [lia|tauto].
  - settype E. destruct (branch T (mn fuel) (List.length T) (n_left n) s) as [[z|]|u|] eqn:B; cbn [bind]; try discriminate.
    + intro H. injection H as ->. destruct (branch_moves _ IH _ _ _ _ _ RL B) as [L1 L2]. split; [exact L1|]. intros [SS _]. apply L2. apply solid_start. exact SS.
    + intro H. destruct (branch_moves _ IH _ _ _ _ _ RR H) as [L1 L2]. split; [exact L1|]. intros [_ SS]. apply L2. apply solid_alt_list. exact SS.
Qed.
End Moves.

(** ** The bound *)
Definition reps_nk (x : nk) : Z := match x with NE e => reps e | NB => 0 | NO b s a => reps_seq s + reps_alt a end.
Definition reps_list (l : list nk) : Z := fold_right (fun x n => reps_nk x + n) 0 l.
Lemma reps_seq_list s : reps_list (seq_list s) = reps_seq s.
Proof. induction s as [e|e s IH]; cbn [seq_list reps_list fold_right reps_nk reps_seq]; [lia|]. unfold reps_list in IH. lia. Qed.
Lemma reps_start b s : reps_list (start b s) = reps_seq s.
Proof. rewrite <- reps_seq_list. destruct b; cbn [start reps_list fold_right reps_nk]; unfold reps_list; lia. Qed.
Lemma reps_alt_list a : reps_list (alt_list a) = reps_alt a.
Proof. destruct a as [b s|b s a]; cbn [alt_list reps_alt]; [apply reps_start|]. cbn [reps_list fold_right reps_nk]. lia. Qed.
Fixpoint reps_nonneg e : 0 <= reps e
with reps_seq_nonneg s : 0 <= reps_seq s
with reps_alt_nonneg a : 0 <= reps_alt a.
Proof.
  - destruct e; cbn [reps]; try lia; [specialize (reps_nonneg e); lia|apply reps_alt_nonneg].
  - destruct s; cbn [reps_seq]; [apply reps_nonneg|]. assert (A := reps_nonneg e). specialize (reps_seq_nonneg s). lia.
  - destruct a; cbn [reps_alt]; [apply reps_seq_nonneg|]. assert (A := reps_seq_nonneg s). specialize (reps_alt_nonneg a). lia.
Qed.
Lemma reps_nk_nonneg x : 0 <= reps_nk x.
Proof. destruct x; cbn [reps_nk]; [apply reps_nonneg|lia|]. assert (A := reps_seq_nonneg s). assert (B := reps_alt_nonneg a). lia. Qed.
Lemma reps_list_nonneg l : 0 <= reps_list l.
Proof. induction l as [|x l IH]; cbn [reps_list fold_right]; [lia|]. assert (A := reps_nk_nonneg x). unfold reps_list in IH. lia. Qed.

Lemma snd_cbind {A B} (m : cost A) (k : A -> cost B) : snd (cbind m k) = snd m + match fst m with Ok a => snd (k a) | _ => 0 end.
Proof. destruct m as [[a|u|] c]; cbn [cbind fst snd]; [destruct (k a); reflexivity|lia|lia]. Qed.
Lemma snd_tick {A} (m : cost A) : snd (tick m) = 1 + snd m.
Proof. destruct m; reflexivity. Qed.
Lemma snd_calm {A} (r : res A) : snd (calm r) = 0.
Proof. reflexivity. Qed.

Section Bound.
Context (T : list node) (nsub flags : Z) (text : str) (N m : Z).
Notation mc := (matchnode_c T nsub flags text).
Notation mn := (trex_matchnode T nsub flags text).
Notation repl := (repl T nsub).
Notation rep := (rep T nsub).
Notation Q := (1 + N * (m + 1)).
Notation small := (Forall (all_nk (tries text N))).
Notation size l := (Z.of_nat (sz_list l)).

Definition behind (i : Z) (l : list nk) (w v : Z) (next : option Z) : Prop :=
  match next with
  | None => True
  | Some nx => (l <> [] /\ exists n, aget T i = Ok n /\ n_next n = nx) \/ exists ch, repl nx ch /\ size ch <= w /\ reps_list ch <= v /\ small ch
  end.
Definition takes (f : Z -> nat -> option Z -> cost (option nat)) : Prop :=
  forall i x l w v s next, repl i (x :: l) -> small (x :: l) -> behind i l w v next -> 0 <= w -> 0 <= v -> size (x :: l) + w <= m ->
    snd (f i s next) <= Z.of_nat (sz_nk x) * Q ^ (reps_list (x :: l) + v).

Lemma stop_behind i l w v next n g : aget T i = Ok n ->
  (l = [] /\ n_next n = -1 \/ l <> [] /\ n_next n <> -1 /\ repl (n_next n) l) -> small l -> behind i l w v next -> 0 <= w -> 0 <= v ->
  (if n_next n =? -1 then next else Some (n_next n)) = Some g ->
  exists y k wg vg gn, repl g (y :: k) /\ small (y :: k) /\ 0 <= wg /\ 0 <= vg /\ size (y :: k) + wg <= size l + w /\ reps_list (y :: k) + vg <= reps_list l + v /\
    aget T g = Ok gn /\
    exists gnext, (if n_next gn =? -1 then match next with None => Ok None | Some x => xn <- aget T x ;; Ok (link (n_next xn)) end
                  else Ok (Some (n_next gn))) = Ok gnext /\ behind g k wg vg gnext.
Proof.
  intros G NX CL NO' W V ES. destruct NX as [[-> X]|(LN & X & RN)].
  - rewrite X, eqb_m1 in ES. subst next. destruct NO' as [[NE' _]|(ch & RC & SC & VC & CC)]; [congruence|].
    destruct (repl_cons _ _ _ _ RC) as (y & k & ->). destruct (repl_get _ _ _ _ _ RC) as (gn & GG & _ & KK).
    exists y, k, 0, 0, gn. repeat split; auto; try (cbn [sz_list reps_list fold_right] in *; lia).
    destruct KK as [[-> Y]|(KN & Y & RK)].
    + rewrite Y, eqb_m1, GG. cbn [bind]. rewrite Y. exists None. split; [reflexivity|exact Logic.I].
    + destruct (Z.eqb_spec (n_next gn) (-1)); [contradiction|]. eexists. split; [reflexivity|]. left. eauto.
  - destruct (Z.eqb_spec (n_next n) (-1)); [contradiction|]. injection ES as <-. destruct (repl_cons _ _ _ _ RN) as (y & k & ->).
    destruct (repl_get _ _ _ _ _ RN) as (gn & GG & _ & KK). exists y, k, w, v, gn. repeat split; auto; try lia.
    destruct KK as [[-> Y]|(KN & Y & RK)].
    + rewrite Y, eqb_m1. destruct next as [x|]; [|exists None; split; [reflexivity|exact Logic.I]].
      destruct NO' as [(_ & n' & G' & <-)|(ch & RC & SC & VC & CC)].
      * assert (n' = n) by congruence. subst n'. rewrite GG. cbn [bind]. rewrite Y. exists None. split; [reflexivity|exact Logic.I].
      * destruct (repl_cons _ _ _ _ RC) as (z & k' & ->). destruct (repl_get _ _ _ _ _ RC) as (xn & GX & _ & KX). rewrite GX. cbn [bind].
        eexists. split; [reflexivity|]. unfold link. destruct KX as [[-> Z]|(KN & Z & RK)].
        -- rewrite Z, eqb_m1. exact Logic.I.
        -- destruct (Z.eqb_spec (n_next xn) (-1)); [exact Logic.I|]. right. exists k'. assert (P := reps_nk_nonneg z).
           inversion CC; subst. repeat split; auto; cbn [sz_list reps_list fold_right] in *; unfold sz_list, reps_list; lia.
    + destruct (Z.eqb_spec (n_next gn) (-1)); [contradiction|]. eexists. split; [reflexivity|]. left. eauto.
Qed.

Hypothesis N0 : 0 <= N.
Hypothesis M1 : 1 <= m.
Lemma Q1 : 1 <= Q. Proof. nia. Qed.
Lemma Qpow k : 0 <= k -> 1 <= Q ^ k.
Proof. intro K. assert (P := Q1). assert (H := Z.pow_le_mono_l 1 Q k ltac:(lia)). rewrite Z.pow_1_l in H by lia. exact H. Qed.
Lemma Qmono j k : j <= k -> Q ^ j <= Q ^ k.
Proof. intro K. assert (P := Q1). apply Z.pow_le_mono_r; lia. Qed.
Lemma reps_cons x l : reps_list (x :: l) = reps_nk x + reps_list l. Proof. reflexivity. Qed.
Lemma size_cons x l : size (x :: l) = Z.of_nat (sz_nk x) + size l. Proof. cbn [sz_list fold_right]. unfold sz_list. lia. Qed.

(** One round of a repetition costs at most C, and there are at most K of them. *)
Lemma greedy_rounds f e p0 p1 left stop next C : 0 <= C -> 0 <= p1 <= 65535 ->
  (forall s s', fst (f left s stop) = Ok (Some s') -> solid e -> (s < s')%nat) ->
  (forall nm s, snd (f left s stop) + match fst (f left s stop) with Ok (Some s') => snd (stop_here_c T f p0 p1 stop next nm s') | _ => 0 end <= C) ->
  forall fuel nm s K, 0 <= nm -> (nm <= p1 \/ p1 = 65535) -> 0 <= K ->
    (p1 < 65535 /\ p1 - nm <= K \/ 65536 - nm <= K \/ (solid e /\ 1 <= K /\ zlen text - Z.of_nat s <= K)) ->
    snd (greedy_c T text f p0 p1 left stop next fuel nm s s) <= K * C.
Proof.
  intros C0 P1 MV RC. induction fuel as [|fuel IH]; intros nm s K NM NP K0 B; cbn [greedy_c]; [rewrite snd_calm; nia|].
  destruct ((nm =? 65535) || (nm <? p1)) eqn:GO; [|rewrite snd_calm; nia].
  assert (GO' : nm = 65535 \/ nm < p1) by (apply orb_true_iff in GO; rewrite Z.eqb_eq, Z.ltb_lt in GO; exact GO).
  assert (ONE : 1 <= K) by lia.
  rewrite snd_cbind. specialize (RC (nm + 1) s). specialize (MV s).
  destruct (f left s stop) as [[[s'|]|u|] c]; cbn [fst snd] in *; rewrite ?snd_calm; try nia.
  rewrite snd_cbind. destruct (stop_here_c T f p0 p1 stop next (nm + 1) s') as [[b|u|] d]; cbn [fst snd] in *; try nia.
  destruct (b || (List.length text <=? s')%nat) eqn:E; [rewrite snd_calm; nia|].
  apply orb_false_iff in E. destruct E as [_ E]. apply Nat.leb_gt in E.
  assert (H := IH (nm + 1) s' (K - 1) ltac:(lia) ltac:(lia) ltac:(lia)).
  assert (snd (greedy_c T text f p0 p1 left stop next fuel (nm + 1) s' s') <= (K - 1) * C); [|nia]. apply H.
  destruct B as [B|[B|(SO & B1 & B2)]]; [left; lia|right; left; lia|right; right]. split; [exact SO|]. specialize (MV s' eq_refl SO). unfold zlen in *. lia.
Qed.

Lemma branch_takes f v : takes f -> 0 <= v -> forall fuel l i s, repl i l -> small l -> size l <= m -> reps_list l <= v ->
  snd (branch_c T f fuel i s) <= size l * Q ^ v.
Proof.
  intros F V. assert (QV := Qpow v V). induction fuel as [|fuel IH]; intros l i s R C SZ RV; cbn [branch_c]; [rewrite snd_calm; nia|].
  destruct (repl_cons _ _ _ _ R) as (x & k & ->). destruct (repl_get _ _ _ _ _ R) as (n & G & RX & KK).
  assert (H := F i x k 0 0 s None R C Logic.I ltac:(lia) ltac:(lia) ltac:(lia)). rewrite Z.add_0_r in H.
  assert (QM := Qmono _ _ RV). rewrite size_cons in *. rewrite reps_cons in *. assert (RN := reps_nk_nonneg x). assert (RL := reps_list_nonneg k).
  rewrite snd_cbind. destruct (f i s None) as [[[s'|]|u|] c]; cbn [fst snd] in *; rewrite ?snd_calm; try nia.
  rewrite G. rewrite snd_cbind, snd_calm, fst_calm. destruct KK as [[-> X]|(KN & X & RK)].
  - rewrite X, eqb_m1. rewrite snd_calm. nia.
  - destruct (Z.eqb_spec (n_next n) (-1)); [contradiction|]. inversion C; subst.
    assert (HR := IH k (n_next n) s' RK ltac:(assumption) ltac:(lia) ltac:(lia)). nia.
Qed.
Lemma sequence_takes f w v u next : takes f -> 0 <= w -> 0 <= v ->
  match next with None => True | Some nx => exists ch, repl nx ch /\ size ch <= w /\ reps_list ch <= v /\ small ch end ->
  forall fuel l i s, repl i l -> small l -> size l + w <= m -> reps_list l + v <= u ->
  snd (sequence_c T f fuel i s next) <= size l * Q ^ u.
Proof.
  intros F W V NO'. induction fuel as [|fuel IH]; intros l i s R C SZ RV; cbn [sequence_c]; assert (RL := reps_list_nonneg l); assert (QV := Qpow u ltac:(lia)).
  { rewrite snd_calm; nia. }
  destruct (repl_cons _ _ _ _ R) as (x & k & ->). destruct (repl_get _ _ _ _ _ R) as (n & G & RX & KK).
  rewrite G. rewrite snd_cbind, snd_calm, fst_calm. 
  assert (NX : behind i k w v (if n_next n =? -1 then next else Some (n_next n))).
  { destruct KK as [[-> X]|(KN & X & RK)].
    - rewrite X, eqb_m1. destruct next as [nx|]; [|exact Logic.I]. right. exact NO'.
    - destruct (Z.eqb_spec (n_next n) (-1)); [contradiction|]. left. eauto. }
  assert (H := F i x k w v s _ R C NX W V SZ). assert (QM := Qmono _ _ RV). rewrite size_cons in *. rewrite reps_cons in *.
  assert (RN := reps_nk_nonneg x). clear RL. assert (RL := reps_list_nonneg k).
  rewrite snd_cbind. destruct (f i s _) as [[[s'|]|e|] c]; cbn [fst snd] in *; rewrite ?snd_calm; try nia.
  destruct KK as [[-> X]|(KN & X & RK)].
  - rewrite X, eqb_m1. rewrite snd_calm. nia.
  - destruct (Z.eqb_spec (n_next n) (-1)); [contradiction|]. inversion C; subst.
    assert (HR := IH k (n_next n) s' RK ltac:(assumption) ltac:(lia) ltac:(lia)). nia.
Qed.
Lemma class_takes fuel i l x : items_at T i l -> snd (matchclass_c T flags fuel i x) <= Z.of_nat (List.length l).
Proof.
  intro R. revert fuel. induction R as [i n it G N' X|i n it l G N' X R IH]; intros fuel; (destruct fuel as [|fuel]; cbn [matchclass_c List.length]; [rewrite snd_calm; lia|]);
    rewrite snd_cbind, snd_tick, snd_calm, fst_tick, fst_calm, G; destruct (class_item flags n x); rewrite ?snd_calm; try lia.
  - rewrite X, eqb_m1, snd_calm. lia.
  - destruct (Z.eqb_spec (n_next n) (-1)); [contradiction|]. specialize (IH fuel). lia.
Qed.

Theorem matchnode_takes fuel : takes (mc fuel).
Proof.
  induction fuel as [|fuel F]; intros i x l w v s next R C NO' W V SZ; destruct (repl_get _ _ _ _ _ R) as (n & G & RX & KK);
    assert (RV := reps_list_nonneg (x :: l)); assert (QP := Qpow (reps_list (x :: l) + v) ltac:(lia)); assert (SP := sz_nk_pos x).
  { cbn [matchnode_c]. rewrite snd_calm. nia. }
  assert (CX : all_nk (tries text N) x) by (inversion C; auto).
  assert (CL : small l) by (inversion C; auto).
  rewrite size_cons in SZ.
  cbn [matchnode_c]. rewrite snd_cbind, snd_tick, snd_calm, fst_tick, fst_calm, G, Z.add_0_r. cbv zeta.
  inversion RX as [i' n' c G' E|i' n' k G' E E2 K|i' n' b G' E E2|i' n' G' E|i' n' G' E|i' n' neg li G' E IT|i' n' lo hi e G' E E2 RL|i' n' cap a G' E CP RL|i' n' G' E|i' n' b q a G' E RL RR];
    subst; assert (n' = n) by congruence; subst n'.
  - rewrite E. destruct (char_type c (sc_range c)) as (-> & -> & -> & -> & -> & -> & -> & -> & -> & -> & ->). cbn [orb]. rewrite snd_calm. nia.
  - settype E. rewrite snd_calm. nia.
  - settype E. rewrite snd_calm. nia.
  - settype E. rewrite snd_calm. nia.
  - settype E. rewrite snd_calm. nia.
  - assert (SH : forall b, 1 + snd (cbind (calm (rd text s)) (fun c => b' <-- matchclass_c T flags (List.length T) (n_left n) c ;;
        calm (Ok (if Bool.eqb b' b then Some (S s) else None)))) <= 1 + Z.of_nat (List.length li)).
    { intro b. rewrite snd_cbind, snd_calm, fst_calm. destruct (rd text s) as [y|u|]; try lia. rewrite snd_cbind.
      assert (H := class_takes (List.length T) (n_left n) li y IT). destruct (fst _); rewrite ?snd_calm; lia. }
    assert (SZN : Z.of_nat (sz_nk (NE (Set_ neg li))) = 1 + Z.of_nat (List.length li)) by (cbn [sz_nk sz_elem]; lia). rewrite SZN.
    match goal with |- ?a <= _ => assert (H : a <= 1 + Z.of_nat (List.length li)); [|nia] end. destruct neg; settype E; apply SH.
  - settype E.
    assert (P1 : 0 <= match hi with Some h => h mod 65536 | None => 65535 end < 65536) by (destruct hi as [h|]; [apply Z.mod_pos_bound; lia|lia]).
    destruct (low_pack _ _ _ E2 ltac:(apply Z.mod_pos_bound; lia) P1) as [-> ->].
    cbn [all_nk all_elem] in CX. destruct CX as [TR CE].
    set (p0 := lo mod 65536) in *. clearbody p0. rewrite reps_cons in *. cbn [sz_nk sz_elem reps_nk reps] in *.
    set (stop := if n_next n =? -1 then next else Some (n_next n)).
    set (X := reps_list l + v) in *. assert (RE := reps_nonneg e). assert (RLN := reps_list_nonneg l). 
    assert (CALL1 : forall s, snd (mc fuel (n_left n) s stop) <= Z.of_nat (sz_elem e) * Q ^ (reps e + X)).
    { intro s'. replace (reps e + X) with (reps_list [NE e] + X) by (cbn [reps_list fold_right reps_nk]; lia).
      apply (F (n_left n) (NE e) [] (size l + w) X); auto; try lia.
      - unfold stop. destruct KK as [[-> Y]|(LN & Y & RN)].
        + rewrite Y, eqb_m1. unfold behind in *. destruct next as [nx|]; [|exact Logic.I].
          destruct NO' as [[NE' _]|(ch & RC & SC & VC & CC)]; [congruence|]. right. exists ch. repeat split; auto; lia.
        + destruct (Z.eqb_spec (n_next n) (-1)); [contradiction|]. right. exists l. repeat split; auto; lia.
      - rewrite size_cons. cbn [sz_nk]. change (size []) with 0. lia. }
    assert (CALL2 : forall nm s, snd (stop_here_c T (mc fuel) p0 (match hi with Some h => h mod 65536 | None => 65535 end) stop next nm s) <= m * Q ^ X).
    { intros nm s'. assert (QX := Qpow X ltac:(lia)). unfold stop_here_c. destruct stop as [g|] eqn:ES; [|rewrite snd_calm; nia].
      destruct (stop_behind i l w v next n g G KK CL NO' W V ES) as (y & k & wg & vg & gn & RG & CG & WG & VG & SG & VVG & GG & gnext & EG & NG).
      rewrite snd_cbind, snd_calm, fst_calm, GG. destruct (negb _ || negb _); [|rewrite snd_calm; nia]. rewrite EG, snd_cbind, snd_calm, fst_calm, snd_cbind.
      assert (H := F g y k wg vg s' gnext RG CG NG WG VG ltac:(lia)). assert (QM := Qmono _ _ VVG). fold X in QM.
      assert (SY : Z.of_nat (sz_nk y) <= m) by (rewrite size_cons in SG; lia). assert (PY := Qpow (reps_list (y :: k) + vg) ltac:(assert (Z := reps_list_nonneg (y :: k)); lia)).
      assert (snd (mc fuel g s' gnext) <= m * Q ^ X) by nia.
      destruct (fst (mc fuel g s' gnext)) as [[?|]|?|]; rewrite ?snd_calm; lia. }
    assert (QX := Qpow X ltac:(lia)). assert (QE := Qpow (reps e) RE).
    assert (PE : Q ^ (reps e + X) = Q ^ reps e * Q ^ X) by (apply Z.pow_add_r; lia).
    replace (1 + reps e + reps_list l + v) with (1 + (reps e + X)) in * by lia.
    assert (PS : Q ^ (1 + (reps e + X)) = Q * Q ^ (reps e + X)) by (rewrite Z.pow_add_r, Z.pow_1_r by lia; reflexivity).
    rewrite PS. clear PS QP. assert (BA : Q ^ X <= Q ^ (reps e + X)) by (apply Qmono; lia).
    generalize dependent (Q ^ (reps e + X)). intros A. generalize dependent (Q ^ X). intros B CALL2 B1 CALL1 _ BA.
    assert (H : snd (greedy_c T text (mc fuel) p0 (match hi with Some h => h mod 65536 | None => 65535 end) (n_left n) stop next
       (Z.to_nat (match hi with Some h => h mod 65536 | None => 65535 end + 2)) 0 s s) <= N * (Z.of_nat (sz_elem e) * A + m * B)).
    { assert (POS : 0 <= m * B) by (apply Z.mul_nonneg_nonneg; lia). apply (greedy_rounds (mc fuel) e); try lia.
      - apply Z.add_nonneg_nonneg; [apply Z.mul_nonneg_nonneg; lia|exact POS].
      - intros a b H SO. rewrite (matchnode_erase T nsub flags text fuel) in H.
        assert (RE' : rep (n_left n) (NE e)) by (inversion RL; auto). destruct (matchnode_moves T nsub flags text fuel _ _ _ _ _ RE' H) as [_ L]. apply L. exact SO.
      - intros nm a. specialize (CALL1 a). destruct (fst (mc fuel (n_left n) a stop)) as [[b|]|u|]; [specialize (CALL2 nm b)|..]; lia.
      - cbn [tries] in TR. destruct TR as [TR|[(SO & N1 & TL)|(h & -> & H0 & H1)]].
        + right. left. lia.
        + right. right. repeat split; auto. lia.
        + left. rewrite Z.mod_small by lia. lia. }
    assert (H2 : N * (Z.of_nat (sz_elem e) * A + m * B) <= N * ((Z.of_nat (sz_elem e) + m) * A)) by (apply Z.mul_le_mono_nonneg_l; [exact N0|nia]).
    replace (Z.of_nat (S (sz_elem e))) with (1 + Z.of_nat (sz_elem e)) by lia. apply Z.le_trans with (1 + N * ((Z.of_nat (sz_elem e) + m) * A)); [lia|].
    generalize (Z.of_nat (sz_elem e)) (Zle_0_nat (sz_elem e)). intros z z0. assert (A1 : 1 <= A) by lia. clear -N0 M1 z0 A1. 
    assert (0 <= N * z * m * A) by (repeat apply Z.mul_nonneg_nonneg; lia). assert (0 <= N * A) by (apply Z.mul_nonneg_nonneg; lia).
    assert (0 <= z * A) by (apply Z.mul_nonneg_nonneg; lia). lia.
  - assert (SH : snd (sequence_c T (mc fuel) (List.length T) (n_left n) s next) <= Z.of_nat (sz_alt a) * Q ^ (reps_list (NE (Group cap a) :: l) + v)).
    { rewrite <- sz_alt_list. rewrite reps_cons. cbn [reps_nk reps].
      assert (RLN := reps_list_nonneg l). cbn [sz_nk sz_elem] in SZ.
      apply (sequence_takes (mc fuel) (size l + w) (reps_list l + v)); auto; try lia.
      - unfold behind in NO'. destruct next as [nx|]; [|exact Logic.I]. destruct NO' as [(LN & n' & G'' & <-)|(ch & RC & SC & VC & CC)].
        + assert (n' = n) by congruence. subst n'. destruct KK as [[-> _]|(_ & _ & RK)]; [congruence|]. exists l. repeat split; auto; lia.
        + exists ch. repeat split; auto; lia.
      - apply all_alt_list. apply CX.
      - rewrite sz_alt_list. lia.
      - rewrite reps_alt_list. lia. }
    assert (SZN : Z.of_nat (sz_nk (NE (Group cap a))) = 1 + Z.of_nat (sz_alt a)) by (cbn [sz_nk sz_elem]; lia). rewrite SZN.
    destruct cap; settype E; [|nia]. destruct (negb _); [rewrite snd_calm; nia|nia].
  - settype E. rewrite snd_calm. nia.
  - settype E. cbn [sz_nk] in *. rewrite reps_cons in *. cbn [reps_nk] in *. set (V' := reps_seq q + reps_alt a + reps_list l + v) in *.
    assert (RLN := reps_list_nonneg l). assert (RQ := reps_seq_nonneg q). assert (RA := reps_alt_nonneg a).
    assert (X1 : snd (branch_c T (mc fuel) (List.length T) (n_left n) s) <= size (start b q) * Q ^ V').
    { apply branch_takes; auto; try lia; [apply all_start; apply CX|rewrite sz_start; lia|rewrite reps_start; lia]. }
    assert (X2 : snd (branch_c T (mc fuel) (List.length T) (n_right n) s) <= size (alt_list a) * Q ^ V').
    { apply branch_takes; auto; try lia; [apply all_alt_list; apply CX|rewrite sz_alt_list; lia|rewrite reps_alt_list; lia]. }
    rewrite sz_start in X1. rewrite sz_alt_list in X2. rewrite snd_cbind.
    destruct (fst (branch_c T (mc fuel) (List.length T) (n_left n) s)) as [[e|]|u|]; rewrite ?snd_calm; nia.
Qed.
End Bound.

(** ** The length of the pattern bounds the number of nodes *)
Scheme atom_ind2 := Minimality for atom_text Sort Prop
with elem_ind2 := Minimality for elem_text Sort Prop
with seq_ind2 := Minimality for seq_text Sort Prop
with alt_ind2 := Minimality for alt_text Sort Prop.
Lemma set_size dash l t : set_text dash l t -> (List.length l <= List.length t)%nat.
Proof.
  induction 1 as [|dash c t l t' S R IH|dash k l t' S R IH|dash a b t1 t2 l t' S1 S2 R IH]; cbn [List.length]; rewrite ?app_length; cbn [List.length]; rewrite ?app_length; try lia.
  assert (1 <= List.length t)%nat by (inversion S; cbn [List.length]; lia). lia.
Qed.
Lemma suffix_size lo hi u : suffix lo hi u -> (1 <= List.length u)%nat.
Proof. intro S. inversion S; cbn; rewrite ?app_length; lia. Qed.
Lemma alt_size a t : alt_text a t -> (sz_alt a <= List.length t)%nat.
Proof.
  intro H.
  refine (alt_ind2 (fun p e t => sz_elem e <= List.length t)%nat (fun p e t q => sz_elem e <= List.length t)%nat
    (fun p s t => sz_seq s <= List.length t)%nat (fun a t => sz_alt a <= List.length t)%nat _ _ _ _ _ _ _ _ _ _ _ _ _ _ _ _ _ _ _ _ a t H);
  clear a t H; intros; cbn [sz_elem sz_seq sz_alt List.length lit list_ascii_of_string app] in *; rewrite ?app_length in *; cbn [List.length] in *; rewrite ?app_length; cbn [List.length]; try lia.
  - assert (X := set_size _ _ _ H1). lia.
  - assert (X := set_size _ _ _ H0). lia.
  - assert (X := suffix_size _ _ _ H1). lia.
Qed.

(** ** C83 *)

(** However long the argument is, the number of steps is at most a number that the pattern alone determines, a power of its length with
    the number of its repetitions as exponent. If N bounds how often a repetition tries its operand, N takes the place of 65536. *)
Theorem C83_bound pat r flags text N : spells r pat -> 2 * zlen pat <= INT_MAX -> 0 <= N -> all_alt (tries text N) r ->
  snd (trex_c pat flags text) <= (zlen pat + 1) * (1 + N * (zlen pat + 2)) ^ reps_alt r.
Proof.
  intros S L N0 TR. unfold trex_c. assert (C := compiled_any r pat S L). assert (Z0 : 0 <= zlen pat) by (unfold zlen; lia).
  assert (B : 0 <= (zlen pat + 1) * (1 + N * (zlen pat + 2)) ^ reps_alt r) by (apply Z.mul_nonneg_nonneg; [lia|apply Z.pow_nonneg; nia]).
  destruct (trex_compile pat) as [[] st| | |]; try exact B. cbn [ends] in C. destruct C as (R & RL & LE).
  unfold match_c. rewrite snd_cbind.
  assert (SZ := alt_size r pat S).
  assert (H := matchnode_takes (r_nodes st) (r_nsub st) flags text N (zlen pat + 1) N0 ltac:(lia) (Datatypes.S (List.length (r_nodes st)))
    0 (NE (Group true r)) [] 0 0 O None RL).
  assert (X : snd (matchnode_c (r_nodes st) (r_nsub st) flags text (Datatypes.S (List.length (r_nodes st))) 0 0 None) <=
    Z.of_nat (sz_nk (NE (Group true r))) * (1 + N * (zlen pat + 2)) ^ reps_alt r).
  { replace (1 + N * (zlen pat + 2)) with (1 + N * (zlen pat + 1 + 1)) by lia.
    replace (reps_alt r) with (reps_list [NE (Group true r)] + 0) by (cbn [reps_list fold_right reps_nk reps]; lia). apply H; try lia.
    - constructor; [|constructor]. cbn [all_nk all_elem]. split; [exact I|exact TR].
    - exact I.
    - cbn [sz_list fold_right sz_nk sz_elem]. unfold zlen. lia. }
  assert (Y : Z.of_nat (sz_nk (NE (Group true r))) <= zlen pat + 1) by (cbn [sz_nk sz_elem]; unfold zlen; lia).
  assert (P : 0 <= (1 + N * (zlen pat + 2)) ^ reps_alt r) by (apply Z.pow_nonneg; nia).
  assert (F : snd (matchnode_c (r_nodes st) (r_nsub st) flags text (Datatypes.S (List.length (r_nodes st))) 0 0 None) <= (zlen pat + 1) * (1 + N * (zlen pat + 2)) ^ reps_alt r).
  { eapply Z.le_trans; [exact X|]. apply Z.mul_le_mono_nonneg_r; [exact P|exact Y]. }
  destruct (fst _) as [[e|]|u|]; rewrite ?snd_calm; lia.
Qed.
Theorem C83_always pat r flags text : spells r pat -> 2 * zlen pat <= INT_MAX ->
  snd (trex_c pat flags text) <= (zlen pat + 1) * (1 + 65536 * (zlen pat + 2)) ^ reps_alt r.
Proof. intros S L. apply C83_bound; auto; [lia|]. apply any_alt. intros []; cbn [tries]; auto. left. lia. Qed.
(** If everything that is repeated takes a character, the argument's length to the number of repetitions is a bound too. *)
Theorem C83_text pat r flags text : spells r pat -> 2 * zlen pat <= INT_MAX -> text <> [] ->
  all_alt (fun e => match e with Repeat _ _ b => solid b | _ => True end) r ->
  snd (trex_c pat flags text) <= (zlen pat + 1) * (1 + zlen text * (zlen pat + 2)) ^ reps_alt r.
Proof.
  intros S L NE A. assert (1 <= zlen text) by (unfold zlen; destruct text; [congruence|cbn [List.length]; lia]).
  apply C83_bound; auto; [lia|]. eapply all_alt_imp; [|exact A]. intros []; cbn [tries]; auto. intro SO. right. left. repeat split; auto; lia.
Qed.
(** Without repetitions every part of the pattern is looked at once at most. *)
Theorem C83_once pat r flags text : spells r pat -> 2 * zlen pat <= INT_MAX -> reps_alt r = 0 -> snd (trex_c pat flags text) <= zlen pat + 1.
Proof.
  intros S L R0. assert (H := C83_always pat r flags text S L). rewrite R0, Z.pow_0_r in H. lia.
Qed.

(** ** The bounds are reached *)

(** The operand a? in k groups, each followed by a star and enclosed in a further group *)
Fixpoint nest (k : nat) : elem :=
  Group true (Just false (One (match k with O => Repeat 0 (Some 1) (Char "a") | S k => Repeat 0 None (nest k) end))).
Fixpoint nest_text (k : nat) : str := "("%char :: (match k with O => lit "a?" | S k => nest_text k ++ lit "*" end) ++ lit ")".
(** a+(a+(a+(b))): k pluses *)
Fixpoint tower (k : nat) : seq :=
  match k with O => One (Char "b") | S k => More (Repeat 1 None (Char "a")) (One (Group true (Just false (tower k)))) end.
Fixpoint tower_text (k : nat) : str := match k with O => lit "b" | S k => lit "a+(" ++ tower_text k ++ lit ")" end.

Lemma nest_spells k : forall p, atom_text p (nest k) (nest_text k).
Proof.
  induction k as [|k IH]; intro p; cbn [nest nest_text]; apply at_group; try discriminate.
  - apply al_just. apply sq_one with AfterRepeat. change (lit "a?") with ([("a"%char : ascii)] ++ lit "?"). apply el_repeat; [|constructor]. apply at_char. plain.
  - destruct k; discriminate.
  - apply al_just. apply sq_one with AfterRepeat. apply el_repeat; [apply IH|constructor].
Qed.
Lemma tower_spells k : forall p, p <> AfterRepeat -> seq_text p (tower k) (tower_text k).
Proof.
  induction k as [|k IH]; intros p NP; cbn [tower tower_text].
  - apply sq_one with AfterAtom. apply el_atom. apply at_char. destruct p; plain.
  - change (lit "a+(" ++ tower_text k ++ lit ")") with (([("a"%char : ascii)] ++ lit "+") ++ ("("%char :: tower_text k ++ lit ")")).
    apply sq_more with AfterRepeat; [apply el_repeat; [|constructor]; apply at_char; destruct p; plain|].
    apply sq_one with AfterAtom. apply el_atom. apply at_group; [destruct k; discriminate|]. apply al_just. apply IH. discriminate.
Qed.
Lemma nest_length k : zlen (nest_text k) = 3 * Z.of_nat k + 4.
Proof.
  unfold zlen. induction k as [|k IH]; [reflexivity|]. cbn [nest_text List.length]. rewrite !app_length. cbn [List.length lit list_ascii_of_string]. lia.
Qed.
Lemma tower_length k : zlen (tower_text k) = 4 * Z.of_nat k + 1.
Proof.
  unfold zlen. induction k as [|k IH]; [reflexivity|]. cbn [tower_text]. rewrite !app_length. cbn [List.length lit list_ascii_of_string]. lia.
Qed.

Section Slow.
Context (T : list node) (nsub flags : Z) (text : str).
Notation mc := (matchnode_c T nsub flags text).
Notation repl := (repl T nsub).
Notation rep := (rep T nsub).

Lemma cbind_ok {A B} (m : cost A) a c (k : A -> cost B) : m = (Ok a, c) -> cbind m k = (fst (k a), c + snd (k a)).
Proof. intros ->. cbn [cbind]. destruct (k a); reflexivity. Qed.
Lemma aget_pos {A} (l : list A) i x : aget l i = Ok x -> exists n, List.length l = S n.
Proof.
  unfold aget. destruct l as [|a l]; [|cbn [List.length]; eauto]. intro H. destruct (Z.ltb_spec i 0); [discriminate|].
  destruct (Z.to_nat i); discriminate.
Qed.
Lemma repl_single i x : repl i [x] -> exists n, aget T i = Ok n /\ n_next n = -1 /\ rep i x.
Proof. intro R. inversion R as [i' n y G X RX|i' n y l' G X RX RL]; subst; [eauto|inversion RL]. Qed.
(** A group of one element costs one step more. *)
Lemma group_one i e fuel s next : rep i (NE (Group true (Just false (One e)))) ->
  exists left n, aget T left = Ok n /\ n_next n = -1 /\ rep left (NE e) /\ mc (S fuel) i s next = (fst (mc fuel left s next), 1 + snd (mc fuel left s next)).
Proof.
  intro R. inversion R as [ | | | | | | |i' n' cap a G' E CP RL| | ]; subst. cbn [alt_list start seq_list] in RL.
  destruct (repl_single _ _ RL) as (n & G & X & RX). exists (n_left n'), n. repeat split; auto.
  specialize (CP eq_refl). cbn [matchnode_c]. destruct (aget_pos _ _ _ G) as (t & ->). rewrite G'. cbn [tick calm]. 
  rewrite (cbind_ok _ n' 1) by reflexivity. cbv zeta. settype E.
  destruct (Z.leb_spec 0 (n_right n')); [|lia]. destruct (Z.ltb_spec (n_right n') nsub); [|lia]. cbn [andb negb].
  cbn [sequence_c]. rewrite G. rewrite (cbind_ok (calm (Ok n)) n 0) by reflexivity. cbv beta. rewrite X, eqb_m1.
  destruct (mc fuel (n_left n') s next) as [[[y|]|u|] c]; cbn [cbind fst snd calm]; f_equal; lia.
Qed.
Lemma char_step i c fuel s next y : rep i (NE (Char c)) -> rd text s = Ok y ->
  mc (S fuel) i s next = (Ok (if if icase flags then (sc y =? lower (sc c)) || (sc y =? upper (sc c)) else sc y =? sc c then Some (S s) else None), 1).
Proof.
  intros R RD. inversion R as [i' n c' G E| | | | | | | | | ]; subst. cbn [matchnode_c]. rewrite G. cbn [tick calm]. rewrite (cbind_ok _ n 1) by reflexivity. cbv zeta. rewrite E.
  destruct (char_type c (sc_range c)) as (-> & -> & -> & -> & -> & -> & -> & -> & -> & -> & ->). cbn [orb]. rewrite RD. reflexivity.
Qed.
Lemma repeat_step i lo hi e fuel s next : rep i (NE (Repeat lo hi e)) ->
  let p1 := match hi with Some h => h mod 65536 | None => 65535 end in
  exists n r, aget T i = Ok n /\ repl (n_left n) [NE e] /\
    r = greedy_c T text (mc fuel) (lo mod 65536) p1 (n_left n) (if n_next n =? -1 then next else Some (n_next n)) next (Z.to_nat (p1 + 2)) 0 s s /\
    mc (S fuel) i s next = (fst r, 1 + snd r).
Proof.
  intros R p1. inversion R as [ | | | | | |i' n lo' hi' e' G E E2 RL| | | ]; subst. eexists n, _. split; [exact G|]. split; [exact RL|]. split; [reflexivity|].
  assert (P1 : 0 <= p1 < 65536) by (unfold p1; destruct hi as [h|]; [apply Z.mod_pos_bound; lia|lia]). fold p1 in E2.
  destruct (low_pack _ _ _ E2 ltac:(apply Z.mod_pos_bound; lia) P1) as [L H].
  cbn [matchnode_c]. rewrite G. cbn [tick calm]. rewrite (cbind_ok _ n 1) by reflexivity. cbv zeta. settype E. rewrite L, H. reflexivity.
Qed.

(** The loop over an operand that matches without taking a character *)
Lemma idle_loop f left c : text <> [] -> 0 <= c -> f left O None = (Ok (Some O), c) ->
  forall fuel nm, 0 <= nm <= 65536 -> 65536 - nm < Z.of_nat fuel ->
  exists d, greedy_c T text f 0 65535 left None None fuel nm O O = (Ok (Some O), d) /\ (65536 - nm) * c <= d.
Proof.
  intros TN C0 F. induction fuel as [|fuel IH]; intros nm NM FU; [lia|]. cbn [greedy_c].
  assert (EN : forall k, 0 <= k -> enough 0 65535 k = true).
  { intros k K. unfold enough. rewrite (proj2 (Z.leb_le 0 k)) by lia. cbn [Z.eqb Pos.eqb andb]. apply orb_true_iff. left. apply orb_true_r. }
  destruct ((nm =? 65535) || (nm <? 65535)) eqn:GO.
  - assert (NM' : nm <= 65535) by (apply orb_true_iff in GO; rewrite Z.eqb_eq, Z.ltb_lt in GO; lia).
    rewrite (cbind_ok _ _ _ _ F). cbn [stop_here_c]. rewrite (cbind_ok (calm (Ok false)) false 0) by reflexivity. cbn [orb].
    assert (LT : (List.length text <=? 0)%nat = false) by (destruct text; [congruence|reflexivity]). rewrite LT.
    destruct (IH (nm + 1) ltac:(lia) ltac:(lia)) as (d & -> & D). cbn [fst snd]. eexists. split; [reflexivity|]. lia.
  - apply orb_false_iff in GO. rewrite Z.eqb_neq, Z.ltb_ge in GO. rewrite EN by lia. exists 0. split; [reflexivity|]. assert (nm = 65536) by lia. subst. lia.
Qed.
Lemma nest_slow k : text <> [] -> ~ same (icase flags) "a" (hd0 text) -> forall fuel i, rep i (NE (nest k)) -> (2 * k + 3 <= fuel)%nat ->
  exists c, mc fuel i O None = (Ok (Some O), c) /\ 65536 ^ Z.of_nat k <= c.
Proof.
  intros TN NA. induction k as [|k IH]; intros fuel i R FU; (destruct fuel as [|[|fuel]]; [lia|lia|]); cbn [nest] in R;
    destruct (group_one i _ (S fuel) O None R) as (left & n & G & X & RX & ->); destruct (repeat_step left _ _ _ fuel O None RX) as (n' & r & G' & RL & ER & ->);
    assert (n' = n) by congruence; subst n'; rewrite X, eqb_m1 in ER; destruct (repl_single _ _ RL) as (n' & G2 & X2 & RX2); subst r; cbn [fst snd].
  - destruct fuel as [|fuel]; [lia|]. change (Z.to_nat (1 mod 65536 + 2)) with 3%nat. cbn [greedy_c].
    assert (RD : rd text 0 = Ok (hd0 text)) by (destruct text; [congruence|reflexivity]).
    assert (NS : (if icase flags then (sc (hd0 text) =? lower (sc "a")) || (sc (hd0 text) =? upper (sc "a")) else sc (hd0 text) =? sc "a") = false).
    { destruct (if icase flags then _ else _) eqn:E; [|reflexivity]. apply same_spec in E. contradiction. }
    change ((0 =? 65535) || (0 <? 1 mod 65536)) with true. cbv iota. rewrite (cbind_ok _ _ _ _ (char_step (n_left n) "a" fuel O None _ RX2 RD)). rewrite NS. cbn [fst snd calm].
    change (enough (0 mod 65536) (1 mod 65536) 0) with true. cbv iota. eexists. split; [reflexivity|]. cbn. lia.
  - change (0 mod 65536) with 0. destruct (IH fuel (n_left n) RX2 ltac:(lia)) as (c & E & LB).
    assert (C0 : 0 <= c) by (assert (0 <= 65536 ^ Z.of_nat k) by (apply Z.pow_nonneg; lia); lia).
    destruct (idle_loop (mc fuel) (n_left n) c TN C0 E (Z.to_nat (65535 + 2)) 0 ltac:(lia) ltac:(lia)) as (d & -> & D). cbn [fst snd].
    eexists. split; [reflexivity|]. rewrite Nat2Z.inj_succ, Z.pow_succ_r by lia. lia.
Qed.
End Slow.

(** Patterns of a few characters take more steps than any machine can do, with an argument of one character. *)
Theorem C83_nested k flags text : 2 * (3 * Z.of_nat k + 4) <= INT_MAX -> text <> [] -> ~ same (ignore_case flags) "a" (hd0 text) ->
  exists pat, zlen pat = 3 * Z.of_nat k + 4 /\ trex pat flags text = Ok false /\ 65536 ^ Z.of_nat k <= snd (trex_c pat flags text).
Proof.
  intros L TN NA. exists (nest_text k). split; [apply nest_length|].
  assert (S : spells (Just false (One (nest k))) (nest_text k)) by (apply al_just; apply sq_one with AfterAtom; apply el_atom; apply nest_spells).
  assert (C : all_alt (compilable (nest_text k)) (Just false (One (nest k)))).
  { cbn [all_alt all_seq]. generalize (nest_text k). intro pat. clear. induction k as [|k IH]; cbn [nest all_elem all_alt all_seq compilable]; repeat split; try reflexivity. exact IH. }
  destruct (compiled_sure _ _ S ltac:(rewrite nest_length; exact L) C) as (st & E & R & RL & LE).
  rewrite <- C83_answers. unfold trex_c. rewrite E. unfold match_c.
  destruct (group_one _ _ flags text 0 _ (List.length (r_nodes st)) O None R) as (left & n & G & X & RX & ->).
  assert (SZ : (2 * k + 3 <= List.length (r_nodes st))%nat).
  { cbn [sz_alt sz_seq] in LE. assert (Z : sz_elem (nest k) = (2 * k + 3)%nat); [|lia]. clear. induction k as [|k IH]; [reflexivity|]. cbn [nest sz_elem sz_alt sz_seq]. lia. }
  destruct (nest_slow _ (r_nsub st) flags text k TN NA (List.length (r_nodes st)) left RX SZ) as (c & -> & LB). cbn [fst snd cbind calm].
  split; [|lia]. destruct text; [congruence|reflexivity].
Qed.

Section Deep.
Context (T : list node) (nsub flags : Z) (n : nat).
Notation text := (repeat ("a"%char : ascii) n).
Notation mc := (matchnode_c T nsub flags text).
Notation repl := (repl T nsub).
Notation rep := (rep T nsub).
Hypothesis NL : Z.of_nat n <= 65535.
Hypothesis TL : (2 <= List.length T)%nat.

Lemma rd_as s : (s <= n)%nat -> rd text s = Ok (if (s <? n)%nat then "a"%char else NUL).
Proof.
  intro L. unfold rd. rewrite repeat_length. destruct (Nat.ltb_spec s n) as [A|A].
  - rewrite nth_error_nth' with (d := NUL) by (rewrite repeat_length; exact A).
    assert (I : In (nth s text NUL) text) by (apply nth_In; rewrite repeat_length; exact A). apply repeat_spec in I. rewrite I. reflexivity.
  - destruct (Nat.eqb_spec s n); [reflexivity|lia].
Qed.
Lemma a_step i fuel s next : (s <= n)%nat -> rep i (NE (Char "a")) -> mc (S fuel) i s next = (Ok (if (s <? n)%nat then Some (S s) else None), 1).
Proof. intros L R. rewrite (char_step T nsub flags text i "a" fuel s next _ R (rd_as s L)). destruct (s <? n)%nat; destruct (icase flags); reflexivity. Qed.
Lemma b_step i fuel s next : (s <= n)%nat -> rep i (NE (Char "b")) -> mc (S fuel) i s next = (Ok None, 1).
Proof. intros L R. rewrite (char_step T nsub flags text i "b" fuel s next _ R (rd_as s L)). destruct (s <? n)%nat; destruct (icase flags); reflexivity. Qed.

Lemma matchnode_group i m fuel s next : aget T i = Ok m -> n_type m = OP_EXPR -> 0 <= n_right m < nsub ->
  mc (S fuel) i s next = (let r := sequence_c T (mc fuel) (List.length T) (n_left m) s next in (fst r, 1 + snd r)).
Proof.
  intros G E CP. cbn [matchnode_c]. rewrite G. cbn [tick calm]. rewrite (cbind_ok _ m 1) by reflexivity. cbv zeta. settype E.
  destruct (Z.leb_spec 0 (n_right m)); [|lia]. destruct (Z.ltb_spec (n_right m) nsub); [|lia]. reflexivity.
Qed.
(** What stands behind a plus fails at a price everywhere. *)
Lemma plus_loop f left g gn (k : nat) : aget T g = Ok gn -> n_type gn = OP_EXPR -> n_next gn = -1 ->
  (forall s next, (s <= n)%nat -> f left s next = (Ok (if (s <? n)%nat then Some (S s) else None), 1)) ->
  (forall s, (s <= n)%nat -> exists c, f g s None = (Ok None, c) /\ 0 <= c /\ forall p, 0 <= p -> Z.of_nat s + Z.of_nat k * p <= Z.of_nat n -> p ^ Z.of_nat k <= c) ->
  forall fuel nm s, (s <= n)%nat -> 0 <= nm <= Z.of_nat s -> 65536 - nm < Z.of_nat fuel ->
  exists r d, greedy_c T text f 1 65535 left (Some g) (Some g) fuel nm s s = (Ok r, d) /\ 0 <= d /\ (r = None \/ r = Some n) /\
    forall p q, 0 <= p -> 0 <= q -> Z.of_nat s + q + Z.of_nat k * p <= Z.of_nat n -> q * p ^ Z.of_nat k <= d.
Proof.
  intros GG ET EX FL FG. induction fuel as [|fuel IH]; intros nm s L NM FU; [lia|]. cbn [greedy_c].
  assert (GO : (nm =? 65535) || (nm <? 65535) = true) by (apply orb_true_iff; rewrite Z.eqb_eq, Z.ltb_lt; lia). rewrite GO.
  rewrite (cbind_ok _ _ _ _ (FL s (Some g) L)). destruct (Nat.ltb_spec s n) as [A|A].
  - unfold stop_here_c. rewrite GG. rewrite (cbind_ok (calm (Ok gn)) gn 0) by reflexivity. rewrite ET. cbn [OP_EXPR OP_GREEDY Z.eqb Pos.eqb negb orb].
    rewrite EX, eqb_m1. cbn [bind]. rewrite EX. rewrite (cbind_ok (calm (Ok (link (-1)))) None 0) by reflexivity.
    destruct (FG (S s) ltac:(lia)) as (c & E & C0 & LB). rewrite (cbind_ok _ _ _ _ E). cbn [fst snd calm cbind]. rewrite repeat_length. cbn [orb].
    destruct (Nat.leb_spec n (S s)) as [B|B].
    + assert (S s = n) by lia. assert (EN : enough 1 65535 (nm + 1) = true).
      { unfold enough. rewrite (proj2 (Z.leb_le 1 (nm + 1))) by lia. cbn [Z.eqb Pos.eqb andb]. apply orb_true_iff. left. apply orb_true_r. }
      rewrite EN. cbn [fst snd calm]. do 2 eexists. split; [reflexivity|]. split; [lia|]. split; [right; f_equal; lia|].
      intros p q P Q B1. destruct (Z.eq_dec q 0) as [->|]; [lia|]. assert (0 <= Z.of_nat k * p) by (apply Z.mul_nonneg_nonneg; lia). assert (q = 1) by lia. subst q. specialize (LB p P ltac:(lia)). lia.
    + destruct (IH (nm + 1) (S s) ltac:(lia) ltac:(lia) ltac:(lia)) as (r & d & -> & D0 & RR & D). cbn [fst snd].
      do 2 eexists. split; [reflexivity|]. split; [lia|]. split; [exact RR|]. intros p q P Q B1. destruct (Z.eq_dec q 0) as [->|]; [lia|].
      specialize (D p (q - 1) P ltac:(lia) ltac:(lia)). specialize (LB p P ltac:(lia)). lia.
  - cbn [fst snd calm]. do 2 eexists. split; [reflexivity|]. split; [lia|]. split.
    + destruct (enough 1 65535 nm); [right; f_equal; lia|auto].
    + intros p q P Q B1. assert (0 <= Z.of_nat k * p) by (apply Z.mul_nonneg_nonneg; lia). assert (q = 0) by lia. subst q. lia.
Qed.
Lemma tower_slow k : forall fuel i s next, rep i (NE (Group true (Just false (tower k)))) -> (2 * k + 2 <= fuel)%nat -> (s <= n)%nat ->
  exists c, mc fuel i s next = (Ok None, c) /\ 0 <= c /\ forall p, 0 <= p -> Z.of_nat s + Z.of_nat k * p <= Z.of_nat n -> p ^ Z.of_nat k <= c.
Proof.
  induction k as [|k IH]; intros fuel i s next R FU L; (destruct fuel as [|[|fuel]]; [lia|lia|]).
  - cbn [tower] in R. destruct (group_one T nsub flags text i _ (S fuel) s next R) as (left & m & G & X & RX & ->). rewrite (b_step left fuel s next L RX). cbn [fst snd].
    eexists. split; [reflexivity|]. split; [lia|]. intros. cbn. lia.
  - destruct fuel as [|fuel]; [lia|].
    inversion R as [ | | | | | | |i' n' cap a G' E CP RL| | ]; subst. cbn [tower alt_list start seq_list] in RL.
    inversion RL as [i' m x G X RX|i' m x l' G X RX RL2]; subst. destruct (repl_single _ _ _ _ RL2) as (gn & GG & GX & RG).
    specialize (CP eq_refl).
    assert (TT : exists t, List.length T = S (S t)) by (destruct T as [|? [|? ?]]; cbn [List.length] in *; [lia|lia|eauto]). destruct TT as (t & TT).
    assert (TG : n_type gn = OP_EXPR) by (inversion RG as [ | | | | | | |i' n2 cap a G2 E2 CP2 RL3| | ]; subst; congruence).
    rewrite (matchnode_group i n' (S (S fuel)) s next G' E CP), TT. cbn [sequence_c]. rewrite G. rewrite (cbind_ok (calm (Ok m)) m 0) by reflexivity.
    destruct (Z.eqb_spec (n_next m) (-1)); [contradiction|].
    destruct (repeat_step T nsub flags text (n_left n') _ _ _ (S fuel) s (Some (n_next m)) RX) as (m' & r & Gm & RLa & ER & EM).
    assert (m' = m) by congruence. subst m'. destruct (Z.eqb_spec (n_next m) (-1)); [contradiction|]. cbv zeta in *. destruct (repl_single _ _ _ _ RLa) as (an & _ & _ & RA).
    destruct (plus_loop (mc (S fuel)) (n_left m) (n_next m) gn k GG TG GX (fun s next L => a_step (n_left m) fuel s next L RA)
      (fun s L => IH (S fuel) (n_next m) s None RG ltac:(lia) L) (Z.to_nat (65535 + 2)) 0 s L ltac:(lia) ltac:(lia)) as (r' & d & EG & D0 & RR & D).
    change (1 mod 65536) with 1 in ER. rewrite EG in ER. subst r. cbn [fst snd] in EM. rewrite (cbind_ok _ _ _ _ EM).
    assert (LOW : forall p, 0 <= p -> Z.of_nat s + Z.of_nat (S k) * p <= Z.of_nat n -> p ^ Z.of_nat (S k) <= d).
    { intros p P B. rewrite Nat2Z.inj_succ, Z.pow_succ_r by lia. apply (D p p P P). lia. }
    destruct RR as [->| ->].
    + cbn [fst snd calm]. eexists. split; [reflexivity|]. split; [lia|]. intros p P B. specialize (LOW p P B). lia.
    + rewrite GG. rewrite (cbind_ok (calm (Ok gn)) gn 0) by reflexivity. rewrite GX, eqb_m1.
      destruct (IH (S (S fuel)) (n_next m) n next RG ltac:(lia) ltac:(lia)) as (c & EC & C0 & _). rewrite (cbind_ok _ _ _ _ EC). cbn [fst snd calm].
      eexists. split; [reflexivity|]. split; [lia|]. intros p P B. specialize (LOW p P B). lia.
Qed.
End Deep.

(** The exponent is right: with k pluses, an argument of k * p characters can take p to the k steps. *)
Theorem C83_degree k p flags : 2 * (4 * Z.of_nat k + 1) <= INT_MAX -> Z.of_nat (k * p) <= 65535 -> (1 <= k)%nat ->
  exists pat r text, spells r pat /\ reps_alt r = Z.of_nat k /\ all_alt (fun e => match e with Repeat _ _ b => solid b | _ => True end) r /\
    zlen pat = 4 * Z.of_nat k + 1 /\ zlen text = Z.of_nat (k * p) /\ trex pat flags text = Ok false /\ Z.of_nat p ^ Z.of_nat k <= snd (trex_c pat flags text).
Proof.
  intros L NL K1. exists (tower_text k), (Just false (tower k)), (repeat ("a"%char : ascii) (k * p)).
  assert (S : spells (Just false (tower k)) (tower_text k)) by (apply al_just; apply tower_spells; discriminate).
  split; [exact S|]. split.
  { cbn [reps_alt]. clear. induction k as [|k IH]; [reflexivity|]. cbn [tower reps_seq reps reps_alt]. lia. }
  split.
  { cbn [all_alt]. clear. induction k as [|k IH]; cbn [tower all_seq all_elem all_alt solid]; repeat split; exact IH. }
  split; [apply tower_length|]. split; [unfold zlen; rewrite repeat_length; reflexivity|].
  assert (C : all_alt (compilable (tower_text k)) (Just false (tower k))).
  { cbn [all_alt]. generalize (tower_text k). intro pat. clear. induction k as [|k IH]; cbn [tower all_elem all_alt all_seq compilable]; repeat split; try reflexivity. exact IH. }
  destruct (compiled_sure _ _ S ltac:(rewrite tower_length; exact L) C) as (st & E & R & RL & LE).
  assert (SZ : sz_alt (Just false (tower k)) = (3 * k + 1)%nat).
  { cbn [sz_alt]. clear. induction k as [|k IH]; [reflexivity|]. cbn [tower sz_elem sz_alt sz_seq]. lia. }
  rewrite <- C83_answers. unfold trex_c. rewrite E. unfold match_c.
  destruct (tower_slow (r_nodes st) (r_nsub st) flags (k * p) NL ltac:(lia) k (Datatypes.S (List.length (r_nodes st))) 0 O None R ltac:(lia) ltac:(lia)) as (c & -> & C0 & LB).
  cbn [fst snd cbind calm]. split; [reflexivity|]. specialize (LB (Z.of_nat p) ltac:(lia) ltac:(lia)). lia.
Qed.

(** ** Exact numbers *)

(** A sequence of characters *)
Fixpoint word (c : ascii) (w : str) : seq := match w with [] => One (Char c) | d :: w => More (Char c) (word d w) end.
(** How many characters of a word an argument begins with *)
Fixpoint agree (icase : bool) (w t : str) : nat :=
  match w, t with
  | c :: w, x :: t => if ceqb x c || icase && ceqb (tolower x) (tolower c) then S (agree icase w t) else O
  | _, _ => O
  end.

Lemma agree_cons ic c w x t : agree ic (c :: w) (x :: t) = if ceqb x c || ic && ceqb (tolower x) (tolower c) then S (agree ic w t) else O.
Proof. reflexivity. Qed.
Section Exact.
Context (T : list node) (nsub flags : Z).
Notation repl := (repl T nsub).
Notation rep := (rep T nsub).
Lemma same_b (c x : ascii) : (if icase flags then (sc x =? lower (sc c)) || (sc x =? upper (sc c)) else sc x =? sc c) =
  ceqb x c || icase flags && ceqb (tolower x) (tolower c).
Proof.
  assert (H := same_spec (icase flags) c x). unfold same in H. rewrite <- (ceqb_eq x c), <- (ceqb_eq (tolower x)) in H. apply eq_true_iff_eq. rewrite H.
  rewrite orb_true_iff, andb_true_iff. reflexivity.
Qed.
Lemma word_steps text fuel : forall w c i done t next g, text = done ++ t -> repl i (seq_list (word c w)) -> (List.length w < g)%nat ->
  Forall (fun c => c <> NUL) (c :: w) ->
  sequence_c T (matchnode_c T nsub flags text (S fuel)) g i (List.length done) next =
    (Ok (if (agree (icase flags) (c :: w) t =? S (List.length w))%nat then Some (List.length done + S (List.length w))%nat else None),
     Z.of_nat (Nat.min (S (agree (icase flags) (c :: w) t)) (S (List.length w)))).
Proof.
  induction w as [|d w IH]; intros c i done t next g -> R G N; (destruct g as [|g]; [cbn in G; lia|]); cbn [word seq_list] in R; cbn [sequence_c];
    (assert (RD : rd (done ++ t) (List.length done) = Ok (hd0 t))
      by (unfold rd; rewrite app_length; destruct t as [|x t]; cbn [List.length hd0];
          [rewrite Nat.add_0_r, Nat.ltb_irrefl, Nat.eqb_refl; reflexivity|
           destruct (Nat.ltb_spec (List.length done) (List.length done + S (List.length t))); [|lia]; rewrite nth_error_app2, Nat.sub_diag by lia; reflexivity]));
    inversion N as [|? ? NC N']; subst.
  - destruct (repl_single _ _ _ _ R) as (n & A & X & RX). rewrite A, (cbind_ok (calm (Ok n)) n 0) by reflexivity.
    rewrite X, eqb_m1, (cbind_ok _ _ _ _ (char_step T nsub flags (done ++ t) i c fuel _ next _ RX RD)), same_b.
    destruct t as [|x t]; cbn [hd0]; rewrite ?agree_cons.
    + assert (E : ceqb NUL c || icase flags && ceqb (tolower NUL) (tolower c) = false).
      { apply orb_false_iff. split; [apply ceqb_neq; congruence|]. apply andb_false_iff. right. apply ceqb_neq. intro Q. apply NC. revert Q. clear. destruct c as [b0 b1 b2 b3 b4 b5 b6 b7]; destruct b0, b1, b2, b3, b4, b5, b6, b7; vm_compute; congruence. }
      rewrite E. reflexivity.
    + destruct (ceqb x c || _); cbn [fst snd calm agree Nat.eqb List.length]; [|reflexivity]. rewrite Nat.add_1_r. reflexivity.
  - inversion R as [i' n x A X RX HE HF|i' n x l A X RX RL]; subst; [destruct w; discriminate|]. rewrite A, (cbind_ok (calm (Ok n)) n 0) by reflexivity.
    destruct (Z.eqb_spec (n_next n) (-1)); [contradiction|].
    rewrite (cbind_ok _ _ _ _ (char_step T nsub flags (done ++ t) i c fuel _ _ _ RX RD)), same_b.
    destruct t as [|x t]; cbn [hd0]; rewrite ?agree_cons.
    + assert (E : ceqb NUL c || icase flags && ceqb (tolower NUL) (tolower c) = false).
      { apply orb_false_iff. split; [apply ceqb_neq; congruence|]. apply andb_false_iff. right. apply ceqb_neq. intro Q. apply NC. revert Q. clear. destruct c as [b0 b1 b2 b3 b4 b5 b6 b7]; destruct b0, b1, b2, b3, b4, b5, b6, b7; vm_compute; congruence. }
      rewrite E. reflexivity.
    + destruct (ceqb x c || _); [|reflexivity]. cbn [List.length] in G.
      assert (H := IH d (n_next n) (done ++ [x]) t next g ltac:(rewrite <- app_assoc; reflexivity) RL ltac:(lia) N').
      rewrite app_length in H. cbn [List.length] in H. rewrite Nat.add_1_r in H. rewrite H. cbn [fst snd List.length].
      set (k := agree (icase flags) (d :: w) t) in *. f_equal.
      * change (S k =? S (S (List.length w)))%nat with (k =? S (List.length w))%nat. f_equal. destruct (k =? S (List.length w))%nat; [|reflexivity]. f_equal. lia.
      * lia.
Qed.
End Exact.

(** A word: one step for the whole, and one for each character up to the first that differs. *)
Theorem C83_word pat c w flags text : spells (Just false (word c w)) pat -> 2 * zlen pat <= INT_MAX ->
  let k := agree (ignore_case flags) (c :: w) text in
  trex_c pat flags text = (Ok ((k =? S (List.length w)) && (List.length text =? S (List.length w)))%nat, 1 + Z.of_nat (Nat.min (S k) (S (List.length w)))).
Proof.
  intros SP L k.
  assert (C : all_alt (compilable pat) (Just false (word c w))).
  { cbn [all_alt]. clear. revert c. induction w as [|d w IH]; intro c; cbn [word all_seq all_elem compilable]; auto. }
  assert (N : Forall (fun c => c <> NUL) (c :: w)).
  { assert (NN : forall p c t q, elem_text p (Char c) t q -> c <> NUL).
    { clear. intros p c t q EL. inversion EL as [p1 e1 t1 AT|]; subst. inversion AT as [? ? LI|? ? ? NM|? ? PE| | | | | | | | | ]; subst; [| |apply PE].
      - destruct LI as [LI _]. intros ->. discriminate.
      - intros ->. unfold named_char in NM. cbn in NM. repeat destruct NM as [NM|NM]; try discriminate NM; contradiction. }
    inversion SP as [s t Q| | | ]; subst. revert Q. generalize First. clear - NN. revert c pat.
    induction w as [|d w IH]; intros c pat p Q; cbn [word] in Q; inversion Q as [p' e t q EL|p' e t q s t' EL SQ]; subst.
    - apply Forall_cons; [apply (NN _ _ _ _ EL)|apply Forall_nil].
    - apply Forall_cons; [apply (NN _ _ _ _ EL)|]. apply (IH _ _ _ SQ). }
  destruct (compiled_sure _ _ SP L C) as (st & E & R & RL & LE).
  unfold trex_c. rewrite E. unfold match_c.
  inversion R as [ | | | | | | |i' n cap a G E1 CP RL2| | ]; subst. cbn [alt_list start] in RL2. specialize (CP eq_refl).
  assert (SZ : (List.length w < List.length (r_nodes st))%nat).
  { cbn [sz_alt] in LE. assert (Z : sz_seq (word c w) = S (List.length w)); [|lia]. clear. revert c. induction w as [|d w IH]; intro c; [reflexivity|]. cbn [word sz_seq sz_elem List.length]. rewrite IH. lia. }
  destruct (List.length (r_nodes st)) as [|g] eqn:EG; [lia|].
  assert (M : matchnode_c (r_nodes st) (r_nsub st) flags text (S (S g)) 0 0 None =
    (let r := sequence_c (r_nodes st) (matchnode_c (r_nodes st) (r_nsub st) flags text (S g)) (List.length (r_nodes st)) (n_left n) 0 None in (fst r, 1 + snd r))).
  { remember (S g) as f eqn:Ef. cbn [matchnode_c]. rewrite G. cbn [tick calm]. rewrite (cbind_ok _ n 1) by reflexivity. cbv zeta. settype E1.
    destruct (Z.leb_spec 0 (n_right n)); [|lia]. destruct (Z.ltb_spec (n_right n) (r_nsub st)); [|lia]. reflexivity. }
  rewrite M. cbv zeta.
  assert (H := word_steps (r_nodes st) (r_nsub st) flags text g w c (n_left n) [] text None (List.length (r_nodes st)) eq_refl RL2 ltac:(lia) N).
  change (List.length (@nil ascii)) with O in H. rewrite H.
  change (icase flags) with (ignore_case flags). fold k. cbn [fst snd List.length plus].
  destruct (k =? S (List.length w))%nat; cbn [cbind calm andb]; f_equal; try lia. f_equal. apply Nat.eqb_sym.
Qed.

(** A set: one step for the whole, one for the set, and one for each member up to the first that has the character. *)
Inductive looked_at (icase : bool) (x : ascii) : list item -> Z -> Prop :=
| la_end : looked_at icase x [] 0
| la_hit i l : in_item icase i x -> looked_at icase x (i :: l) 1
| la_miss i l n : ~ in_item icase i x -> looked_at icase x l n -> looked_at icase x (i :: l) (1 + n).
Lemma class_steps T flags x : forall l i fuel n, items_at T i l -> (icase flags = true -> forall it, In it l -> even_range it) -> (List.length l <= fuel)%nat ->
  looked_at (icase flags) x l n -> exists b, matchclass_c T flags fuel i x = (Ok b, n).
Proof.
  intros l i fuel n R. revert fuel n. induction R as [i nd it G N X|i nd it l G N X R IH]; intros fuel n EV F LA; (destruct fuel as [|fuel]; [cbn in F; lia|]); cbn [matchclass_c];
    rewrite G; cbn [tick calm]; rewrite (cbind_ok _ nd 1) by reflexivity; cbv beta;
    assert (IS := item_spec flags it nd x N ltac:(intro I; apply EV; [exact I|left; reflexivity]));
    inversion LA as [|i' l' HI|i' l' n' HI LA']; subst.
  - apply IS in HI. rewrite HI. eexists. reflexivity.
  - destruct (class_item flags nd x); [exfalso; apply HI, IS; reflexivity|]. inversion LA'; subst. rewrite X, eqb_m1. eexists. reflexivity.
  - apply IS in HI. rewrite HI. eexists. reflexivity.
  - destruct (class_item flags nd x); [exfalso; apply HI, IS; reflexivity|]. destruct (Z.eqb_spec (n_next nd) (-1)); [contradiction|].
    destruct (IH fuel n' ltac:(intros I it' In'; apply EV; [exact I|right; exact In']) ltac:(cbn in F; lia) LA') as [b ->]. eexists. reflexivity.
Qed.
Theorem C83_set pat neg l flags text n : spells (Just false (One (Set_ neg l))) pat -> 2 * zlen pat <= INT_MAX -> compilable pat (Set_ neg l) ->
  even_ranges (ignore_case flags) (Set_ neg l) -> looked_at (ignore_case flags) (hd0 text) l n -> snd (trex_c pat flags text) = 2 + n.
Proof.
  intros SP L CO EV LA.
  destruct (compiled_sure _ _ SP L ltac:(cbn [all_alt all_seq all_elem]; auto)) as (st & E & R & RL & LE).
  unfold trex_c. rewrite E. unfold match_c. cbn [sz_alt sz_seq sz_elem] in LE.
  destruct (List.length (r_nodes st)) as [|g] eqn:EG; [lia|].
  destruct (group_one _ _ flags text 0 _ (S g) O None R) as (left & m & G & X & RX & ->).
  inversion RX as [ | | | | |i' nd neg' l' G1 E1 IT| | | | ]; subst. rewrite G in G1. injection G1 as <-.
  cbn [matchnode_c]. rewrite G. cbn [tick calm]. rewrite (cbind_ok _ m 1) by reflexivity. cbv zeta.
  assert (RD : rd text 0 = Ok (hd0 text)) by (destruct text; reflexivity).
  destruct (class_steps (r_nodes st) flags (hd0 text) l (n_left m) (List.length (r_nodes st)) n IT EV ltac:(lia) LA) as [b EB].
  assert (W : forall q, snd (cbind (calm (rd text 0)) (fun c => b' <-- matchclass_c (r_nodes st) flags (List.length (r_nodes st)) (n_left m) c ;;
        calm (Ok (if Bool.eqb b' q then Some 1%nat else None)))) = n /\
      exists o, fst (cbind (calm (rd text 0)) (fun c => b' <-- matchclass_c (r_nodes st) flags (List.length (r_nodes st)) (n_left m) c ;;
        calm (Ok (if Bool.eqb b' q then Some 1%nat else None)))) = Ok o).
  { intro q. rewrite RD, (cbind_ok (calm (Ok (hd0 text))) (hd0 text) 0) by reflexivity. rewrite EB. cbn [cbind calm fst snd]. split; [lia|eauto]. }
  assert (V : forall (q : cost (option nat)), snd q = n -> (exists o, fst q = Ok o) ->
    snd (r <-- (fst (fst q, 1 + snd q), 1 + snd (fst q, 1 + snd q)) ;; match r with Some e => calm (Ok (e =? List.length text)%nat) | None => calm (Ok false) end) = 2 + n).
  { intros [r d] E2 [o E3]. cbn [fst snd] in *. subst. destruct o; cbn [cbind calm fst snd]; lia. }
  destruct neg; settype E1; [destruct (W false)|destruct (W true)]; apply V; auto.
Qed.

(** A repeated character: one step for the whole, one for the repetition, and one for each character of the argument. *)
Lemma star_steps_at T c n left f : (forall k, (k < n)%nat -> f left k None = (Ok (Some (S k)), 1)) ->
  forall fuel k, (k < n)%nat -> Z.of_nat n <= 65535 -> (n - k < fuel)%nat ->
  greedy_c T (repeat (c : ascii) n) f 0 65535 left None None fuel (Z.of_nat k) k k = (Ok (Some n), Z.of_nat (n - k)).
Proof.
  intros F. induction fuel as [|fuel IH]; intros k K N FU; [lia|]. cbn [greedy_c].
  assert (GO : (Z.of_nat k =? 65535) || (Z.of_nat k <? 65535) = true) by (apply orb_true_iff; rewrite Z.eqb_eq, Z.ltb_lt; lia). rewrite GO.
  rewrite (cbind_ok _ _ _ _ (F k K)). cbn [stop_here_c]. rewrite (cbind_ok (calm (Ok false)) false 0) by reflexivity. cbn [orb]. rewrite repeat_length.
  destruct (Nat.leb_spec n (S k)) as [A|A].
  - assert (EN : enough 0 65535 (Z.of_nat k + 1) = true).
    { unfold enough. rewrite (proj2 (Z.leb_le 0 (Z.of_nat k + 1))) by lia. cbn [Z.eqb Pos.eqb andb]. apply orb_true_iff. left. apply orb_true_r. }
    rewrite EN. cbn [fst snd calm]. f_equal; [do 2 f_equal; lia|lia].
  - replace (Z.of_nat k + 1) with (Z.of_nat (S k)) by lia. rewrite (IH (S k)) by lia. cbn [fst snd]. f_equal. lia.
Qed.
Theorem C83_star pat c flags n : spells (Just false (One (Repeat 0 None (Char c)))) pat -> 2 * zlen pat <= INT_MAX -> (1 <= n)%nat -> Z.of_nat n <= 65535 ->
  trex_c pat flags (repeat c n) = (Ok true, 2 + Z.of_nat n).
Proof.
  intros SP L N1 N.
  destruct (compiled_sure _ _ SP L ltac:(cbn [all_alt all_seq all_elem compilable]; repeat split; reflexivity)) as (st & E & R & RL & LE).
  unfold trex_c. rewrite E. unfold match_c. cbn [sz_alt sz_seq sz_elem] in LE.
  destruct (List.length (r_nodes st)) as [|[|g]] eqn:EG; [lia|lia|].
  destruct (group_one _ _ flags (repeat c n) 0 _ (S (S g)) O None R) as (left & m & G & X & RX & ->).
  destruct (repeat_step _ _ flags (repeat c n) left _ _ _ (S g) O None RX) as (m' & r & G' & RL2 & ER & ->).
  assert (m' = m) by congruence. subst m'. rewrite X, eqb_m1 in ER. destruct (repl_single _ _ _ _ RL2) as (nd & _ & _ & RC).
  change (0 mod 65536) with 0 in ER.
  assert (H : forall F, (forall k, (k < n)%nat -> F (n_left m) k None = (Ok (Some (S k)), 1)) ->
    greedy_c (r_nodes st) (repeat c n) F 0 65535 (n_left m) None None (Z.to_nat (65535 + 2)) 0 0 0 = (Ok (Some n), Z.of_nat n)).
  { intros F HF. assert (H := star_steps_at (r_nodes st) c n (n_left m) F HF (Z.to_nat (65535 + 2)) O ltac:(lia) N ltac:(lia)). rewrite Nat.sub_0_r in H. exact H. }
  rewrite H in ER.
  - subst r. cbn [fst snd cbind calm]. rewrite repeat_length, Nat.eqb_refl. f_equal. lia.
  - intros k K.
    assert (RD : rd (repeat c n) k = Ok c).
    { unfold rd. rewrite repeat_length. destruct (Nat.ltb_spec k n); [|lia]. rewrite (nth_error_nth' _ c) by (rewrite repeat_length; lia). rewrite nth_repeat. reflexivity. }
    rewrite (char_step _ _ flags (repeat c n) (n_left m) c g k None _ RC RD), same_b, ceqb_refl. reflexivity.
Qed.

(** ** Examples *)

(** Four numbers with dots between them: at most three rounds of each repetition *)
Definition quad_elem : elem := Repeat 1 (Some 3) (Named "d").
Definition quad : alt := Just false (More quad_elem (One (Repeat 3 (Some 3) (Group true (Just false (More (Char ".") (One quad_elem))))))).
Definition quad_pattern : str := lit "\d{1,3}(\.\d{1,3}){3}".
Lemma quad_text p : elem_text p quad_elem (lit "\d{1,3}") AfterRepeat.
Proof.
  change (lit "\d{1,3}") with ([bs; "d"%char] ++ (lit "{" ++ lit "1" ++ lit "," ++ lit "3" ++ lit "}")). apply el_repeat.
  - apply at_class. unfold class_name. cbn. auto 20.
  - apply sx_between; apply nb; try discriminate; try reflexivity; cbn; lia.
Qed.
Lemma quad_spelled : spells quad quad_pattern.
Proof.
  apply al_just. change quad_pattern with (lit "\d{1,3}" ++ (("("%char :: (([bs; "."%char] ++ lit "\d{1,3}") ++ lit ")")) ++ (lit "{" ++ lit "3" ++ lit "}"))).
  apply sq_more with AfterRepeat; [apply quad_text|]. apply sq_one with AfterRepeat. apply el_repeat.
  - apply at_group; [discriminate|]. apply al_just. apply sq_more with AfterAtom; [|apply sq_one with AfterRepeat; apply quad_text].
    apply el_atom. apply at_escape; try discriminate. repeat split.
    + intros d H. unfold named_char in H. cbn in H. repeat destruct H as [H|H]; try discriminate H; contradiction.
    + unfold class_name. neg_in.
    + discriminate.
  - apply sx_exact. apply nb; try discriminate; try reflexivity; cbn; lia.
Qed.
Example quad_steps : trex_c quad_pattern 0 (lit "192.168.10.254") = (Ok true, 49).
Proof. vm_compute. reflexivity. Qed.
Example quad_bound text flags : snd (trex_c quad_pattern flags text) <= 22 * 70 ^ 3.
Proof.
  assert (H := C83_bound quad_pattern quad flags text 3 quad_spelled ltac:(vm_compute; discriminate) ltac:(lia)). apply H.
  unfold quad, quad_elem. cbn [all_alt all_seq all_elem tries]. repeat split; right; right; exists 3; repeat split; lia.
Qed.
(** A plus behind a plus: the square of the length *)
Example square_steps : trex_c (tower_text 2) 0 (repeat "a"%char 100) = (Ok false, 15354).
Proof. vm_compute. reflexivity. Qed.
Example square_bound text flags : text <> [] -> snd (trex_c (tower_text 2) flags text) <= 10 * (1 + zlen text * 11) ^ 2.
Proof.
  intro TN. assert (H := C83_text (tower_text 2) (Just false (tower 2)) flags text). apply H; auto.
  - apply al_just. apply tower_spells. discriminate.
  - vm_compute. discriminate.
  - cbn [tower all_alt all_seq all_elem solid]. repeat split.
Qed.
(** ((a?)* ) and an argument of one character *)
Example star_steps : snd (trex_c (lit "((a?)*)") 0 (lit "b")) = 196611.
Proof. vm_compute. reflexivity. Qed.
(** Four stars: a pattern of 16 characters, and a number of steps of more than 64 bits *)
Example stars : exists pat, zlen pat = 16 /\ trex pat 0 (lit "b") = Ok false /\ 2 ^ 64 <= snd (trex_c pat 0 (lit "b")).
Proof.
  destruct (C83_nested 4 0 (lit "b") ltac:(vm_compute; discriminate) ltac:(discriminate)) as (pat & L & A & B).
  - intros [H|[H _]]; discriminate H.
  - exists pat. split; [exact L|]. split; [exact A|exact B].
Qed.
(** No repetition *)
Example once_steps : trex_c (lit "abc[0-9]|x") 0 (lit "abc7") = (Ok true, 7).
Proof. vm_compute. reflexivity. Qed.

(** Words, sets and stars *)
Lemma word_spells : forall w c p, p <> AfterRepeat -> Forall (fun c => literal_at p c /\ literal_at AfterAtom c) (c :: w) -> seq_text p (word c w) (c :: w).
Proof.
  induction w as [|d w IH]; intros c p P F; inversion F as [|? ? [A B] F']; subst; cbn [word].
  - apply sq_one with AfterAtom. apply el_atom. apply at_char. exact A.
  - change (c :: d :: w) with ([c] ++ d :: w). apply sq_more with AfterAtom; [apply el_atom; apply at_char; exact A|]. apply IH; [discriminate|].
    eapply Forall_impl; [|exact F']. intros a [_ H]. auto.
Qed.
Example word_case : spells (Just false (word "c" (lit "olor"))) (lit "color") /\
  trex_c (lit "color") 0 (lit "colour") = (Ok false, 6) /\ trex_c (lit "color") 1 (lit "COLOR") = (Ok true, 6) /\
  agree true (lit "color") (lit "COLOR") = 5%nat /\ agree false (lit "color") (lit "colour") = 4%nat.
Proof.
  split; [|repeat split; vm_compute; reflexivity]. apply al_just. apply word_spells; [discriminate|].
  repeat constructor; try discriminate; vm_compute; intuition discriminate.
Qed.
Example set_case : spells (Just false (One (Set_ false [IChar "x"; IRange "0" "9"; IChar "y"]))) (lit "[x0-9y]") /\
  looked_at false "5" [IChar "x"; IRange "0" "9"; IChar "y"] 2 /\ snd (trex_c (lit "[x0-9y]") 0 (lit "5")) = 4 /\ snd (trex_c (lit "[x0-9y]") 0 (lit "z")) = 5.
Proof.
  split.
  - apply al_just. apply sq_one with AfterAtom. apply el_atom. apply (at_set First _ (lit "x0-9y")); [discriminate|discriminate|].
    change (lit "x0-9y") with ([("x"%char : ascii)] ++ ([("0"%char : ascii)] ++ "-"%char :: [("9"%char : ascii)] ++ ([("y"%char : ascii)] ++ []))).
    apply st_char; [apply sc_plain; [reflexivity|vm_compute; intuition discriminate|discriminate]|].
    apply st_range; [apply sc_plain; [reflexivity|vm_compute; intuition discriminate|discriminate]|apply re_plain; [reflexivity|discriminate]|].
    apply st_char; [apply sc_plain; [reflexivity|vm_compute; intuition discriminate|discriminate]|]. apply st_nil.
  - split; [|split; vm_compute; reflexivity]. apply (la_miss false "5" _ _ 1); [cbn; intros [H|[H _]]; discriminate H|]. apply la_hit. left. split; vm_compute; discriminate.
Qed.
Example star_case : spells (Just false (One (Repeat 0 None (Char "a")))) (lit "a*") /\ trex_c (lit "a*") 0 (lit "aaaa") = (Ok true, 6).
Proof.
  split; [|vm_compute; reflexivity]. apply al_just. apply sq_one with AfterRepeat. change (lit "a*") with ([("a"%char : ascii)] ++ lit "*"). apply el_repeat; [|apply sx_star].
  apply at_char. repeat split; try discriminate. vm_compute. intuition discriminate.
Qed.

Print Assumptions C83_answers.
Print Assumptions C83_bound.
Print Assumptions C83_always.
Print Assumptions C83_text.
Print Assumptions C83_once.
Print Assumptions C83_nested.
Print Assumptions C83_degree.
Print Assumptions C83_word.
Print Assumptions C83_set.
Print Assumptions C83_star.
