(** C72: loosening the counts of a table (lower minima, higher maxima for entries with options) keeps every accepted command line
    accepted, with the same counts and values. *)
From Verif Require Import Base IntModel IntSpec IntProofs FileModel FileSpec DateModel DateSpec GetoptModel ParseModel ParseSpec GetoptProofs ParseIdeal ParseProofs ParseFacts ParseObserve ParseSafe ParseLemmas ArgModel KindsSpec KindsProofs PropKinds CommandSpec CommandProofs PropCommand.
From Verif Require PropFile PropDate ExTable.
From Coq Require Import ZArith List Ascii String Bool Lia.
Import ListNotations.
Open Scope Z_scope.

(** ** The spelling depends only on the options and on whether they take values *)
Definition same_options (h1 h2 : hdr) : Prop :=
  h_shortopts h1 = h_shortopts h2 /\ h_longopts h1 = h_longopts h2 /\ h_hasvalue h1 = h_hasvalue h2 /\ h_hasoptvalue h1 = h_hasoptvalue h2.

Lemma Forall2_nth_l {A B} (R : A -> B -> Prop) l1 l2 : Forall2 R l1 l2 -> forall i x, nth_error l1 i = Some x -> exists y, nth_error l2 i = Some y /\ R x y.
Proof. induction 1 as [|a b l1 l2 Hr H IH]; intros [|i] x Hx; try discriminate; cbn in *; [injection Hx as <-; eauto|eauto]. Qed.
Lemma Forall2_nth_r {A B} (R : A -> B -> Prop) l1 l2 : Forall2 R l1 l2 -> forall i y, nth_error l2 i = Some y -> exists x, nth_error l1 i = Some x /\ R x y.
Proof. induction 1 as [|a b l1 l2 Hr H IH]; intros [|i] x Hx; try discriminate; cbn in *; [injection Hx as <-; eauto|eauto]. Qed.

Section Spelling.
Context (t1 t2 : list hdr) (Ht : Forall2 same_options t1 t2).
Lemma same_names h1 h2 : same_options h1 h2 -> hdr_names h1 = hdr_names h2.
Proof. intros (_ & E & _). unfold hdr_names. rewrite E. reflexivity. Qed.
Lemma same_declares c h1 h2 : same_options h1 h2 -> declares c h1 = declares c h2.
Proof. intros (E & _). unfold declares. rewrite E. reflexivity. Qed.
Lemma same_short_takes h1 h2 : same_options h1 h2 -> short_takes h1 = short_takes h2.
Proof. intros (_ & _ & E1 & E2). unfold short_takes. rewrite E1, E2. reflexivity. Qed.
Lemma same_long_takes h1 h2 : same_options h1 h2 -> long_takes h1 = long_takes h2.
Proof. intros (_ & _ & E1 & E2). unfold long_takes. rewrite E1, E2. reflexivity. Qed.
Lemma selects_same nm i h : selects t1 nm i h -> exists h2, same_options h h2 /\ selects t2 nm i h2.
Proof.
  intros [H1 H2 H3|n H1 H2 H3 H4 H5].
  - destruct (Forall2_nth_l _ _ _ Ht _ _ H1) as (h2 & N & R). exists h2. split; auto. apply sel_exact; auto; [rewrite <- (same_names _ _ R); auto|].
    intros j h' Hj Hn. destruct (Forall2_nth_r _ _ _ Ht _ _ Hn) as (x & Nx & Rx). rewrite <- (same_names _ _ Rx). eauto.
  - destruct (Forall2_nth_l _ _ _ Ht _ _ H2) as (h2 & N & R). exists h2. split; auto. apply (sel_prefix _ _ _ _ n); auto; [|rewrite <- (same_names _ _ R); auto|].
    + intros j h' Hn. destruct (Forall2_nth_r _ _ _ Ht _ _ Hn) as (x & Nx & Rx). rewrite <- (same_names _ _ Rx). eauto.
    + intros j h' m Hn Hm Hp. destruct (Forall2_nth_r _ _ _ Ht _ _ Hn) as (x & Nx & Rx). rewrite <- (same_names _ _ Rx) in Hm. eauto.
Qed.
Lemma declaring_same c i h : first_declaring t1 c i h -> exists h2, same_options h h2 /\ first_declaring t2 c i h2.
Proof.
  intros (H1 & H2 & H3). destruct (Forall2_nth_l _ _ _ Ht _ _ H1) as (h2 & N & R). exists h2. split; auto. split; auto. split; [rewrite <- (same_declares c _ _ R); auto|].
  intros j h' Hj Hn. destruct (Forall2_nth_r _ _ _ Ht _ _ Hn) as (x & Nx & Rx). rewrite <- (same_declares c _ _ Rx). eauto.
Qed.
Lemma long_option_same body ws o : long_option t1 body ws o -> long_option t2 body ws o.
Proof.
  intros [nm i h H1 H2 H3|nm v i h H1 H2 H3 H4|nm v i h H1 H2 H3 H4]; apply selects_same in H2 as (h2 & R & S); pose proof (same_long_takes _ _ R) as E; rewrite E in H3.
  - apply lo_bare with h2; auto.
  - apply lo_equals with h2; auto. destruct R as (_ & _ & R & _). rewrite <- R. auto.
  - apply lo_next with h2; auto.
Qed.
Lemma cluster_same cs ws os : cluster t1 cs ws os -> cluster t2 cs ws os.
Proof.
  induction 1 as [|c cs ws i h os Hc Hd Ht0 H IH|c i h Hc Hd Ht0|c v i h Hc Hd Ht0 Hv|c v i h Hc Hd Ht0|body ws o Hb Ho];
    try (apply declaring_same in Hd as (h2 & R & Hd); rewrite (same_short_takes _ _ R) in Ht0).
  - constructor.
  - apply cl_switch with h2; auto.
  - apply cl_bare with h2; auto.
  - apply cl_attached with h2; auto.
  - apply cl_next with h2; auto.
  - apply cl_long; auto. apply long_option_same; auto.
Qed.
Lemma spells_same posix args os pos : spells t1 posix args os pos -> spells t2 posix args os pos.
Proof. induction 1; try (constructor; auto; fail). apply sp_option; auto. apply cluster_same; auto. Qed.
End Spelling.

Section Loosen.
Context {D : Type}.
Context (strtod : str -> D * nat).
Context (rexmatch : str -> Z -> str -> res bool).
Context (sp : seps).
Notation lm := Long64.
Notation parse := (karg_parse strtod rexmatch lm sp).
Notation safe_value := (safe_value lm).
Notation stored := (stored strtod rexmatch lm sp).
Notation denotes := (denotes strtod rexmatch lm sp).
Notation acceptable := (acceptable strtod rexmatch lm sp).
Notation satisfied := (satisfied strtod rexmatch lm sp).
Notation shared := (shared strtod rexmatch lm sp).
Notation reached := (reached strtod rexmatch lm sp).
Hypothesis Hd : strtod_contract strtod.

(** ** Values are determined by the texts *)
Lemma denotes_det ints b v0 s v1 v2 : safe_value ints s -> (is_int b = true -> ints = true) -> denotes b v0 s v1 -> denotes b v0 s v2 -> v1 = v2.
Proof.
  intros Hs Hi H1 H2. destruct b as [n|p|p|p|p|p|p|]; cbn in H1, H2; try contradiction.
  - destruct H1 as (n1 & -> & H1), H2 as (n2 & -> & H2). destruct (H1 eq_refl) as [L1 R1], (H2 eq_refl) as [L2 _]. f_equal. apply (int_literal_unique s); auto.
    exact (proj2 Hs (Hi eq_refl) [] s eq_refl).
  - destruct H1 as (d1 & E1 & ->), H2 as (d2 & E2 & ->). congruence.
  - congruence.
  - destruct H1 as (b1 & x1 & B1 & X1 & ->), H2 as (b2 & x2 & B2 & X2 & ->). pose proof (PropFile.base_name_unique _ _ _ _ _ B1 B2). subst b2.
    pose proof (PropFile.extension_unique _ _ _ X1 X2). subst x2. reflexivity.
  - destruct H1 as (t1 & t1' & -> & R1 & ->), H2 as (t2 & t2' & E & R2 & ->). injection E as <-. destruct (PropDate.C21_date_unique _ _ _ _ _ _ _ (proj1 Hs) R1 R2) as [<- _]. reflexivity.
  - destruct H1 as [_ ->], H2 as [_ ->]. reflexivity.
Qed.

(** ** Loosening *)
(** Entries of the same kind, with the same format or pattern. The texts of dates are read into what the slot already holds, so
    there the slots common to both must agree; constructors fill them with zeros. *)
Definition same_kind (b1 b2 : body D) : Prop :=
  match b1, b2 with
  | KLit _, KLit _ | KInt _, KInt _ | KDbl _, KDbl _ | KStr _, KStr _ | KFile _, KFile _ | KRem, KRem => True
  | KDate p, KDate q => date_format p = date_format q /\ forall k t1 t2, nth_error (date_tmval p) k = Some t1 -> nth_error (date_tmval q) k = Some t2 -> t1 = t2
  | KRex p, KRex q => rex_pattern p = rex_pattern q /\ rex_flags p = rex_flags q
  | _, _ => False
  end.
(** [looser e1 e2]: [e2] is [e1], but with a lower minimum or, if it has options, a higher maximum (or both). *)
Definition looser (e1 e2 : entry (body D)) : Prop :=
  same_options (e_hdr e1) (e_hdr e2) /\ same_kind (e_body e1) (e_body e2) /\
  h_mincount (e_hdr e2) <= h_mincount (e_hdr e1) /\ h_maxcount (e_hdr e1) <= h_maxcount (e_hdr e2) /\
  (no_options (e_hdr e1) -> h_maxcount (e_hdr e1) = h_maxcount (e_hdr e2)).

Lemma slots_size ints (e : entry (body D)) : Inv rexmatch ints (e_hdr e) (e_body e) -> kcount (e_body e) <> None -> (forall n, e_body e <> KLit n) ->
  zlen (slots_reset (e_body e)) = h_maxcount (e_hdr e).
Proof.
  intros (Hb & _) Hk Hl. destruct (e_body e) as [n|p|p|p|p|p|p|] eqn:E; cbn in Hb; unfold slots_reset; cbn [slots].
  - destruct (Hl n). reflexivity.
  - destruct Hb as [_ Hb]. unfold zlen in *. rewrite map_length. auto.
  - destruct Hb as [_ Hb]. unfold zlen in *. rewrite map_length. auto.
  - destruct Hb as [Hc Hb]. unfold zlen in *. rewrite map_length, app_length, repeat_length, skipn_length. lia.
  - destruct Hb as (_ & H1 & H2 & H3). unfold zlen in *. rewrite (files_length (file_name p) (file_base p) (file_ext p) (Z.to_nat (h_maxcount (e_hdr e)))); lia.
  - destruct Hb as [_ Hb]. unfold zlen in *. rewrite map_length. auto.
  - destruct Hb as [_ Hb]. unfold zlen in *. rewrite map_length. auto.
  - destruct Hk. reflexivity.
Qed.
Lemma kind_counts b1 b2 : same_kind b1 b2 -> kcount b1 <> None <-> kcount b2 <> None.
Proof. destruct b1, b2; cbn; intros H; try contradiction; split; intros; congruence. Qed.
Lemma kind_lit b1 b2 : same_kind b1 b2 -> (forall n, b1 <> KLit n) <-> (forall n, b2 <> KLit n).
Proof. destruct b1, b2; cbn; intros H; try contradiction; split; intros; try congruence. Qed.
Lemma kind_sym b1 b2 : same_kind b1 b2 -> same_kind b2 b1.
Proof.
  destruct b1, b2; cbn; intros H; try contradiction; auto.
  - destruct H as [H1 H2]. split; auto. intros k t1 t2 N1 N2. symmetry. eauto.
  - destruct H as [H1 H2]. split; auto.
Qed.
Lemma denotes_kind b1 b2 k v1 v2 s v : same_kind b1 b2 -> nth_error (slots_reset b1) k = Some v1 -> nth_error (slots_reset b2) k = Some v2 -> denotes b1 v1 s v -> denotes b2 v2 s v.
Proof.
  destruct b1 as [n|p|p|p|p|p|p|], b2 as [m|q|q|q|q|q|q|]; intros H N1 N2; cbn in H; try contradiction; cbn; auto.
  - destruct H as [E Hs]. intros (t & t' & -> & R & ->). cbn in N1, N2. rewrite nth_error_map in N1, N2.
    destruct (nth_error (date_tmval p) k) as [x|] eqn:E1; [|discriminate]. destruct (nth_error (date_tmval q) k) as [y|] eqn:E2; [|discriminate]. cbn in N1, N2. injection N1 as <-. injection N2 as <-.
    exists y, t'. rewrite <- E, <- (Hs k x y E1 E2). auto.
  - destruct H as [E1 E2]. rewrite E1, E2. auto.
Qed.
Lemma not_lit {P Q : Prop} (b : body D) : (forall n, b <> KLit n) -> match b with KLit _ => Q | _ => P end <-> P.
Proof. intros H. destruct b as [n| | | | | | |]; try tauto. destruct (H n eq_refl). Qed.
(** The values of [l] where a text was given, those of [l0] elsewhere. *)
Fixpoint overlay {A} (gs : list (option str)) (l l0 : list A) : list A :=
  match gs, l0 with
  | g :: gs', c :: l0' => (match g, l with Some _, a :: _ => a | _, _ => c end) :: overlay gs' (tl l) l0'
  | _, _ => l0
  end.
Lemma nth_overlay {A} : forall gs (l l0 : list A) k, nth_error (overlay gs l l0) k =
  match nth_error gs k, nth_error l0 k with Some (Some _), Some c => Some (match nth_error l k with Some a => a | None => c end) | _, x => x end.
Proof.
  induction gs as [|g gs IH]; intros l l0 k; [destruct k; reflexivity|]. destruct l0 as [|c l0]; cbn [overlay]; [destruct k as [|k]; [destruct g; reflexivity|]; cbn [nth_error]; destruct (nth_error gs k) as [[]|]; reflexivity|].
  destruct k as [|k]; cbn [nth_error].
  - destruct g; [destruct l; reflexivity|reflexivity].
  - rewrite IH. destruct l; [destruct k; reflexivity|reflexivity].
Qed.
Lemma acceptable_kind e1 e2 given : same_kind (e_body e1) (e_body e2) -> ((forall n, e_body e1 <> KLit n) -> zlen given <= zlen (slots_reset (e_body e2))) -> acceptable e1 given -> acceptable e2 given.
Proof.
  intros Hk Hz (l & Hl & Hs). exists (overlay (match e_body e1 with KLit _ => [] | _ => given end) l (slots_reset (e_body e2))). split.
  - destruct (e_body e1) eqn:E1, (e_body e2) eqn:E2; cbn in Hk; try contradiction; auto.
  - intros k. specialize (Hs k). assert (D1 : (exists n, e_body e1 = KLit n) \/ forall n, e_body e1 <> KLit n) by (destruct (e_body e1); eauto; right; discriminate).
    destruct D1 as [(n & En)|Hn].
    + rewrite En in *. destruct (e_body e2) eqn:E2; cbn in Hk; try contradiction. destruct (nth_error given k) as [[]|]; auto.
    + specialize (Hz Hn). assert (Eo : overlay (match e_body e1 with KLit _ => [] | _ => given end) l (slots_reset (e_body e2)) = overlay given l (slots_reset (e_body e2))) by (destruct (e_body e1) eqn:Ex; auto; destruct (Hn _ eq_refl)).
      rewrite Eo, nth_overlay. destruct (nth_error given k) as [[s|]|] eqn:Eg.
      * assert (Hlt : (k < List.length (slots_reset (e_body e2)))%nat) by (assert (k < List.length given)%nat by (apply nth_error_Some; congruence); unfold zlen in Hz; lia).
        destruct (nth_error (slots_reset (e_body e2)) k) as [v2|] eqn:Ev; [|apply nth_error_None in Ev; lia].
        assert (Hs' : exists v0 v, nth_error (slots_reset (e_body e1)) k = Some v0 /\ nth_error l k = Some v /\ denotes (e_body e1) v0 s v) by (exact (proj1 (not_lit (Q := True) (e_body e1) Hn) Hs)).
        destruct Hs' as (v0 & v & A1 & A2 & A3). rewrite A2.
        assert (G : exists w0 w, Some v2 = Some w0 /\ Some v = Some w /\ denotes (e_body e2) w0 s w) by (exists v2, v; split; auto; split; auto; eapply denotes_kind; eauto).
        exact (proj2 (not_lit (Q := True) (e_body e2) (proj1 (kind_lit _ _ Hk) Hn)) G).
      * destruct (nth_error (slots_reset (e_body e2)) k); destruct (e_body e2); auto.
      * destruct (nth_error (slots_reset (e_body e2)) k); destruct (e_body e2); auto.
Qed.

Lemma looser_options tab1 tab2 : Forall2 looser tab1 tab2 -> Forall2 same_options (map e_hdr tab1) (map e_hdr tab2).
Proof. induction 1 as [|e1 e2 l1 l2 H Hl IH]; cbn; constructor; auto. apply H. Qed.
Lemma no_options_same h1 h2 : same_options h1 h2 -> no_options h1 <-> no_options h2.
Proof. intros (E1 & E2 & _). unfold no_options. rewrite E1, E2. tauto. Qed.
Notation ready ints := (Forall (inv (Inv rexmatch ints))).
Lemma shared_looser ints1 ints2 tab1 tab2 os pos runs : ready ints1 tab1 -> ready ints2 tab2 -> Forall2 looser tab1 tab2 -> shared tab1 os pos runs -> shared tab2 os pos runs.
Proof.
  intros Hr1 Hr2 Ht (H1 & H2 & H3). split; auto. split; [rewrite H2; clear -Ht; induction Ht; cbn; auto|].
  intros i e2 run Hi Hrun. destruct (Forall2_nth_r _ _ _ Ht _ _ Hi) as (e1 & Hi1 & (So & Sk & Smn & Smx & Sp)).
  specialize (H3 i e1 run Hi1 Hrun). cbn zeta in H3 |- *. destruct H3 as (A1 & A2 & A3). set (given := given_to i os ++ map Some run) in *.
  rewrite Forall_forall in Hr1, Hr2. pose proof (Hr1 e1 (nth_error_In _ _ Hi1)) as I1. pose proof (Hr2 e2 (nth_error_In _ _ Hi)) as I2. unfold inv in I1, I2.
  pose proof (kind_counts _ _ Sk) as Kc. pose proof (kind_lit _ _ Sk) as Kl. split; [|split].
  - intros Hn. destruct (A1 Hn) as [B1 B2]. split; [apply (no_options_same _ _ So); auto|tauto].
  - intros Hc. destruct (A2 (proj2 Kc Hc)) as [B1 B2]. split; [lia|]. eapply acceptable_kind; eauto. intros Hn. rewrite (slots_size ints2 e2 I2 Hc (proj1 Kl Hn)). lia.
  - intros Hn a Ha (C1 & C2 & C3). apply (no_options_same _ _ So) in Hn. apply (A3 Hn a Ha). split; [tauto|]. rewrite (Sp Hn). split; auto.
    apply (acceptable_kind e2 e1); [apply kind_sym; auto| |exact C3]. intros Hl. rewrite (slots_size ints1 e1 I1 (proj2 Kc C1) (proj2 Kl Hl)), (Sp Hn), zlen_app. change (zlen [Some a]) with 1. lia.
Qed.

(** What the first table accepts, the second accepts, with the same counts, and with every text of the command line stored as the
    same value in the same slot. *)
Theorem C72_loosened :
  forall ints1 ints2 posix cap1 cap2 tab1 tab2 rest jo1 jc1 jp1 fuel1 argv1 h1 s1 en1 a1 jo2 jc2 jp2 fuel2 argv2 h2 s2 en2 a2 h1' s1' tab1' en1',
  reached ints1 tab1 -> reached ints2 tab2 -> Forall2 looser tab1 tab2 ->
  call cap1 tab1 en1 h1 argv1 a1 rest fuel1 -> call cap2 tab2 en2 h2 argv2 a2 rest fuel2 -> Forall (safe_value ints1) rest -> Forall (safe_value ints2) rest ->
  parse posix jo1 jc1 jp1 fuel1 (zlen (a1 :: rest)) argv1 h1 s1 tab1 en1 = Ok (h1', s1', tab1', en1') -> end_count en1' = 0 ->
  exists os pos runs, spells (map e_hdr tab1) posix rest os pos /\ shared tab1 os pos runs /\
  exists h2' s2' tab2' en2', parse posix jo2 jc2 jp2 fuel2 (zlen (a2 :: rest)) argv2 h2 s2 tab2 en2 = Ok (h2', s2', tab2', en2') /\ end_count en2' = 0 /\
  forall i e run e1 e2, nth_error tab1 i = Some e -> kcount (e_body e) <> None -> nth_error runs i = Some run -> nth_error tab1' i = Some e1 -> nth_error tab2' i = Some e2 ->
    let given := given_to i os ++ map Some run in
    kcount (e_body e1) = Some (zlen given) /\ kcount (e_body e2) = Some (zlen given) /\
    forall k s, nth_error given k = Some (Some s) -> nth_error (slots (e_body e2)) k = nth_error (slots (e_body e1)) k.
Proof.
  intros ints1 ints2 posix cap1 cap2 tab1 tab2 rest jo1 jc1 jp1 fuel1 argv1 h1 s1 en1 a1 jo2 jc2 jp2 fuel2 argv2 h2 s2 en2 a2 h1' s1' tab1' en1' R1 R2 Hl C1 C2 V1 V2 P1 Z1.
  destruct (proj1 (C59_accepted_iff strtod rexmatch sp Hd ints1 posix cap1 tab1 rest jo1 jc1 jp1 fuel1 argv1 h1 s1 en1 a1 R1 C1 V1)) as (os & pos & runs & Hs & Hsh); [eauto 10|].
  exists os, pos, runs. split; auto. split; auto.
  pose proof (reached_ready strtod rexmatch lm sp Hd _ _ R1) as Y1. pose proof (reached_ready strtod rexmatch lm sp Hd _ _ R2) as Y2.
  pose proof (spells_same _ _ (looser_options _ _ Hl) _ _ _ _ Hs) as Hs2. pose proof (shared_looser _ _ _ _ _ _ _ Y1 Y2 Hl Hsh) as Hsh2.
  destruct (C59_accepted_values strtod rexmatch sp Hd ints1 posix cap1 tab1 rest jo1 jc1 jp1 fuel1 argv1 h1 s1 en1 a1 os pos runs R1 C1 V1 Hs Hsh) as (x1 & x2 & x3 & x4 & P1' & _ & F1).
  rewrite P1 in P1'. injection P1' as <- <- <- <-.
  destruct (C59_accepted_values strtod rexmatch sp Hd ints2 posix cap2 tab2 rest jo2 jc2 jp2 fuel2 argv2 h2 s2 en2 a2 os pos runs R2 C2 V2 Hs2 Hsh2) as (h2' & s2' & tab2' & en2' & P2 & Z2 & F2).
  exists h2', s2', tab2', en2'. split; auto. split; auto. intros i o1 run e1 e2 O1 K1 Hrun N1 N2. cbn zeta.
  destruct (Forall2_nth_l _ _ _ Hl _ _ O1) as (o2 & O2 & (So & Sk & _)).
  destruct (F1 i o1 run O1 Hrun) as (y1 & M1 & _ & G1). rewrite N1 in M1. injection M1 as <-. destruct (F2 i o2 run O2 Hrun) as (y2 & M2 & _ & G2). rewrite N2 in M2. injection M2 as <-.
  destruct (G1 K1) as (Q1 & St1). destruct (G2 (proj1 (kind_counts _ _ Sk) K1)) as (Q2 & St2). split; auto. split; auto.
  intros k s Hk. destruct St1 as [L1 St1], St2 as [L2 St2]. specialize (St1 k). specialize (St2 k). rewrite Hk in St1, St2.
  assert (D1 : (exists n, e_body o1 = KLit n) \/ forall n, e_body o1 <> KLit n) by (destruct (e_body o1); eauto; right; discriminate). destruct D1 as [(n & En)|Hn].
  - rewrite En in *. destruct (e_body o2) eqn:E2; cbn in Sk; try contradiction. rewrite L1, L2. reflexivity.
  - assert (A1 : exists v0 v, nth_error (slots_reset (e_body o1)) k = Some v0 /\ nth_error (slots (e_body e1)) k = Some v /\ denotes (e_body o1) v0 s v) by (exact (proj1 (not_lit (Q := True) (e_body o1) Hn) St1)).
    pose proof (proj1 (kind_lit _ _ Sk) Hn) as Hn2.
    assert (A2 : exists v0 v, nth_error (slots_reset (e_body o2)) k = Some v0 /\ nth_error (slots (e_body e2)) k = Some v /\ denotes (e_body o2) v0 s v) by (exact (proj1 (not_lit (Q := True) (e_body o2) Hn2) St2)).
    destruct A1 as (u1 & v1 & B1 & B2 & B3), A2 as (u2 & v2 & B4 & B5 & B6). rewrite B2, B5. f_equal.
    apply (denotes_det ints2 (e_body o2) u2 s); auto.
    + destruct (spelled_ok strtod rexmatch sp Hd ints2 posix tab2 rest os pos Hs2 V2) as [So2 Sp2]. apply nth_error_In in Hk. apply in_app_iff in Hk as [Hk|Hk].
      * unfold given_to in Hk. apply in_flat_map in Hk as ([j w] & Hj & Hw). cbn in Hw. destruct (Nat.eqb j i); [|destruct Hw]. destruct Hw as [->|[]]. rewrite Forall_forall in So2. apply (So2 _ Hj). reflexivity.
      * apply in_map_iff in Hk as (x & Ex & Hx). injection Ex as ->. rewrite Forall_forall in Sp2. apply Sp2. destruct Hsh as (-> & _). apply in_concat. exists run. split; auto. eapply nth_error_In; eauto.
    + rewrite Forall_forall in Y2. apply (Y2 o2 (nth_error_In _ _ O2)).
    + apply (denotes_kind (e_body o1) _ k u1); auto.
Qed.

(** ** New tables *)
(** The same call of a constructor, but for the counts. [mn1] and [mx1] are the old ones. *)
Inductive recounted (mn1 mx1 mn2 mx2 : Z) : entry (body D) -> entry (body D) -> Prop :=
| rc_lit so lo gl gl' : recounted mn1 mx1 mn2 mx2 (arg_litn so lo mn1 mx1 gl) (arg_litn so lo mn2 mx2 gl')
| rc_int j j' so lo dt dt' gl gl' : recounted mn1 mx1 mn2 mx2 (arg_intn j so lo dt mn1 mx1 gl) (arg_intn j' so lo dt' mn2 mx2 gl')
| rc_dbl j j' so lo dt dt' gl gl' : recounted mn1 mx1 mn2 mx2 (arg_dbln j so lo dt mn1 mx1 gl) (arg_dbln j' so lo dt' mn2 mx2 gl')
| rc_str so lo dt dt' gl gl' : recounted mn1 mx1 mn2 mx2 (arg_strn so lo dt mn1 mx1 gl) (arg_strn so lo dt' mn2 mx2 gl')
| rc_file so lo dt dt' gl gl' : recounted mn1 mx1 mn2 mx2 (arg_filen so lo dt mn1 mx1 gl) (arg_filen so lo dt' mn2 mx2 gl')
| rc_date so lo f dt dt' gl gl' : recounted mn1 mx1 mn2 mx2 (arg_daten so lo f dt mn1 mx1 gl) (arg_daten so lo f dt' mn2 mx2 gl')
| rc_rex so lo pat dt dt' fl gl gl' : recounted mn1 mx1 mn2 mx2 (arg_rexn so lo pat dt mn1 mx1 fl gl) (arg_rexn so lo pat dt' mn2 mx2 fl gl').
Theorem C72_constructors :
  forall mn1 mx1 mn2 mx2 e1 e2, recounted mn1 mx1 mn2 mx2 e1 e2 -> mn2 <= mn1 -> mx1 <= mx2 -> mn1 <= mx1 -> (no_options (e_hdr e1) -> mx1 = mx2) -> looser e1 e2.
Proof.
  intros mn1 mx1 mn2 mx2 e1 e2 H Hmn Hmx Hle Hno. assert (F1 : foolproof mn1 mx1 = mx1) by (unfold foolproof; destruct (Z.ltb_spec mx1 mn1); lia).
  assert (F2 : foolproof mn2 mx2 = mx2) by (unfold foolproof; destruct (Z.ltb_spec mx2 mn2); lia).
  destruct H; unfold looser, same_options; cbn [e_hdr e_body arg_litn arg_intn arg_dbln arg_strn arg_filen arg_daten arg_rexn mkentry mkhdr h_shortopts h_longopts h_hasvalue h_hasoptvalue h_mincount h_maxcount] in *;
    rewrite ?F1, ?F2; repeat (split; auto).
  intros k t1 t2 N1 N2. apply nth_error_In, repeat_spec in N1. apply nth_error_In, repeat_spec in N2. congruence.
Qed.
End Loosen.

(** ** Higher maxima of entries without options may divert arguments *)
Theorem C72_positional_refuted :
  exists (e1 e2 e : entry (body Z)) l, recounted 1 1 1 2 e1 e2 /\ no_options (e_hdr e1) /\
    (exists h s t n, ExTable.parse false ExTable.jo ExTable.jc ExTable.jp (S (total (ExTable.args ("p"%string :: l)))) (zlen ("p"%string :: l)) 1 (ExTable.heap0 ("p"%string :: l)) ExTable.s0 [e1; e] (ExTable.en 4) = Ok (h, s, t, n) /\ end_count n = 0) /\
    (exists h s t n, ExTable.parse false ExTable.jo ExTable.jc ExTable.jp (S (total (ExTable.args ("p"%string :: l)))) (zlen ("p"%string :: l)) 1 (ExTable.heap0 ("p"%string :: l)) ExTable.s0 [e2; e] (ExTable.en 4) = Ok (h, s, t, n) /\
       recorded n = [mk_err (PEntry 1) ARG_ERR_MINCOUNT None]).
Proof.
  exists (arg_strn None None None 1 1 None), (arg_strn None None None 1 2 None), (arg_filen None None None 1 1 None), ["a"; "b"]%string.
  split; [constructor|]. split; [split; reflexivity|]. split; do 4 eexists; (split; [vm_compute; reflexivity|vm_compute; reflexivity]).
Qed.

(** ** Example: -n was required exactly once, and is now optional and may be repeated *)
Local Open Scope string_scope.
Local Open Scope list_scope.
Local Open Scope Z_scope.
Definition ex_strict : list (entry (body Z)) := [arg_litn (ExTable.o "v") None 0 1 None; arg_intn (fun _ => 7) (ExTable.o "n") (ExTable.o "num") None 1 1 None;
  arg_daten (ExTable.o "d") None (ExTable.o "%H:%M") None 1 1 None; arg_strn None None None 1 2 None].
Definition ex_loose : list (entry (body Z)) := [arg_litn (ExTable.o "v") None 0 1 None; arg_intn (fun _ => 5) (ExTable.o "n") (ExTable.o "num") None 0 9 None;
  arg_daten (ExTable.o "d") None (ExTable.o "%H:%M") None 0 3 None; arg_strn None None None 0 2 None].
Lemma ex_looser : Forall2 looser ex_strict ex_loose.
Proof.
  unfold ex_strict, ex_loose. repeat apply Forall2_cons; try apply Forall2_nil; (eapply C72_constructors; [constructor|lia|lia|lia|]); try (intros [H _]; discriminate H). reflexivity.
Qed.
Definition ex_line : list string := ["-v"; "a"; "-n5"; "-d"; "12:30"].
Notation ex_parsed t := (karg_parse ExTable.strtod ExTable.rexmatch Long64 unix_seps false ExTable.jo ExTable.jc ExTable.jp (S (total (map lit ex_line))) (zlen (lit "p" :: map lit ex_line)) 1
  (ExTable.heap0 ("p" :: ex_line)) ExTable.s0 t (ExTable.en 4)).
Lemma ex_call (t : list (entry (body Z))) : forallb ExTable.good_hdrb (map e_hdr t) = true ->
  call 4 t (ExTable.en 4) (ExTable.heap0 ("p" :: ex_line)) 1 (lit "p") (map lit ex_line) (S (total (map lit ex_line))).
Proof.
  intros Hg. destruct (ExTable.call_ok "p" ex_line 4 0 ltac:(lia) eq_refl) as [K1 K2 K3 K4 K5]. constructor; auto. apply ExTable.good_hdrs_ok; exact Hg.
Qed.
Lemma ex_made t : Forall built t -> (forall e, In e t -> match e_body e with KRex _ => False | _ => True end) -> PropKinds.reached ExTable.strtod ExTable.rexmatch Long64 unix_seps true t.
Proof.
  intros Hb Hr. apply reached_new. rewrite Forall_forall in *. intros e He. split; auto. split; auto. specialize (Hr e He). destruct (e_body e); cbn; auto; contradiction.
Qed.
Example C72_case : exists h1 s1 t1 n1 h2 s2 t2 n2, ex_parsed ex_strict = Ok (h1, s1, t1, n1) /\ end_count n1 = 0 /\ ex_parsed ex_loose = Ok (h2, s2, t2, n2) /\ end_count n2 = 0.
Proof.
  assert (X : match ex_parsed ex_strict with Ok (_, _, _, n) => end_count n = 0 | _ => False end) by (vm_compute; reflexivity).
  destruct (ex_parsed ex_strict) as [[[[h1 s1] t1] n1]| |] eqn:E1; [|elim X|elim X].
  pose proof (safe_values (map lit ex_line) ltac:(vm_compute; reflexivity) ltac:(vm_compute; reflexivity)) as Hv.
  destruct (C72_loosened ExTable.strtod ExTable.rexmatch unix_seps ex_contract true true false 4 4 ex_strict ex_loose (map lit ex_line) ExTable.jo ExTable.jc ExTable.jp _ _ _ ExTable.s0 _ _
    ExTable.jo ExTable.jc ExTable.jp _ _ _ ExTable.s0 _ _ h1 s1 t1 n1
    ltac:(apply ex_made; [repeat constructor; cbn; lia|cbn; intros e [<-|[<-|[<-|[<-|[]]]]]; exact I]) ltac:(apply ex_made; [repeat constructor; cbn; lia|cbn; intros e [<-|[<-|[<-|[<-|[]]]]]; exact I])
    ex_looser (ex_call ex_strict eq_refl) (ex_call ex_loose eq_refl) Hv Hv E1 X) as (os & pos & runs & _ & _ & h2 & s2 & t2 & n2 & P & Z2 & _).
  exists h1, s1, t1, n1, h2, s2, t2, n2. auto.
Qed.

Print Assumptions C72_loosened.
Print Assumptions C72_constructors.
Print Assumptions C72_positional_refuted.
