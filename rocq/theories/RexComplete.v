(** RexComplete: on orderly expressions trex_matchnode finds the longest match. *)
From Coq Require Import ZArith String List Ascii Bool Lia.
From Verif Require Import Base RexModel RexSpec RexMatch RexTerm.
Import ListNotations.
Open Scope Z_scope.

Scheme elem_in_mind := Minimality for elem_in Sort Prop
  with times_mind := Minimality for times Sort Prop
  with seq_in_mind := Minimality for seq_in Sort Prop
  with alt_in_mind := Minimality for alt_in Sort Prop.
Combined Scheme in_mind from elem_in_mind, times_mind, seq_in_mind, alt_in_mind.

Section Inside.
Context (icase : bool) (text : str) (edge : nat -> Prop).
Notation len := (List.length text).
Lemma in_inside : (forall e i j, elem_in icase text edge e i j -> (i <= j)%nat /\ ((i <= len)%nat -> (j <= len)%nat)) /\
  (forall e n i j, times icase text edge e n i j -> (i <= j)%nat /\ ((i <= len)%nat -> (j <= len)%nat)) /\
  (forall s i j, seq_in icase text edge s i j -> (i <= j)%nat /\ ((i <= len)%nat -> (j <= len)%nat)) /\
  (forall a i j, alt_in icase text edge a i j -> (i <= j)%nat /\ ((i <= len)%nat -> (j <= len)%nat)).
Proof.
  assert (N : forall i x, nth_error text i = Some x -> (i <= S i)%nat /\ ((i <= len)%nat -> (S i <= len)%nat)).
  { intros i x H. assert (i < len)%nat by (apply nth_error_Some; congruence). lia. }
  apply (in_mind icase text edge (fun _ i j => (i <= j)%nat /\ ((i <= len)%nat -> (j <= len)%nat)) (fun _ _ i j => (i <= j)%nat /\ ((i <= len)%nat -> (j <= len)%nat))
    (fun _ i j => (i <= j)%nat /\ ((i <= len)%nat -> (j <= len)%nat)) (fun _ i j => (i <= j)%nat /\ ((i <= len)%nat -> (j <= len)%nat)));
    intros; try lia; eauto.
Qed.
Definition elem_inside := proj1 in_inside.
Definition seq_inside := proj1 (proj2 (proj2 in_inside)).
Definition alt_inside := proj2 (proj2 (proj2 in_inside)).

Lemma times_head e n i k : times icase text edge e (S n) i k -> exists j, elem_in icase text edge e i j /\ times icase text edge e n j k.
Proof.
  revert k. induction n as [|n IH]; intros k H; inversion H as [|? ? ? j ? TM EI]; subst.
  - inversion TM; subst. exists k. split; [exact EI|constructor].
  - destruct (IH j TM) as (m & E1 & T1). exists m. split; [exact E1|]. econstructor; eauto.
Qed.
End Inside.

Section Complete.
Context (T : list node) (nsub flags : Z) (text : str) (edge : nat -> Prop).
Notation ic := (icase flags).
Notation mn := (trex_matchnode T nsub flags text).
Notation len := (List.length text).
Notation repl := (repl T nsub).
Notation rep := (rep T nsub).
Notation nk_in := (nk_in flags text edge).
Notation list_in := (list_in flags text edge).
Notation good := (good flags text edge).

(** *** Matches end inside the text *)
Definition stays (f : Z -> nat -> option Z -> res (option nat)) : Prop :=
  forall i x s next j, rep i x -> all_nk (nul_free_on text) x -> (s <= len)%nat -> f i s next = Ok (Some j) -> (j <= len)%nat.
Lemma greedy_stays f e left p0 p1 stop next : stays f -> rep left (NE e) -> all_elem (nul_free_on text) e ->
  forall fuel nm s j, (s <= len)%nat -> greedy T text f p0 p1 left stop next fuel nm s s = Ok (Some j) -> (j <= len)%nat.
Proof.
  intros F R A. induction fuel as [|fuel IH]; intros nm s j S0; cbn [greedy]; [discriminate|].
  assert (FIN : forall nm s, (s <= len)%nat -> Ok (if enough p0 p1 nm then Some s else None) = Ok (Some j) -> (j <= len)%nat).
  { intros nm' s' L. destruct (enough p0 p1 nm'); [|discriminate]. intro H. injection H as <-. exact L. }
  destruct ((nm =? 65535) || (nm <? p1)); [|apply FIN; exact S0].
  destruct (f left s stop) as [[s'|]|u|] eqn:E; cbn [bind]; try discriminate; [|apply FIN; exact S0].
  assert (L' := F _ _ _ _ _ R A S0 E).
  destruct (stop_here T f p0 p1 stop next (nm + 1) s') as [b|u|]; cbn [bind]; try discriminate.
  destruct (b || (len <=? s')%nat); [apply FIN; exact L'|]. apply IH. exact L'.
Qed.
Lemma branch_stays f : stays f -> forall fuel i l s j, repl i l -> Forall (all_nk (nul_free_on text)) l -> (s <= len)%nat ->
  branch T f fuel i s = Ok (Some j) -> (j <= len)%nat.
Proof.
  intros F. induction fuel as [|fuel IH]; intros i l s j R A S0; cbn [branch]; [discriminate|].
  destruct (f i s None) as [[s'|]|u|] eqn:E; cbn [bind]; try discriminate.
  inversion R as [i' n x G X RX|i' n x l' G X RX RL]; subst; inversion A as [|? ? AX AL]; subst; rewrite G; cbn [bind];
    assert (L1 := F _ _ _ _ _ RX AX S0 E).
  - rewrite X. cbn [Z.eqb Pos.eqb]. intro H. injection H as <-. exact L1.
  - destruct (Z.eqb_spec (n_next n) (-1)); [contradiction|]. intro H. exact (IH _ _ _ _ RL AL L1 H).
Qed.
Lemma sequence_stays f : stays f -> forall fuel i l s next j, repl i l -> Forall (all_nk (nul_free_on text)) l -> (s <= len)%nat ->
  sequence T f fuel i s next = Ok (Some j) -> (j <= len)%nat.
Proof.
  intros F. induction fuel as [|fuel IH]; intros i l s next j R A S0; cbn [sequence]; [discriminate|].
  inversion R as [i' n x G X RX|i' n x l' G X RX RL]; subst; inversion A as [|? ? AX AL]; subst; rewrite G; cbn [bind].
  - rewrite X. cbn [Z.eqb Pos.eqb]. destruct (f i s next) as [[s'|]|u|] eqn:E; cbn [bind]; try discriminate.
    assert (L1 := F _ _ _ _ _ RX AX S0 E). intro H. injection H as <-. exact L1.
  - destruct (Z.eqb_spec (n_next n) (-1)); [contradiction|].
    destruct (f i s (Some (n_next n))) as [[s'|]|u|] eqn:E; cbn [bind]; try discriminate.
    assert (L1 := F _ _ _ _ _ RX AX S0 E). intro H. exact (IH _ _ _ _ _ RL AL L1 H).
Qed.
Lemma step_stays s y (b : bool) j : rd text s = Ok y -> (s <= len)%nat -> (y = NUL -> b = false) -> Ok (if b then Some (S s) else None) = Ok (Some j) -> (j <= len)%nat.
Proof.
  intros RD S0 H. destruct b; [|discriminate]. intro E. injection E as <-. unfold rd in RD. destruct (Nat.ltb_spec s len); [lia|].
  destruct (Nat.eqb_spec s len); [|lia]. injection RD as <-. specialize (H eq_refl). discriminate.
Qed.
Lemma matchnode_stays fuel : stays (mn fuel).
Proof.
  induction fuel as [|fuel IH]; intros i x s next j R A S0; cbn [trex_matchnode]; [discriminate|].
  inversion R as [i' n c G E|i' n k G E E2 K|i' n b G E E2|i' n G E|i' n G E|i' n neg l G E IT|i' n lo hi e G E E2 RL|i' n cap a G E CP RL|i' n G E|i' n b q a G E RL RR];
    subst; rewrite G; cbn [bind].
  - rewrite E. destruct (char_type c (sc_range c)) as (-> & -> & -> & -> & -> & -> & -> & -> & -> & -> & ->). cbn [orb].
    destruct (rd text s) as [y|u|] eqn:RD; cbn [bind]; try discriminate. apply (step_stays s y); auto. intros ->. apply char_nul. apply A.
  - settype E. rewrite E2. destruct (rd text s) as [y|u|] eqn:RD; cbn [bind]; try discriminate.
    apply (step_stays s y); auto. intros ->. apply cclass_nul. apply A.
  - settype E. destruct (boundary text s) as [c|u|]; cbn [bind]; try discriminate. destruct (Bool.eqb _ _); [|discriminate]. intro H. injection H as <-. exact S0.
  - destruct A as [[] _].
  - settype E. destruct (Nat.eqb_spec s len); [|discriminate]. intro H. injection H as <-. exact S0.
  - destruct A as [[-> H] _]. settype E.
    destruct (rd text s) as [y|u|] eqn:RD; cbn [bind]; try discriminate.
    destruct (trex_matchclass T flags (List.length T) (n_left n) y) as [b|u|] eqn:MC; cbn [bind]; try discriminate.
    apply (step_stays s y); auto. intros ->. destruct b; [|reflexivity]. exfalso.
    assert (X : forall l i, items_at T i l -> (forall it, In it l -> nul_free_item it) -> forall fuel, trex_matchclass T flags fuel i NUL <> Ok true).
    { clear. intros l i IT. induction IT as [i n it G N X|i n it l G N X R IH']; intros H fuel; (destruct fuel as [|fuel]; cbn [trex_matchclass]; [discriminate|]);
        rewrite G; cbn [bind]; rewrite (item_nul _ it n N) by (apply H; left; reflexivity).
      + rewrite X. discriminate.
      + destruct (Z.eqb_spec (n_next n) (-1)); [contradiction|]. apply IH'. intros it' I. apply H. right. exact I. }
    exact (X _ _ IT H _ MC).
  - settype E. apply greedy_stays with (e := e); auto; [inversion RL; auto|apply A].
  - destruct A as [_ AA]. assert (AL := all_alt_list _ _ AA).
    assert (SH : sequence T (mn fuel) (List.length T) (n_left n) s next = Ok (Some j) -> (j <= len)%nat) by (eapply sequence_stays; eauto).
    rewrite E. destruct cap; settype E; [|exact SH]. destruct (negb _); [discriminate|exact SH].
  - settype E. destruct (Nat.eqb_spec s 0); [|discriminate]. intro H. injection H as <-. exact S0.
  - settype E. destruct A as [AS AA]. assert (AS' := all_start _ b _ AS). assert (AA' := all_alt_list _ _ AA).
    destruct (branch T (mn fuel) (List.length T) (n_left n) s) as [[e|]|u|] eqn:B; cbn [bind]; try discriminate.
    + intro H. injection H as <-. exact (branch_stays _ IH _ _ _ _ _ RL AS' S0 B).
    + intro H. exact (branch_stays _ IH _ _ _ _ _ RR AA' S0 H).
Qed.

(** *** The longest match *)
Definition able (e : elem) : Prop := good e /\ nul_free_on text e /\ roomy text e.
Definition ord (y : option elem) (x : nk) : Prop :=
  match x with NE e => orderly_elem ic text edge y e | NB => True | NO b s a => orderly_alt ic text edge y (Or b s a) end.
Definition nexty (y : option elem) (next : option Z) : Prop :=
  match next with None => True | Some nx => exists e, y = Some e /\ rep nx (NE e) /\ all_elem able e end.
Definition finds (f : Z -> nat -> option Z -> res (option nat)) : Prop :=
  forall i x l y s next k r, repl i (x :: l) -> (forall z l', l = z :: l' -> exists e, y = Some e /\ z = NE e /\ all_elem able e) -> all_nk able x -> ord y x -> nexty y next ->
  (s <= len)%nat -> nk_in x s k -> f i s next = Ok r -> exists j, r = Some j /\ (k <= j)%nat.

Lemma all_elem_imp (P Q : elem -> Prop) : (forall e, P e -> Q e) -> forall e, all_elem P e -> all_elem Q e
with all_seq_imp (P Q : elem -> Prop) : (forall e, P e -> Q e) -> forall e, all_seq P e -> all_seq Q e
with all_alt_imp (P Q : elem -> Prop) : (forall e, P e -> Q e) -> forall e, all_alt P e -> all_alt Q e.
Proof.
  - intros H [] [A B]; split; auto; try exact I; [apply (all_elem_imp P)|apply (all_alt_imp P)]; auto.
  - intros H []; cbn [all_seq]; [apply (all_elem_imp P); auto|]. intros [A B]. split; [apply (all_elem_imp P)|apply (all_seq_imp P)]; auto.
  - intros H []; cbn [all_alt]; [apply (all_seq_imp P); auto|]. intros [A B]. split; [apply (all_seq_imp P)|apply (all_alt_imp P)]; auto.
Qed.
Lemma all_elem_and (P Q : elem -> Prop) : forall e, all_elem P e -> all_elem Q e -> all_elem (fun e => P e /\ Q e) e
with all_seq_and (P Q : elem -> Prop) : forall e, all_seq P e -> all_seq Q e -> all_seq (fun e => P e /\ Q e) e
with all_alt_and (P Q : elem -> Prop) : forall e, all_alt P e -> all_alt Q e -> all_alt (fun e => P e /\ Q e) e.
Proof.
  - intros [] [A B] [C D]; split; auto.
  - intros []; cbn [all_seq]; auto. intros [A B] [C D]. auto.
  - intros []; cbn [all_alt]; auto. intros [A B] [C D]. auto.
Qed.
Lemma all_nk_imp (P Q : elem -> Prop) x : (forall e, P e -> Q e) -> all_nk P x -> all_nk Q x.
Proof.
  intro H. destruct x; cbn [all_nk]; auto; [apply all_elem_imp; auto|]. intros [A B]. split; [apply (all_seq_imp P)|apply (all_alt_imp P)]; auto.
Qed.
Lemma able_good x : all_nk able x -> all_nk good x.
Proof. apply all_nk_imp. unfold able. tauto. Qed.
Lemma able_free x : all_nk able x -> all_nk (nul_free_on text) x.
Proof. apply all_nk_imp. unfold able. tauto. Qed.

Lemma seq_lst s i j : seq_in ic text edge s i j -> list_in (seq_list s) i j.
Proof.
  revert i. induction s as [e|e s IH]; intros i H; inversion H as [? ? ? E|? ? ? k ? E Q]; subst; cbn [seq_list RexMatch.list_in].
  - exists j. destruct (elem_inside _ _ _ _ _ _ E). cbn [RexMatch.nk_in]. auto.
  - exists k. destruct (elem_inside _ _ _ _ _ _ E). destruct (seq_inside _ _ _ _ _ _ Q). cbn [RexMatch.nk_in]. auto.
Qed.
Lemma start_lst b s i j : (b = true -> i = O) -> seq_in ic text edge s i j -> list_in (start b s) i j.
Proof.
  intros B H. apply seq_lst in H. destruct b; cbn [start]; [|exact H]. rewrite (B eq_refl) in *.
  cbn [RexMatch.list_in RexMatch.nk_in]. exists O. repeat split; auto. lia.
Qed.
Lemma alt_lst a i j : alt_in ic text edge a i j -> list_in (alt_list a) i j.
Proof.
  destruct a as [b s|b s a]; cbn [alt_list]; intro H.
  - inversion H; subst. apply start_lst; auto.
  - cbn [RexMatch.list_in RexMatch.nk_in]. exists j. destruct (alt_inside _ _ _ _ _ _ H). auto.
Qed.

(** Chains *)
Fixpoint ordl (y : option elem) (l : list nk) : Prop :=
  match l with
  | [] => True
  | [x] => ord y x
  | x :: (z :: _) as l => (exists e, z = NE e /\ ord (Some e) x) /\ (forall i j k m, nk_in x i j -> nk_in x i k -> (j < k)%nat -> list_in l j m -> exists m', (m <= m')%nat /\ list_in l k m') /\ ordl y l
  end.
Lemma seq_list_head s : exists l, seq_list s = NE (head s) :: l.
Proof. destruct s; cbn [seq_list head]; eauto. Qed.
Lemma ordl_seq y s : orderly_seq ic text edge y s -> ordl y (seq_list s).
Proof.
  induction s as [e|e s IH]; cbn [orderly_seq seq_list]; [cbn [ordl ord]; auto|]. intros (A & B & C). specialize (IH C).
  destruct (seq_list_head s) as [l E]. rewrite E in *. cbn [ordl] in *. split; [|split].
  - exists (head s). split; auto.
  - intros i j k m H1 H2 L R. cbn [RexMatch.nk_in] in *.
    assert (R' : seq_in ic text edge s j m) by (apply list_seq; rewrite E; exact R). destruct (B i j k m H1 H2 L R') as (m' & LM & RM).
    exists m'. split; [exact LM|]. rewrite <- E. apply seq_lst. exact RM.
  - exact IH.
Qed.
Lemma ordl_start y b s : orderly_seq ic text edge y s -> ordl y (start b s).
Proof.
  intro H. apply ordl_seq in H. destruct b; cbn [start]; [|exact H].
  destruct (seq_list_head s) as [l E]. rewrite E in *. cbn [ordl]. split; [|split].
  - exists (head s). split; [auto|exact I].
  - intros i j k m [_ ->] [_ ->] L _. lia.
  - exact H.
Qed.
Lemma ordl_alt y a : orderly_alt ic text edge y a -> ordl y (alt_list a).
Proof. destruct a as [b s|b s a]; cbn [alt_list]; intro H; [apply ordl_start; exact H|]. cbn [ordl ord]. exact H. Qed.

Section Step.
Context (f : Z -> nat -> option Z -> res (option nat)).
Context (FF : finds f) (FS : sound_at T nsub flags text edge f) (FI : stays f).

Lemma sequence_finds fuel : forall i l y s next k r, repl i l -> Forall (all_nk able) l -> ordl y l -> nexty y next ->
  (s <= len)%nat -> list_in l s k -> sequence T f fuel i s next = Ok r -> exists j, r = Some j /\ (k <= j)%nat.
Proof.
  induction fuel as [|fuel IH]; intros i l y s next k r R A O N S0 L; cbn [sequence]; [discriminate|].
  destruct l as [|x l]; [inversion R|]. inversion A as [|? ? AX AL]; subst. cbn [RexMatch.list_in] in L. destruct L as (m & L1 & L2 & M & ML).
  assert (GX := able_good x AX). assert (NX := able_free x AX).
  inversion R as [i' n x' G X RX|i' n x' l' G X RX RL]; subst; rewrite G; cbn [bind].
  - rewrite X. cbn [Z.eqb Pos.eqb]. cbn [RexMatch.list_in] in ML. subst m.
    destruct (f i s next) as [r1|u|] eqn:E; cbn [bind]; try discriminate.
    destruct (FF i x [] y s next k r1 R ltac:(discriminate) AX O N S0 M E) as (j & -> & LE). intro H. injection H as <-. eauto.
  - destruct (Z.eqb_spec (n_next n) (-1)); [contradiction|].
    destruct l as [|z l]; [inversion RL|]. cbn [ordl] in O. destruct O as ((e & -> & O1) & O2 & O3).
    inversion AL as [|? ? AZ AL']; subst.
    assert (RZ : rep (n_next n) (NE e)) by (inversion RL; auto).
    destruct (f i s (Some (n_next n))) as [r1|u|] eqn:E; cbn [bind]; try discriminate.
    destruct (FF i x (NE e :: l) (Some e) s (Some (n_next n)) m r1 R) as (j & -> & LE); auto.
    { intros z' l' EQ. injection EQ as <- <-. exists e. auto. }
    { exists e. auto. }
    assert (JL := FI _ _ _ _ _ RX NX S0 E). destruct (FS _ _ _ _ _ RX GX E) as [_ MJ]. specialize (MJ JL).
    assert (RR : exists k', (k <= k')%nat /\ list_in (NE e :: l) j k').
    { destruct (Nat.eq_dec j m) as [->|D]; [exists k; split; [auto|exact ML]|]. apply (O2 s m j k M MJ); [lia|exact ML]. }
    destruct RR as (k' & KK & LR). intro H. destruct (IH (n_next n) (NE e :: l) y j next k' r RL AL O3 N JL LR H) as (j' & -> & LJ).
    exists j'. split; [auto|lia].
Qed.
Lemma branch_finds fuel : forall i l y s k r, repl i l -> Forall (all_nk able) l -> ordl y l ->
  (s <= len)%nat -> list_in l s k -> branch T f fuel i s = Ok r -> exists j, r = Some j /\ (k <= j)%nat.
Proof.
  induction fuel as [|fuel IH]; intros i l y s k r R A O S0 L; cbn [branch]; [discriminate|].
  destruct l as [|x l]; [inversion R|]. inversion A as [|? ? AX AL]; subst. cbn [RexMatch.list_in] in L. destruct L as (m & L1 & L2 & M & ML).
  assert (GX := able_good x AX). assert (NX := able_free x AX).
  destruct (f i s None) as [r1|u|] eqn:E; cbn [bind]; try discriminate.
  inversion R as [i' n x' G X RX|i' n x' l' G X RX RL]; subst; rewrite G.
  - cbn [RexMatch.list_in] in ML. subst m.
    destruct (FF i x [] y s None k r1 R ltac:(discriminate) AX O I S0 M E) as (j & -> & LE).
    cbn [bind]. rewrite X. cbn [Z.eqb Pos.eqb]. intro H. injection H as <-. eauto.
  - destruct l as [|z l]; [inversion RL|]. cbn [ordl] in O. destruct O as ((e & -> & O1) & O2 & O3).
    inversion AL as [|? ? AZ AL']; subst.
    destruct (FF i x (NE e :: l) (Some e) s None m r1 R) as (j & -> & LE); auto.
    { intros z' l' EQ. injection EQ as <- <-. exists e. auto. }
    { exact I. }
    assert (JL := FI _ _ _ _ _ RX NX S0 E). destruct (FS _ _ _ _ _ RX GX E) as [_ MJ]. specialize (MJ JL).
    assert (RR : exists k', (k <= k')%nat /\ list_in (NE e :: l) j k').
    { destruct (Nat.eq_dec j m) as [->|D]; [exists k; split; [auto|exact ML]|]. apply (O2 s m j k M MJ); [lia|exact ML]. }
    destruct RR as (k' & KK & LR). cbn [bind]. destruct (Z.eqb_spec (n_next n) (-1)); [contradiction|].
    intro H. destruct (IH (n_next n) (NE e :: l) y j k' r RL AL O3 JL LR H) as (j' & -> & LJ).
    exists j'. split; [auto|lia].
Qed.

(** Repetitions *)
Section Greedy.
Context (e : elem) (p0 p1 left : Z) (stop next : option Z) (y : option elem).
Context (P0 : 0 <= p0 < 32768) (P1 : 0 <= p1 <= 65535) (RM : p1 = 65535 -> Z.of_nat len <= 65535).
Context (R : repl left [NE e]) (A : all_elem able e) (OE : orderly_elem ic text edge y e) (NY : nexty y stop).
Context (TK : takes ic text edge e) (SE : settled ic text edge e) (PA : parted ic text edge e y).

Lemma enough_ok nm : p0 <= nm -> (nm <= p1 \/ p1 = 65535) -> enough p0 p1 nm = true.
Proof.
  intros H1 H2. unfold enough. rewrite !orb_true_iff, !andb_true_iff, !Z.eqb_eq, !Z.leb_le. lia.
Qed.
Lemma greedy_more fuel : forall nm s k r, p0 <= nm -> (nm <= p1 \/ p1 = 65535) -> (k <= s)%nat ->
  greedy T text f p0 p1 left stop next fuel nm s s = Ok r -> exists j, r = Some j /\ (k <= j)%nat.
Proof.
  assert (RE : rep left (NE e)) by (inversion R; auto).
  induction fuel as [|fuel IH]; intros nm s k r N1 N2 K; cbn [greedy]; [discriminate|].
  assert (FIN : forall nm s, p0 <= nm -> (nm <= p1 \/ p1 = 65535) -> (k <= s)%nat -> Ok (if enough p0 p1 nm then Some s else None) = Ok r -> exists j, r = Some j /\ (k <= j)%nat).
  { intros nm' s' A1 A2 A3 H. rewrite enough_ok in H by auto. injection H as <-. eauto. }
  destruct ((nm =? 65535) || (nm <? p1)) eqn:C; [|apply FIN; auto].
  assert (C' : nm = 65535 \/ nm < p1) by (apply orb_true_iff in C; rewrite Z.eqb_eq, Z.ltb_lt in C; exact C).
  destruct (f left s stop) as [[s'|]|u|] eqn:E; cbn [bind]; try discriminate; [|apply FIN; auto].
  destruct (FS _ _ _ _ _ RE (able_good (NE e) A) E) as [LS _].
  destruct (stop_here T f p0 p1 stop next (nm + 1) s') as [b|u|]; cbn [bind]; try discriminate.
  destruct (b || (len <=? s')%nat); [apply FIN|apply IH]; lia.
Qed.
Lemma greedy_finds fuel : forall nm m s k r, 0 <= nm -> p0 <= nm + Z.of_nat m -> (nm + Z.of_nat m <= p1 \/ p1 = 65535) -> (s <= len)%nat -> nm <= Z.of_nat s ->
  times ic text edge e m s k -> greedy T text f p0 p1 left stop next fuel nm s s = Ok r -> exists j, r = Some j /\ (k <= j)%nat.
Proof.
  assert (RE : rep left (NE e)) by (inversion R; auto).
  induction fuel as [|fuel IH]; intros nm m s k r N0 N1 N2 S0 NS TM; [discriminate|].
  destruct m as [|m].
  { inversion TM; subst. apply (greedy_more (S fuel) nm k k r); [lia|lia|lia]. }
  cbn [greedy].
  assert (C : (nm =? 65535) || (nm <? p1) = true).
  { apply orb_true_iff. rewrite Z.eqb_eq, Z.ltb_lt. destruct N2 as [N2| ->]; [lia|]. specialize (RM eq_refl). lia. }
  rewrite C. destruct (times_head _ _ _ _ _ _ _ TM) as (q & EQ & TQ).
  destruct (f left s stop) as [r1|u|] eqn:E; cbn [bind]; try discriminate.
  destruct (FF left (NE e) [] y s stop q r1 R ltac:(discriminate) A OE NY S0 EQ E) as (s1 & -> & LE).
  destruct (FS _ _ _ _ _ RE (able_good (NE e) A) E) as [_ MS]. assert (SL := FI _ _ _ _ _ RE (able_free (NE e) A) S0 E). specialize (MS SL). cbn [RexMatch.nk_in] in MS.
  assert (T1 := TK _ _ MS).
  destruct (stop_here T f p0 p1 stop next (nm + 1) s1) as [b|u|] eqn:ST; cbn [bind]; try discriminate.
  destruct m as [|m].
  - inversion TQ; subst. destruct (b || (len <=? s1)%nat).
    + rewrite enough_ok by lia. intro H. injection H as <-. eauto.
    + apply greedy_more; lia.
  - destruct (times_head _ _ _ _ _ _ _ TQ) as (q2 & EQ2 & _).
    assert (s1 = q).
    { destruct (Nat.eq_dec s1 q); auto. exfalso. apply (SE s q s1 q2); auto. lia. }
    subst s1. assert (T2 := TK _ _ EQ2). destruct (elem_inside _ _ _ _ _ _ EQ2) as [_ IN2]. specialize (IN2 SL).
    destruct (Nat.leb_spec len q); [lia|].
    assert (b = false).
    { unfold stop_here in ST. destruct stop as [g|]; [|congruence]. destruct NY as (ye & -> & RY & AY).
      destruct b; [|reflexivity]. exfalso.
      destruct (aget T g) as [gn|u|] eqn:GG; cbn [bind] in ST; try discriminate.
      destruct (negb (n_type gn =? OP_GREEDY) || negb (low gn =? 0)) eqn:CH; [|discriminate].
      destruct (if n_next gn =? -1 then _ else _) as [gx|u|]; cbn [bind] in ST; try discriminate.
      destruct (f g q gx) as [[j2|]|u|] eqn:E2; cbn [bind] in ST; try discriminate.
      destruct (FS _ _ _ _ _ RY (able_good (NE ye) AY) E2) as [_ MY]. assert (YL := FI _ _ _ _ _ RY (able_free (NE ye) AY) SL E2). specialize (MY YL).
      destruct PA as [Z0|PA']; [|exact (PA' _ _ _ EQ2 MY)].
      destruct ye as [| | | | | |lo hi e'|]; try contradiction. subst lo.
      inversion RY as [| | | | | |i' n' lo' hi' e'' G' E' E2' RL'| | |]; subst. assert (n' = gn) by congruence. subst n'.
      destruct (low_pack _ _ _ E2') as [LW _]; [rewrite Z.mod_0_l by lia; lia|destruct hi as [h|]; [apply Z.mod_pos_bound; lia|lia]|].
      rewrite E', LW, Z.eqb_refl in CH. cbn [negb orb] in CH. rewrite Z.mod_0_l in CH by lia. discriminate. }
    subst b. cbn [orb]. apply IH with (m := S m); auto; lia.
Qed.
End Greedy.
End Step.

Lemma rd_at s x : nth_error text s = Some x -> rd text s = Ok x.
Proof.
  intro H. unfold rd. assert (s < len)%nat by (apply nth_error_Some; congruence). destruct (Nat.ltb_spec s len); [|lia]. rewrite H. reflexivity.
Qed.

Theorem matchnode_finds fuel : finds (mn fuel).
Proof.
  induction fuel as [|fuel IH]; intros i x l y s next k r R RY A O N S0 M; cbn [trex_matchnode]; [discriminate|].
  assert (FS := matchnode_sound T nsub flags text edge fuel). assert (FI := matchnode_stays fuel).
  destruct (repl_get _ _ _ _ _ R) as (n & G & RX & KK). rewrite G. cbn [bind].
  inversion RX as [i' n' c G' E|i' n' k' G' E E2 K|i' n' b G' E E2|i' n' G' E|i' n' G' E|i' n' neg li G' E IT|i' n' lo hi e G' E E2 RL|i' n' cap a G' E CP RL|i' n' G' E|i' n' b q a G' E RL RR];
    subst; assert (n' = n) by congruence; subst n'; cbn [RexMatch.nk_in] in M.
  - rewrite E. destruct (char_type c (sc_range c)) as (-> & -> & -> & -> & -> & -> & -> & -> & -> & -> & ->). cbn [orb].
    inversion M as [? z ? NZ SM| | | | | | | | | ]; subst. rewrite (rd_at s z NZ). cbn [bind]. apply same_spec in SM. rewrite SM. intro H. injection H as <-. eauto.
  - settype E. rewrite E2. inversion M as [|? z ? NZ SM| | | | | | | | ]; subst. rewrite (rd_at s z NZ). cbn [bind]. apply cclass_spec in SM; auto. rewrite SM.
    intro H. injection H as <-. eauto.
  - destruct A as [((_ & [[]|EG] & _) & _) _]. settype E.
    destruct (boundary text s) as [c|u|] eqn:BD; cbn [bind]; try discriminate. assert (X := boundary_seen text s c S0 BD). rewrite <- (EG s S0) in X.
    replace (n_left n =? sc "b") with b by (rewrite E2; destruct b; reflexivity).
    assert (CB : c = b /\ k = s).
    { inversion M as [| |? EB|? EB| | | | | | ]; subst; split; auto; destruct c; auto; exfalso; [|apply EB; apply X; reflexivity]. apply X in EB. discriminate. }
    destruct CB as [-> ->]. rewrite Bool.eqb_reflx. intro H. injection H as <-. eauto.
  - destruct A as [(_ & [] & _) _].
  - settype E. inversion M; subst. rewrite Nat.eqb_refl. intro H. injection H as <-. eauto.
  - destruct A as [((_ & _ & EV) & [-> _] & _) _]. cbn [even_ranges] in EV. settype E.
    inversion M as [| | | | | |? z ? NZ SM| | | ]; subst. rewrite (rd_at s z NZ). cbn [bind].
    destruct (trex_matchclass T flags (List.length T) (n_left n) z) as [b|u|] eqn:MC; cbn [bind]; try discriminate.
    apply (matchclass_spec T flags (List.length T) (n_left n) li z b IT EV MC) in SM. subst b. cbn [Bool.eqb]. intro H. injection H as <-. eauto.
  - settype E. destruct A as [((SC & _ & _) & _ & RM) AE]. cbn [small_counts] in SC. destruct SC as [LO HI].
    assert (P1 : 0 <= match hi with Some h => h mod 65536 | None => 65535 end < 65536) by (destruct hi as [h|]; [apply Z.mod_pos_bound; lia|lia]).
    destruct (low_pack _ _ _ E2 ltac:(apply Z.mod_pos_bound; lia) P1) as [-> ->]. rewrite (Z.mod_small lo) by lia.
    cbn [ord orderly_elem] in O. destruct O as (TK & SE & PA & OE).
    inversion M as [| | | | | | | |? ? ? m ? ? TM MLO MHI| ]; subst.
    assert (HH : (Z.of_nat m <= match hi with Some h => h mod 65536 | None => 65535 end) \/ match hi with Some h => h mod 65536 | None => 65535 end = 65535).
    { destruct hi as [h|]; [|right; reflexivity]. left. specialize (HI h eq_refl). specialize (MHI h eq_refl). rewrite Z.mod_small by lia. exact MHI. }
    assert (RM' : match hi with Some h => h mod 65536 | None => 65535 end = 65535 -> Z.of_nat len <= 65535).
    { destruct hi as [h|]; [specialize (HI h eq_refl); rewrite Z.mod_small by lia; lia|]. intros _. cbn [roomy] in RM. unfold zlen in RM. lia. }
    assert (NS : nexty y (if n_next n =? -1 then next else Some (n_next n))).
    { destruct KK as [[-> X]|(LN & X & RN)]; [rewrite X; exact N|]. destruct (Z.eqb_spec (n_next n) (-1)); [contradiction|].
      destruct l as [|z l']; [congruence|]. destruct (RY z l' eq_refl) as (e' & -> & -> & AE'). exists e'. repeat split; auto. inversion RN; auto. }
    set (p1 := match hi with Some h => h mod 65536 | None => 65535 end) in *. clearbody p1.
    apply (greedy_finds (mn fuel) IH FS FI e lo p1 (n_left n) _ next y) with (m := m); auto; lia.
  - destruct A as [_ AA]. assert (AL := all_alt_list _ _ AA). cbn [ord orderly_elem] in O.
    assert (SH : sequence T (mn fuel) (List.length T) (n_left n) s next = Ok r -> exists j, r = Some j /\ (k <= j)%nat).
    { inversion M as [| | | | | | | | |? ? ? ? AI]; subst. apply (sequence_finds (mn fuel) IH FS FI) with (l := alt_list a) (y := y); auto.
      - apply ordl_alt. exact O.
      - apply alt_lst. exact AI. }
    rewrite E. destruct cap; settype E; [|exact SH]. destruct (negb _); [discriminate|exact SH].
  - settype E. destruct M as [-> ->]. cbn [Nat.eqb]. intro H. injection H as <-. eauto.
  - settype E. destruct A as [AS AA]. assert (AS' := all_start _ b _ AS). assert (AA' := all_alt_list _ _ AA).
    cbn [ord orderly_alt] in O. destruct O as (O1 & O2 & O3).
    destruct (branch T (mn fuel) (List.length T) (n_left n) s) as [r1|u|] eqn:B; cbn [bind]; try discriminate.
    inversion M as [|? ? ? ? ? BA SI|? ? ? ? ? AI]; subst.
    + destruct (branch_finds (mn fuel) IH FS FI _ _ _ None _ k _ RL AS' (ordl_start _ _ _ O1) S0 (start_lst _ _ _ _ BA SI) B) as (j & -> & LE).
      intro H. injection H as <-. eauto.
    + destruct r1 as [e|].
      * intro H. injection H as <-. exists e. split; auto.
        assert (FA : Forall (all_nk good) (start b q)) by (eapply Forall_impl; [exact able_good|exact AS']).
        assert (FB : Forall (all_nk (nul_free_on text)) (start b q)) by (eapply Forall_impl; [exact able_free|exact AS']).
        assert (EL := branch_stays _ FI _ _ _ _ _ RL FB S0 B). destruct (branch_sound _ _ _ _ _ _ FS _ _ _ _ _ RL FA B) as [_ MB].
        destruct (list_start _ _ _ _ _ _ _ (MB EL)) as [B1 B2]. apply (O3 s e k); auto.
      * intro H. apply (branch_finds (mn fuel) IH FS FI _ _ _ None _ k _ RR AA' (ordl_alt _ _ O2) S0 (alt_lst _ _ _ AI) H).
Qed.
End Complete.
