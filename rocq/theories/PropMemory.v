(** C82: what happens when memory runs out. *)
From Coq Require Import ZArith String List Ascii Bool Lia Permutation.
From Verif Require Import Base LayoutModel RexModel TableModel AllocModel.
Import ListNotations.
Open Scope Z_scope.

Section Memory.
Context (granted : nat -> Z -> bool) (dumpcore : option str) (h : handler).
Context (rex_size node_size jmp_size match_size : Z) (A : abi).
Notation make := (make granted dumpcore h rex_size node_size jmp_size match_size A).
Notation make_all := (make_all granted dumpcore h rex_size node_size jmp_size match_size A).
Notation rex_scan := (rex_scan granted dumpcore h rex_size node_size jmp_size match_size).
Notation rex_scans := (rex_scans granted dumpcore h rex_size node_size jmp_size match_size).
Notation parse := (parse granted dumpcore h rex_size node_size jmp_size match_size A).

(** ** The expectation *)

(** Blocks are numbered in the order of the requests. *)
Definition numbered (w : world) : Prop := forall b, In b (live w) -> (b < asked w)%nat.
(** Between the two states every request was granted; nothing was written and nobody called. *)
Definition all_granted (w w' : world) : Prop :=
  (asked w <= asked w')%nat /\ (forall i, (asked w <= i < asked w')%nat -> exists n, granted i n = true) /\ err w' = err w /\ handled w' = handled w.
(** The last request was refused, all before it granted; the handler was called once, and all blocks from before are still there. *)
Definition refused (w w' : world) : Prop :=
  (asked w < asked w')%nat /\ (forall i, (asked w <= i /\ S i < asked w')%nat -> exists n, granted i n = true) /\
  (exists n, granted (pred (asked w')) n = false) /\ handled w' = S (handled w) /\ incl (live w) (live w').
Definition message : str := lit "Out of memory!" ++ ["010"%char].
Definition core_wanted : Prop := exists c s, dumpcore = Some (c :: s).
(** How a call may end: it returns as [good] says, or the first request that was refused ended the program or left the library. *)
Definition ends_as {R} (o : outcome R) (w : world) (good : R -> world -> Prop) : Prop :=
  match o with
  | Returned r w' => all_granted w w' /\ good r w'
  | Exited code w' => h = Own /\ ~ core_wanted /\ code = 1 /\ refused w w' /\ err w' = err w ++ message
  | Aborted w' => h = Own /\ core_wanted /\ refused w w' /\ err w' = err w ++ message
  | Left w' => h = User false /\ refused w w' /\ err w' = err w
  | Undefined _ _ => False
  end.
(** [w'] has the blocks of [w] and those of the list. *)
Definition also (new : list nat) (w w' : world) : Prop := forall b, In b (live w') <-> In b new \/ In b (live w).

(** A constructor given NULL as pattern *)
Definition no_pattern (k : maker) : Prop := match k with MakeRex None _ _ _ => True | _ => False end.
(** The pattern is read without undefined behaviour, whether or not it is a good one (see C26_compile); there is room for one more than
    the number of values in arg_dbln (see C27). *)
Definition readable (p : str) : Prop := match RexModel.trex_compile p with CDone _ _ | CFail _ => True | _ => False end.
Definition compiles (p : str) : Prop := exists st, RexModel.trex_compile p = CDone tt st.
Definition sane (k : maker) : Prop :=
  match k with
  | MakeDbl mn mx => - INT_MAX <= Z.max mn mx < INT_MAX
  | MakeRex (Some p) _ _ _ => readable p
  | _ => True
  end.

(** ** Lemmas *)
(** In progress: [w0] is the state at the start, [mine] are the blocks got since. *)
Record going (w0 : world) (mine : list nat) (w : world) : Prop := {
  go_num : numbered w; go_all : all_granted w0 w; go_live : also mine w0 w; go_mine : forall b, In b mine -> (asked w0 <= b)%nat; go_from : numbered w0 }.
Definition run {R} (w0 : world) (m : act R) (w : world) (post : R -> world -> Prop) : Prop := ends_as (m w) w0 post.
Lemma all_granted_refl w : all_granted w w.
Proof. repeat split; auto. intros i I. lia. Qed.
Lemma going_start w : numbered w -> going w [] w.
Proof. intro N. constructor; auto using all_granted_refl. - intro b. cbn [In]. tauto. - intros b []. Qed.

Definition next {R} (w0 : world) (q : R -> list nat -> Prop) : R -> world -> Prop := fun r w => exists mine, q r mine /\ going w0 mine w.
Lemma run_then {R S} w0 (m : act R) (k : R -> act S) w q p :
  run w0 m w (next w0 q) -> (forall r mine w', q r mine -> going w0 mine w' -> run w0 (k r) w' p) -> run w0 (andthen m k) w p.
Proof.
  unfold run, andthen, ends_as, next. intros H K. destruct (m w) as [r w'| | | |]; auto. destruct H as (G & mine & Q & GO). exact (K r mine w' Q GO).
Qed.
Lemma run_give {R} w0 (r : R) mine w (q : R -> list nat -> Prop) : q r mine -> going w0 mine w -> run w0 (give r) w (next w0 q).
Proof. intros Q G. unfold run, give, ends_as, next. split; [apply G|eauto]. Qed.
Lemma run_weaken {R} w0 (m : act R) w (p p' : R -> world -> Prop) : run w0 m w p -> (forall r w', p r w' -> p' r w') -> run w0 m w p'.
Proof. unfold run, ends_as. intros H I. destruct (m w); auto. destruct H; auto. Qed.

Context (NORETURN : h <> User true).

(** The request fails. *)
Lemma run_panic {R} w0 mine w n (k : unit -> act R) post : going w0 mine w -> granted (asked w) n = false ->
  run w0 (andthen (s_panic dumpcore h out_of_memory) k) {| live := live w; asked := S (asked w); err := err w; handled := handled w |} post.
Proof.
  intros [GN (GA & GB & GE & GH) GL GM GF] F.
  assert (RF : forall e hd, hd = S (handled w0) -> refused w0 {| live := live w; asked := S (asked w); err := e; handled := hd |}).
  { intros e hd E. unfold refused. cbn [asked handled live pred]. repeat split; try lia; eauto.
    - intros i [I J]. apply GB. lia.
    - intros b B. apply GL. auto. }
  unfold run, andthen, s_panic, ends_as. destruct h as [|[]] eqn:EH; [|congruence|].
  - unfold panic. destruct dumpcore as [[|c s]|] eqn:ED; cbn [live asked err handled].
    + split; [auto|]. split; [intros (c & s & E); congruence|]. split; [reflexivity|]. split; [apply RF; congruence|]. rewrite GE. reflexivity.
    + split; [auto|]. split; [exists c, s; auto|]. split; [apply RF; congruence|]. rewrite GE. reflexivity.
    + split; [auto|]. split; [intros (c & s & E); congruence|]. split; [reflexivity|]. split; [apply RF; congruence|]. rewrite GE. reflexivity.
  - cbn [live asked err handled]. split; [auto|]. split; [apply RF; congruence|auto].
Qed.
(** ... or is granted: the new block is numbered above all others. *)
Lemma going_more w0 mine w n : going w0 mine w -> granted (asked w) n = true ->
  going w0 (asked w :: mine) {| live := asked w :: live w; asked := S (asked w); err := err w; handled := handled w |}.
Proof.
  intros [GN (GA & GB & GE & GH) GL GM GF] F. constructor; unfold numbered, all_granted, also in *; cbn [live asked err handled In] in *; auto.
  - intros b [<-|B]; [lia|]. specialize (GN b B). lia.
  - repeat split; auto. intros i I. destruct (Nat.eq_dec i (asked w)) as [->|]; [eauto|apply GB; lia].
  - intro b. rewrite GL. tauto.
  - intros b [<-|B]; auto.
Qed.
Lemma run_xmalloc w0 mine w n : going w0 mine w ->
  run w0 (xmalloc granted dumpcore h n) w (next w0 (fun p m => exists b, p = Some b /\ m = b :: mine /\ ~ In b mine)).
Proof.
  intro G. unfold xmalloc. unfold run, andthen at 1, malloc. destruct (granted (asked w) n) eqn:F.
  - cbn [andthen give]. unfold andthen, give, ends_as, next. assert (G' := going_more _ _ _ _ G F). split; [apply G'|]. eexists. split; [|exact G'].
    exists (asked w). repeat split; auto. intro I. assert (B := go_num _ _ _ G (asked w) (proj2 (go_live _ _ _ G _) (or_introl I))). lia.
  - exact (run_panic w0 mine w n _ _ G F).
Qed.
Lemma in_drop b x l : In x (drop b l) <-> In x l /\ x <> b.
Proof. unfold drop. split; [apply in_remove|intros [I N]; apply in_in_remove; auto]. Qed.
(** A block of ours is not one from before. *)
Lemma mine_new w0 mine w b : going w0 mine w -> In b mine -> ~ In b (live w0).
Proof. intros G I J. assert (X := go_mine _ _ _ G b I). assert (Y := go_from _ _ _ G b J). lia. Qed.
Lemma going_swap w0 b mine w n : going w0 (b :: mine) w -> ~ In b mine -> granted (asked w) n = true ->
  going w0 (asked w :: mine) {| live := asked w :: drop b (live w); asked := S (asked w); err := err w; handled := handled w |}.
Proof.
  intros G NI F. assert (NO := mine_new _ _ _ b G (or_introl eq_refl)). destruct G as [GN (GA & GB & GE & GH) GL GM GF].
  constructor; unfold numbered, all_granted, also in *; cbn [live asked err handled In] in *; auto.
  - intros x [<-|B]; [lia|]. apply in_drop in B. specialize (GN x (proj1 B)). lia.
  - repeat split; auto. intros i I. destruct (Nat.eq_dec i (asked w)) as [->|]; [eauto|apply GB; lia].
  - intro x. rewrite in_drop, GL. split; [intuition congruence|].
    intros [[<-|I]|I]; auto; right; (split; [auto|intros ->; auto]).
  - intros x [<-|B]; auto.
Qed.
Lemma run_xrealloc w0 b mine w n : going w0 (b :: mine) w -> ~ In b mine ->
  run w0 (xrealloc granted dumpcore h (Some b) n) w (next w0 (fun p m => exists b, p = Some b /\ m = b :: mine /\ ~ In b mine)).
Proof.
  intros G NI. unfold xrealloc. set (n' := if negb (n =? 0) then n else 1). clearbody n'. unfold run, andthen at 1, realloc.
  destruct (in_dec Nat.eq_dec b (live w)) as [I|I]; [|exfalso; apply I; apply (go_live _ _ _ G); left; left; auto].
  destruct (granted (asked w) n') eqn:F.
  - cbn [andthen give]. unfold andthen, give, ends_as, next. assert (G' := going_swap _ _ _ _ _ G NI F). split; [apply G'|]. eexists. split; [|exact G'].
    exists (asked w). repeat split; auto. intro J. assert (B := go_num _ _ _ G (asked w) (proj2 (go_live _ _ _ G _) (or_introl (or_intror J)))). lia.
  - exact (run_panic w0 (b :: mine) w n' _ _ G F).
Qed.
Lemma run_xfree w0 b mine w : going w0 (b :: mine) w -> ~ In b mine -> run w0 (xfree (Some b)) w (next w0 (fun _ m => m = mine)).
Proof.
  intros G NI. unfold run, xfree, free. destruct (in_dec Nat.eq_dec b (live w)) as [I|I]; [|exfalso; apply I; apply (go_live _ _ _ G); left; left; auto].
  assert (NO := mine_new _ _ _ b G (or_introl eq_refl)). cbn [ends_as]. unfold next.
  assert (G' : going w0 mine {| live := drop b (live w); asked := asked w; err := err w; handled := handled w |}).
  { destruct G as [GN GA GL GM GF]. constructor; unfold numbered, all_granted, also in *; cbn [live asked err handled In] in *; auto.
    - intros x B. apply in_drop in B. apply GN, B.
    - intro x. rewrite in_drop, GL. split; [intuition congruence|]. intros [J|J]; (split; [auto|intros ->; auto]). }
  split; [apply G'|eauto].
Qed.
(** The order of our blocks does not matter. *)
Lemma going_perm w0 m m' w : going w0 m w -> (forall b, In b m <-> In b m') -> going w0 m' w.
Proof.
  intros [GN GA GL GM GF] P. constructor; auto.
  - intro b. rewrite (GL b), P. tauto.
  - intros b B. apply GM, P, B.
Qed.
Lemma deref_some {R} b (k : unit -> act R) w : andthen (deref (Some b)) k w = k tt w.
Proof. reflexivity. Qed.
Lemma run_one_block w0 mine w n : going w0 mine w ->
  run w0 (one_block granted dumpcore h n) w (next w0 (fun p m => exists b, p = Some b /\ m = b :: mine /\ ~ In b mine)).
Proof.
  intro G. unfold one_block. eapply run_then; [exact (run_xmalloc _ _ _ _ G)|]. intros r m w' (b & -> & -> & NI) G'. unfold run. rewrite deref_some. apply (run_give w0 (Some b) (b :: mine)); eauto.
Qed.
Lemma run_grow w0 sizes : forall b mine w, going w0 (b :: mine) w -> ~ In b mine ->
  run w0 (grow granted dumpcore h (Some b) sizes) w (next w0 (fun p m => exists b, p = Some b /\ m = b :: mine /\ ~ In b mine)).
Proof.
  induction sizes as [|n sizes IH]; intros b mine w G NI; cbn [grow].
  - apply (run_give w0 (Some b) (b :: mine)); eauto.
  - eapply run_then; [exact (run_xrealloc _ _ _ _ _ G NI)|]. intros r m w' (b' & -> & -> & NI') G'. unfold run. rewrite deref_some. exact (IH b' mine w' G' NI').
Qed.
Definition owned (t : nat * trex_) : list nat :=
  let l := fun o => match o with Some b => [b] | None => @nil nat end in fst t :: l (t_nodes (snd t)) ++ l (t_jmpbuf (snd t)) ++ l (t_matches (snd t)).
Lemma run_xfree_opt w0 o mine w : going w0 (match o with Some b => [b] | None => [] end ++ mine) w -> NoDup (match o with Some b => [b] | None => [] end ++ mine) ->
  run w0 (xfree o) w (next w0 (fun _ m => m = mine)).
Proof.
  destruct o as [b|]; cbn [app]; intros G ND.
  - apply run_xfree; auto. inversion ND; auto.
  - apply (run_give w0 tt mine); auto.
Qed.
Lemma NoDup_app_remove_l {X} (a b : list X) : NoDup (a ++ b) -> NoDup b.
Proof. induction a as [|x a IH]; auto. intro H. inversion H; auto. Qed.
Lemma run_trex_free w0 t mine w : going w0 (owned t ++ mine) w -> NoDup (owned t ++ mine) -> run w0 (trex_free (Some t)) w (next w0 (fun _ m => m = mine)).
Proof.
  destruct t as [e [no jb ma]]. unfold owned. cbn [fst snd t_nodes t_jmpbuf t_matches]. intros G ND. cbn [trex_free t_nodes t_jmpbuf t_matches].
  set (l := fun o : option nat => match o with Some b => [b] | None => [] end) in *.
  assert (D1 : NoDup (l no ++ l jb ++ l ma ++ e :: mine)).
  { eapply Permutation_NoDup; [|exact ND]. replace (l no ++ l jb ++ l ma ++ e :: mine) with ((l no ++ l jb ++ l ma) ++ e :: mine) by (rewrite <- !app_assoc; reflexivity). apply Permutation_middle. }
  eapply run_then.
  { apply (run_xfree_opt w0 no (l jb ++ l ma ++ e :: mine)); [|exact D1]. eapply going_perm; [exact G|]. intro b. fold (l no). repeat (rewrite ?in_app_iff; cbn [In app]). rewrite ?in_app_iff. tauto. }
  intros _ m w1 -> G1. assert (D2 : NoDup (l jb ++ l ma ++ e :: mine)) by (eapply NoDup_app_remove_l; exact D1).
  eapply run_then; [exact (run_xfree_opt w0 jb _ w1 G1 D2)|]. intros _ m w2 -> G2. assert (D3 : NoDup (l ma ++ e :: mine)) by (eapply NoDup_app_remove_l; exact D2).
  eapply run_then; [exact (run_xfree_opt w0 ma _ w2 G2 D3)|]. intros _ m w3 -> G3. assert (D4 : NoDup (e :: mine)) by (eapply NoDup_app_remove_l; exact D3).
  exact (run_xfree_opt w0 (Some e) mine w3 G3 D4).
Qed.
Lemma run_compile w0 p sizes mine w : readable p -> going w0 mine w -> NoDup mine ->
  run w0 (trex_compile granted dumpcore h rex_size node_size jmp_size match_size p sizes) w
    (next w0 (fun r m => match r with
                         | Some t => m = owned t ++ mine /\ NoDup m /\ compiles p
                         | None => m = mine /\ ~ compiles p
                         end)).
Proof.
  intros RD G ND. unfold trex_compile. eapply run_then; [exact (run_xmalloc _ _ _ _ G)|]. intros r m w1 (e & -> & -> & N1) G1. unfold run. rewrite deref_some.
  eapply run_then; [exact (run_xmalloc _ _ _ _ G1)|]. intros r m w2 (no & -> & -> & N2) G2. unfold run. rewrite deref_some.
  eapply run_then; [exact (run_xmalloc _ _ _ _ G2)|]. intros r m w3 (jb & -> & -> & N3) G3. unfold run. rewrite deref_some.
  assert (G3' : going w0 (no :: jb :: e :: mine) w3) by (eapply going_perm; [exact G3|]; intro b; cbn [In]; tauto).
  assert (N3' : ~ In no (jb :: e :: mine)) by (cbn [In] in *; intuition congruence).
  assert (D3 : NoDup (jb :: e :: mine)) by (repeat constructor; cbn [In] in *; intuition congruence).
  eapply run_then; [exact (run_grow w0 sizes no _ w3 G3' N3')|]. clear no G3 G3' N3' N1 N2 N3 G2 w2 G w3. intros r m w3 (no & -> & -> & N3) G3.
  assert (D : NoDup (no :: jb :: e :: mine)) by (constructor; auto). clear D3 N3.
  unfold readable in RD. destruct (RexModel.trex_compile p) as [u st| | |] eqn:EC; try contradiction.
  - eapply run_then; [exact (run_xmalloc _ _ _ _ G3)|]. intros r m w4 (ma & -> & -> & N4) G4. unfold run. rewrite deref_some.
    assert (P : Permutation (ma :: no :: jb :: e :: mine) (owned (e, {| t_nodes := Some no; t_jmpbuf := Some jb; t_matches := Some ma |}) ++ mine)).
    { cbn [owned fst snd t_nodes t_jmpbuf t_matches app]. apply Permutation_sym. change (Permutation (e :: [no; jb] ++ ma :: mine) (ma :: no :: jb :: e :: mine)). transitivity (e :: ma :: no :: jb :: mine).
      - apply perm_skip. symmetry. apply (Permutation_middle [no; jb] mine ma).
      - apply (Permutation_middle [ma; no; jb] mine e). }
    eapply run_give.
    + split; [reflexivity|]. split; [|destruct u; exists st; exact EC]. eapply Permutation_NoDup; [exact P|]. constructor; auto.
    + eapply going_perm; [exact G4|]. intro b. split; apply Permutation_in; [exact P|symmetry; exact P].
  - assert (P : Permutation (no :: jb :: e :: mine) (owned (e, {| t_nodes := Some no; t_jmpbuf := Some jb; t_matches := None |}) ++ mine)).
    { cbn [owned fst snd t_nodes t_jmpbuf t_matches app]. symmetry. apply (Permutation_middle [no; jb] mine e). }
    eapply run_then.
    + apply (run_trex_free w0 _ mine).
      * eapply going_perm; [exact G3|]. intro b. split; apply Permutation_in; [exact P|symmetry; exact P].
      * eapply Permutation_NoDup; [exact P|auto].
    + intros r m w4 -> G4. apply (run_give w0 None mine); auto. split; [auto|]. intros (st & E). congruence.
Qed.
Lemma run_make w0 k mine w : sane k -> going w0 mine w -> NoDup mine ->
  run w0 (make k) w (next w0 (fun p m => match p with Some b => ~ no_pattern k /\ m = b :: mine /\ NoDup m | None => no_pattern k /\ m = mine end)).
Proof.
  intros SA G ND.
  assert (B : forall n, ~ no_pattern k -> run w0 (one_block granted dumpcore h n) w
                (next w0 (fun p m => match p with Some b => ~ no_pattern k /\ m = b :: mine /\ NoDup m | None => no_pattern k /\ m = mine end))).
  { intros n NP. eapply run_weaken; [exact (run_one_block _ _ _ n G)|]. intros r w' (m & (b & -> & -> & NI) & G'). eexists. split; [|exact G']. repeat split; auto. constructor; auto. }
  destruct k as [| |mn mx|mn mx|mn mx|mn mx|mn mx|[p|] mn mx sizes|mx]; cbn [AllocModel.make no_pattern sane] in *; try (apply B; auto).
  - unfold dbl_layout. assert (E : in_intb (normalise mn mx + 1) = true).
    { unfold in_intb, normalise. unfold INT_MIN, INT_MAX in *. destruct (Z.ltb_spec mx mn); apply andb_true_iff; split; apply Z.leb_le; lia. }
    rewrite E. cbn [bind]. apply B; auto.
  - eapply run_then; [exact (run_one_block _ _ _ _ G)|]. intros r m w1 (b & -> & -> & NI) G1. assert (D1 : NoDup (b :: mine)) by (constructor; auto).
    eapply run_then; [exact (run_compile w0 p sizes _ w1 SA G1 D1)|]. intros [t|] m w2 H G2.
    + destruct H as (-> & D2 & _). eapply run_then; [exact (run_trex_free w0 t _ w2 G2 D2)|]. intros r m w3 -> G3. eapply run_give; [|exact G3]. auto.
    + destruct H as [-> _]. cbn [trex_free]. eapply run_then; [apply (run_give w0 tt (b :: mine) w2 (fun _ m => m = b :: mine)); auto|]. intros r m w3 -> G3. eapply run_give; [|exact G3]. auto.
  - apply (run_give w0 None mine); auto.
Qed.
Definition blocks (t : list (option nat)) : list nat := flat_map (fun o => match o with Some b => [b] | None => [] end) t.
Lemma run_make_all w0 : forall ks mine w, Forall sane ks -> going w0 mine w -> NoDup mine ->
  run w0 (make_all ks) w (next w0 (fun t m => Forall2 (fun k p => p = None <-> no_pattern k) ks t /\ Permutation m (blocks t ++ mine) /\ NoDup m)).
Proof.
  induction ks as [|k ks IH]; intros mine w SA G ND; cbn [AllocModel.make_all].
  - apply (run_give w0 [] mine); auto.
  - inversion SA as [|x y S1 S2]; subst. eapply run_then; [exact (run_make w0 k mine w S1 G ND)|]. intros p m w1 Q G1.
    assert (D1 : NoDup m) by (destruct p; [apply Q|destruct Q as [_ ->]; auto]).
    eapply run_then; [exact (IH m w1 S2 G1 D1)|]. intros t m' w2 (F & P & D2) G2. eapply run_give; [|exact G2].
    destruct p as [b|]; destruct Q as [NP Q].
    + destruct Q as [-> _]. repeat split; auto.
      * constructor; auto. split; [discriminate|contradiction].
      * cbn [blocks flat_map app]. rewrite P. symmetry. apply Permutation_middle.
    + subst m. repeat split; auto. constructor; auto. tauto.
Qed.
Lemma run_scan w0 p sizes v mine w : compiles p -> going w0 mine w -> NoDup mine ->
  run w0 (rex_scan p sizes v) w (next w0 (fun r m => r = v /\ m = mine)).
Proof.
  intros [st C] G ND. unfold AllocModel.rex_scan. assert (RD : readable p) by (unfold readable; rewrite C; exact I).
  eapply run_then; [exact (run_compile w0 p sizes _ w RD G ND)|]. intros [t|] m w2 H G2.
  - destruct H as (-> & D2 & _). cbn [option_map]. unfold run. rewrite deref_some. eapply run_then; [exact (run_trex_free w0 t _ w2 G2 D2)|]. intros r m w3 -> G3. eapply run_give; [|exact G3]. auto.
  - destruct H as [_ N]. exfalso. apply N. exists st. exact C.
Qed.
Lemma run_scans w0 mine : NoDup mine -> forall l w, Forall (fun v => compiles (fst (fst v))) l -> going w0 mine w ->
  run w0 (rex_scans l) w (next w0 (fun _ m => m = mine)).
Proof.
  intro ND. induction l as [|[[p sizes] v] l IH]; intros w F G; cbn [AllocModel.rex_scans].
  - apply (run_give w0 tt mine); auto.
  - inversion F; subst. eapply run_then; [exact (run_scan w0 p sizes v mine w ltac:(assumption) G ND)|]. intros r m w1 [_ ->] G1. apply IH; auto.
Qed.
Lemma run_parse w0 argc nl ns l1 l2 w : Forall (fun v => compiles (fst (fst v))) (l1 ++ l2) -> going w0 [] w -> run w0 (parse argc nl ns l1 l2) w (next w0 (fun _ m => m = [])).
Proof.
  intros F G. apply Forall_app in F. destruct F as [F1 F2]. unfold AllocModel.parse. destruct (argc =? 0); [apply (run_give w0 tt []); auto|].
  eapply run_then; [exact (run_xmalloc _ _ _ _ G)|]. intros r m w1 (a & -> & -> & N1) G1. unfold run. rewrite deref_some.
  assert (D1 : NoDup [a]) by (constructor; auto; constructor).
  eapply run_then with (q := fun _ m => m = [a]).
  - unfold parse_tagged. eapply run_then; [exact (run_xmalloc _ _ _ _ G1)|]. intros r m w2 (lo & -> & -> & N2) G2. unfold run. rewrite deref_some.
    eapply run_then; [exact (run_xmalloc _ _ _ _ G2)|]. intros r m w3 (sh & -> & -> & N3) G3. unfold run. rewrite deref_some.
    assert (D2 : NoDup [lo; a]) by (constructor; auto). assert (D3 : NoDup [sh; lo; a]) by (constructor; auto).
    eapply run_then; [exact (run_scans w0 _ D3 l1 w3 F1 G3)|]. intros r m w4 -> G4.
    eapply run_then; [exact (run_xfree w0 sh _ w4 G4 N3)|]. intros r' m w5 -> G5. exact (run_xfree w0 lo _ w5 G5 N2).
  - intros r m w2 -> G2. eapply run_then; [exact (run_scans w0 _ D1 l2 w2 F2 G2)|]. intros r' m w3 -> G3. exact (run_xfree w0 a [] w3 G3 N1).
Qed.

(** ** C82 *)

(** A constructor returns a new block of its own, and nothing else of what it asked for is left; NULL only for the pattern NULL. *)
Theorem C82_constructor k w : numbered w -> sane k ->
  ends_as (make k w) w (fun p w' =>
    match p with
    | Some b => ~ no_pattern k /\ (asked w <= b < asked w')%nat /\ also [b] w w'
    | None => no_pattern k /\ also [] w w'
    end).
Proof.
  intros N SA. eapply run_weaken; [exact (run_make w k [] w SA (going_start w N) (NoDup_nil _))|]. cbn beta.
  intros [b|] w' (m & Q & G').
  - destruct Q as (NP & -> & _). split; [auto|]. split; [|apply G']. split; [apply (go_mine _ _ _ G'); left; auto|]. apply (go_num _ _ _ G'). apply (go_live _ _ _ G'). left. left. auto.
  - destruct Q as (NP & ->). split; [auto|apply G'].
Qed.
(** A table: every entry has a block of its own. *)
Theorem C82_table ks w : numbered w -> Forall sane ks ->
  ends_as (make_all ks w) w (fun t w' =>
    Forall2 (fun k p => p = None <-> no_pattern k) ks t /\ NoDup (blocks t) /\ Forall (fun b => asked w <= b < asked w')%nat (blocks t) /\ also (blocks t) w w').
Proof.
  intros N SA. eapply run_weaken; [exact (run_make_all w ks [] w SA (going_start w N) (NoDup_nil _))|]. cbn beta.
  intros t w' (m & (F & P & D) & G'). rewrite app_nil_r in P. split; [auto|]. split; [exact (Permutation_NoDup P D)|]. 
  assert (G2 : going w (blocks t) w') by (eapply going_perm; [exact G'|]; intro b; split; apply Permutation_in; [exact P|symmetry; exact P]).
  split; [|apply G2]. apply Forall_forall. intros b B. split; [apply (go_mine _ _ _ G2); auto|]. apply (go_num _ _ _ G2), (go_live _ _ _ G2). auto.
Qed.
(** Parsing, and matching a value with a pattern, leave the blocks as they were. *)
Theorem C82_parse argc nl ns tagged untagged w : numbered w -> Forall (fun v => compiles (fst (fst v))) (tagged ++ untagged) ->
  ends_as (parse argc nl ns tagged untagged w) w (fun _ w' => also [] w w').
Proof. intros N F. eapply run_weaken; [exact (run_parse w argc nl ns tagged untagged w F (going_start w N))|]. intros _ w' (m & -> & G). apply G. Qed.
Theorem C82_value p sizes v w : numbered w -> compiles p -> ends_as (rex_scan p sizes v w) w (fun r w' => r = v /\ also [] w w').
Proof. intros N C. eapply run_weaken; [exact (run_scan w p sizes v [] w C (going_start w N) (NoDup_nil _))|]. intros r w' (m & (-> & ->) & G). split; [auto|apply G]. Qed.
(** With enough memory everything returns. *)
Theorem C82_enough {R} (o : outcome R) w good : (forall i n, granted i n = true) -> ends_as o w good -> exists r w', o = Returned r w' /\ good r w'.
Proof.
  intros E H. unfold ends_as, refused in H. destruct o as [r w'| | | |]; [exists r, w'; intuition| | | |contradiction]; exfalso.
  - destruct H as (_ & _ & _ & (_ & _ & (n & F) & _) & _). rewrite E in F. discriminate.
  - destruct H as (_ & _ & (_ & _ & (n & F) & _) & _). rewrite E in F. discriminate.
  - destruct H as (_ & (_ & _ & (n & F) & _) & _). rewrite E in F. discriminate.
Qed.

(** What arg_nullcheck finds in a table that was just built: 1 if a pattern was NULL, and otherwise 0. [m] says which blocks are there, and
    whether they are terminators. *)
Definition is_end (k : maker) : bool := match k with MakeEnd _ => true | _ => false end.
Definition filled (m : heap) (k : maker) (p : option nat) : Prop := match p with Some b => m b = Some (is_end k) | None => True end.
Theorem C82_nullcheck ks mx w t w' m : numbered w -> Forall sane ks -> Forall (fun k => is_end k = false) ks ->
  make_all (ks ++ [MakeEnd mx]) w = Returned t w' -> Forall2 (filled m) (ks ++ [MakeEnd mx]) t ->
  (Exists no_pattern ks /\ arg_nullcheck m (Some t) = Ok 1) \/ (Forall (fun k => ~ no_pattern k) ks /\ arg_nullcheck m (Some t) = Ok 0).
Proof.
  intros N SA NE E F. assert (SA' : Forall sane (ks ++ [MakeEnd mx])) by (apply Forall_app; split; [auto|repeat constructor]).
  assert (H := C82_table _ w N SA'). rewrite E in H. destruct H as (_ & H & _). clear E SA SA' N. cbn [arg_nullcheck]. revert t F H NE.
  induction ks as [|k ks IH]; intros t F H NE; cbn [app] in F, H; inversion F as [|x p y t' F1 F2]; subst; inversion H as [|x' p' y' t'' H1 H2]; subst.
  - right. split; [constructor|]. inversion F2; subst. destruct p as [b|]; [|exfalso; apply (proj1 H1); auto]. cbn [nullcheck_loop filled] in *. unfold is_terminator. rewrite F1. reflexivity.
  - inversion NE as [|x y NE1 NE2]; subst. destruct p as [b|].
    + cbn [nullcheck_loop filled] in *. assert (TT : is_terminator m b = Ok false) by (unfold is_terminator; rewrite F1, NE1; reflexivity). rewrite TT. cbn [bind].
      assert (NP : ~ no_pattern k) by (intro X; apply (proj2 H1) in X; discriminate).
      destruct (IH t' F2 H2 NE2) as [[X Y]|[X Y]]; [left; split; [right; auto|auto]|right; split; [constructor; auto|auto]].
    + left. split; [left; apply H1; auto|reflexivity].
Qed.
End Memory.

(** A panic function that returns leaves the library with a null pointer, which it uses: whatever is to be constructed, if nothing is granted. *)
Theorem C82_returning_refuted : forall k w d a b c e A, sane k -> ~ no_pattern k ->
  exists w', make (fun _ _ => false) d (User true) a b c e A k w = Undefined NullDeref w' /\ handled w' = S (handled w).
Proof.
  intros k w d a b c e A SA NP. destruct k as [| |mn mx|mn mx|mn mx|mn mx|mn mx|[p|] mn mx sizes|mx]; try (eexists; split; reflexivity).
  - cbn [make]. unfold dbl_layout. assert (E : in_intb (normalise mn mx + 1) = true).
    { cbn [sane] in SA. unfold in_intb, normalise. unfold INT_MIN, INT_MAX in *. destruct (Z.ltb_spec mx mn); apply andb_true_iff; split; apply Z.leb_le; lia. }
    rewrite E. eexists. split; reflexivity.
  - exfalso. apply NP. exact I.
Qed.

(** ** Examples *)
Definition lp64 : abi := {| ptr_size := 8; tm_size := 56; tm_align := 8 |}.
Definition start : world := {| live := []; asked := 0; err := []; handled := 0 |}.
Definition example_table : list maker := [MakeLit; MakeInt 0 3; MakeRex (Some (lit "(red|green)+")) 1 2 [768]; MakeDbl 0 10; MakeEnd 20].
(** Memory for so many requests, or for requests up to so many bytes *)
Definition so_often (k : nat) : nat -> Z -> bool := fun i _ => Nat.ltb i k.
Definition up_to (k : Z) : nat -> Z -> bool := fun _ n => n <=? k.
Definition built (g : nat -> Z -> bool) (d : option str) (h : handler) := make_all g d h 88 32 200 16 lp64 example_table start.
Definition ended {R} (o : outcome R) : option R * Z * list nat * nat * str :=
  match o with
  | Returned r w => (Some r, 0, live w, asked w, err w)
  | Exited c w => (None, c, live w, asked w, err w)
  | Aborted w => (None, 134, live w, asked w, err w)
  | Left w => (None, -1, live w, asked w, err w)
  | Undefined _ w => (None, -2, live w, asked w, err w)
  end.
Example C82_sane : Forall sane example_table.
Proof. repeat (constructor; [vm_compute; auto; try (split; [discriminate|reflexivity])|]). constructor. Qed.
(** Enough memory: ten requests, of which five blocks remain *)
Example C82_case_enough : ended (built (so_often 100) None Own) = (Some [Some 0; Some 1; Some 2; Some 8; Some 9]%nat, 0, [9; 8; 2; 1; 0]%nat, 10%nat, []).
Proof. vm_compute. reflexivity. Qed.
(** The sixth request is refused, in the middle of the compilation of the pattern. *)
Example C82_case_refused : ended (built (so_often 5) None Own) = (None, 1, [4; 3; 2; 1; 0]%nat, 6%nat, lit "Out of memory!" ++ ["010"%char]).
Proof. vm_compute. reflexivity. Qed.
Example C82_case_core : ended (built (so_often 5) (Some (lit "1")) Own) = (None, 134, [4; 3; 2; 1; 0]%nat, 6%nat, lit "Out of memory!" ++ ["010"%char]).
Proof. vm_compute. reflexivity. Qed.
Example C82_case_jump : ended (built (up_to 200) None (User false)) = (None, -1, [3; 2; 1; 0]%nat, 5%nat, []).
Proof. vm_compute. reflexivity. Qed.
Example C82_case_returning : ended (built (up_to 200) None (User true)) = (None, -2, [3; 2; 1; 0]%nat, 5%nat, []).
Proof. vm_compute. reflexivity. Qed.
(** NULL for a pattern *)
Example C82_case_null : ended (make_all (so_often 100) None Own 88 32 200 16 lp64 [MakeLit; MakeRex None 0 1 []; MakeEnd 1] start) = (Some [Some 0; None; Some 1]%nat, 0, [1; 0]%nat, 2%nat, []).
Proof. vm_compute. reflexivity. Qed.
Example C82_case_nullcheck : arg_nullcheck (fun b => match b with 0%nat => Some false | 1%nat => Some true | _ => None end) (Some [Some 0; None; Some 1]%nat) = Ok 1.
Proof. reflexivity. Qed.
(** Parsing with two values matched, in a world of five blocks; and when there is too little for the second *)
Definition five : world := {| live := [9; 8; 2; 1; 0]%nat; asked := 10; err := []; handled := 0 |}.
Definition parsed (g : nat -> Z -> bool) :=
  parse g None Own 88 32 200 16 lp64 3 96 5 [(lit "(red|green)+", [768], true)] [(lit "a*", [], false)] five.
Example C82_case_parse : ended (parsed (so_often 100)) = (Some tt, 0, [9; 8; 2; 1; 0]%nat, 22%nat, []).
Proof. vm_compute. reflexivity. Qed.
Example C82_case_parse_refused : ended (parsed (so_often 20)) = (None, 1, [19; 18; 10; 9; 8; 2; 1; 0]%nat, 21%nat, lit "Out of memory!" ++ ["010"%char]).
Proof. vm_compute. reflexivity. Qed.
Example C82_numbered : numbered start /\ numbered five.
Proof. split; intros b B; cbn in *; intuition lia. Qed.
Example C82_compiles : Forall compiles [lit "(red|green)+"; lit "a*"].
Proof. repeat constructor; eexists; vm_compute; reflexivity. Qed.

Print Assumptions C82_constructor.
Print Assumptions C82_table.
Print Assumptions C82_parse.
Print Assumptions C82_value.
Print Assumptions C82_enough.
Print Assumptions C82_nullcheck.
Print Assumptions C82_returning_refuted.
