(** C63: the order of options of different entries does not matter. C64: all spellings of a command line are parsed alike. For any
    kinds of entries. *)
From Verif Require Import Base IntModel FileModel DateModel GetoptModel ParseModel ParseSpec GetoptProofs ParseIdeal ParseProofs ParseFacts ParseObserve ParseLemmas ArgModel KindsSpec CommandSpec CommandProofs.
From Verif Require ExTable.
From Coq Require Import ZArith List Ascii String Bool Lia Permutation.
Import ListNotations.
Open Scope Z_scope.

(** The mistakes found while reading (unknown options, missing values), in order. *)
Definition mistakes (evs : list event) : list (Z * option str) :=
  flat_map (fun ev => match ev with EvErr c v => [(c, v)] | EvScan _ _ => [] end) evs.
(** [rearranged evs evs']: every entry is given the same values in the same order, and the mistakes are the same in some order. *)
Definition rearranged (evs evs' : list event) : Prop :=
  (forall i, occurrences i evs = occurrences i evs') /\ Permutation (mistakes evs) (mistakes evs').

Lemma occurrences_app i e1 e2 : occurrences i (e1 ++ e2) = occurrences i e1 ++ occurrences i e2.
Proof. apply flat_map_app. Qed.
Lemma mistakes_app e1 e2 : mistakes (e1 ++ e2) = mistakes e1 ++ mistakes e2.
Proof. apply flat_map_app. Qed.
Lemma rearranged_sym e1 e2 : rearranged e1 e2 -> rearranged e2 e1.
Proof. intros [H1 H2]. split; [intros i; symmetry; apply H1|apply Permutation_sym, H2]. Qed.

Section Generic.
Context {B : Type}.
Context (scan : hdr -> B -> option (option str -> res (B * Z))).
Context (check : hdr -> B -> option Z).
Context (reset : hdr -> B -> res B).
Notation parse := (arg_parse scan check reset).

(** Two lists of events have the same effect but for the order of errors. *)
Definition same_effect (evs evs' : list event) : Prop :=
  forall tab errs errs' r, Permutation errs errs' -> ideal_events scan evs (tab, errs) = Ok r ->
  exists r', ideal_events scan evs' (tab, errs') = Ok r' /\ fst r = fst r' /\ Permutation (snd r) (snd r').

Lemma ideal_events_app e1 : forall e2 st, ideal_events scan (e1 ++ e2) st = (st' <- ideal_events scan e1 st ;; ideal_events scan e2 st').
Proof. induction e1 as [|x e1 IH]; intros e2 st; [reflexivity|]. cbn [app ideal_events]. destruct (ideal_event scan x st); cbn [bind]; auto. Qed.
(** One event. *)
Lemma event_perm ev tab errs errs' r : Permutation errs errs' -> ideal_event scan ev (tab, errs) = Ok r ->
  exists r', ideal_event scan ev (tab, errs') = Ok r' /\ fst r = fst r' /\ Permutation (snd r) (snd r').
Proof.
  intros Hp H. destruct ev as [i v|c v]; cbn in *.
  - destruct (nth_error tab i) as [e|]; [|discriminate]. destruct (scan (e_hdr e) (e_body e)) as [f|]; [|injection H as <-; eauto].
    apply bind_ok in H as ([b c] & E & H). rewrite E. injection H as <-. cbn. eexists. split; [reflexivity|]. split; [reflexivity|]. cbn.
    destruct (c =? 0); auto. apply Permutation_app_tail, Hp.
  - injection H as <-. eexists. split; [reflexivity|]. split; [reflexivity|]. cbn. apply Permutation_app_tail, Hp.
Qed.
Lemma same_refl evs : same_effect evs evs.
Proof.
  induction evs as [|ev evs IH]; intros tab errs errs' r Hp H; [injection H as <-; exists (tab, errs'); auto|].
  cbn [ideal_events] in *. apply bind_ok in H as ([t1 e1] & H1 & H). destruct (event_perm _ _ _ _ _ Hp H1) as ([t1' e1'] & H1' & Ht & He). cbn [fst snd] in *. subst t1'.
  rewrite H1'. cbn [bind]. eapply IH; eauto.
Qed.
Lemma same_cons ev evs evs' : same_effect evs evs' -> same_effect (ev :: evs) (ev :: evs').
Proof.
  intros IH tab errs errs' r Hp H. cbn [ideal_events] in *. apply bind_ok in H as ([t1 e1] & H1 & H).
  destruct (event_perm _ _ _ _ _ Hp H1) as ([t1' e1'] & H1' & Ht & He). cbn [fst snd] in *. subst t1'. rewrite H1'. cbn [bind]. eapply IH; eauto.
Qed.
Lemma same_trans e1 e2 e3 : same_effect e1 e2 -> same_effect e2 e3 -> same_effect e1 e3.
Proof.
  intros H1 H2 tab errs errs' r Hp H. destruct (H1 tab errs errs r (Permutation_refl _) H) as (r1 & E1 & F1 & P1).
  destruct (H2 tab errs errs' r1 Hp E1) as (r2 & E2 & F2 & P2). exists r2. split; auto. split; [congruence|]. eapply perm_trans; eauto.
Qed.
(** Events that are not both about the same entry can change places. *)
Definition apart (e1 e2 : event) : Prop := match e1, e2 with EvScan i _, EvScan j _ => i <> j | _, _ => True end.
Lemma lupd_comm {A} : forall (l : list A) i j x y, i <> j -> lupd (lupd l i x) j y = lupd (lupd l j y) i x.
Proof. induction l as [|a l IH]; intros [|i] [|j] x y H; cbn; auto; try congruence. f_equal. apply IH. congruence. Qed.
Lemma same_swap e1 e2 evs : apart e1 e2 -> same_effect (e1 :: e2 :: evs) (e2 :: e1 :: evs).
Proof.
  intros Ha tab errs errs' r Hp H.
  assert (K : exists ta ea ea', ideal_events scan [e1; e2] (tab, errs) = Ok (ta, ea) /\ ideal_events scan [e2; e1] (tab, errs') = Ok (ta, ea') /\ Permutation ea ea' /\
    ideal_events scan evs (ta, ea) = Ok r).
  { cbn [ideal_events] in H |- *. apply bind_ok in H as ([t1 x1] & H1 & H). apply bind_ok in H as ([t2 x2] & H2 & H). rewrite H1. cbn [bind]. rewrite H2. cbn [bind]. exists t2, x2.
    assert (Ps : forall (a b : list err), Permutation ((errs ++ a) ++ b) ((errs' ++ b) ++ a)).
    { intros a b. rewrite <- !app_assoc. apply Permutation_app; auto. apply Permutation_app_comm. }
    destruct e1 as [i v|c v], e2 as [j w|d w]; cbn [ideal_event apart] in *.
    - destruct (nth_error tab i) as [e|] eqn:Ei; [|discriminate]. destruct (scan (e_hdr e) (e_body e)) as [f|] eqn:Es.
      + apply bind_ok in H1 as ([b c] & Ef & H1). injection H1 as <- <-. rewrite nth_error_lupd_neq in H2 by auto.
        destruct (nth_error tab j) as [e'|] eqn:Ej; [|discriminate]. destruct (scan (e_hdr e') (e_body e')) as [g|] eqn:Es'.
        * apply bind_ok in H2 as ([b' c'] & Eg & H2). injection H2 as <- <-. rewrite Eg. cbn [bind ideal_event]. rewrite nth_error_lupd_neq by auto. rewrite Ei, Es, Ef. cbn [bind ideal_event].
          eexists. split; [reflexivity|]. split; [rewrite lupd_comm by auto; reflexivity|]. split; [|exact H].
          specialize (Ps (if c =? 0 then [] else [mk_err (PEntry i) c v]) (if c' =? 0 then [] else [mk_err (PEntry j) c' w])).
          destruct (c =? 0), (c' =? 0); rewrite ?app_nil_r in Ps; exact Ps.
        * injection H2 as <- <-. cbn [bind ideal_event]. rewrite Ei, Es, Ef. cbn [bind ideal_event]. eexists. split; [reflexivity|]. split; [reflexivity|]. split; [|exact H].
          destruct (c =? 0); auto. apply Permutation_app_tail, Hp.
      + injection H1 as <- <-. destruct (nth_error tab j) as [e'|] eqn:Ej; [|discriminate]. destruct (scan (e_hdr e') (e_body e')) as [g|] eqn:Es'.
        * apply bind_ok in H2 as ([b' c'] & Eg & H2). injection H2 as <- <-. rewrite Eg. cbn [bind ideal_event]. rewrite nth_error_lupd_neq by auto. rewrite Ei, Es. cbn [bind ideal_event].
          eexists. split; [reflexivity|]. split; [reflexivity|]. split; [|exact H]. destruct (c' =? 0); auto. apply Permutation_app_tail, Hp.
        * injection H2 as <- <-. cbn [bind ideal_event]. rewrite Ei, Es. eexists. split; [reflexivity|]. split; [reflexivity|]. split; [|exact H]. auto.
    - destruct (nth_error tab i) as [e|] eqn:Ei; [|discriminate]. destruct (scan (e_hdr e) (e_body e)) as [f|] eqn:Es.
      + apply bind_ok in H1 as ([b c] & Ef & H1). injection H1 as <- <-. injection H2 as <- <-. cbn [bind ideal_event]. rewrite Ei, Es, Ef. cbn [bind ideal_event].
        eexists. split; [reflexivity|]. split; [reflexivity|]. split; [|exact H].
        specialize (Ps (if c =? 0 then [] else [mk_err (PEntry i) c v]) [mk_err PEnd d w]). destruct (c =? 0); rewrite ?app_nil_r in Ps; exact Ps.
      + injection H1 as <- <-. injection H2 as <- <-. cbn [bind ideal_event]. rewrite Ei, Es. eexists. split; [reflexivity|]. split; [reflexivity|]. split; [|exact H]. apply Permutation_app_tail, Hp.
    - injection H1 as <- <-. destruct (nth_error tab j) as [e|] eqn:Ej; [|discriminate]. destruct (scan (e_hdr e) (e_body e)) as [f|] eqn:Es.
      + apply bind_ok in H2 as ([b c'] & Ef & H2). injection H2 as <- <-. rewrite Ef. cbn [bind ideal_event].
        eexists. split; [reflexivity|]. split; [reflexivity|]. split; [|exact H].
        specialize (Ps [mk_err PEnd c v] (if c' =? 0 then [] else [mk_err (PEntry j) c' w])). destruct (c' =? 0); rewrite ?app_nil_r in Ps; exact Ps.
      + injection H2 as <- <-. cbn [bind ideal_event]. eexists. split; [reflexivity|]. split; [reflexivity|]. split; [|exact H]. apply Permutation_app_tail, Hp.
    - injection H1 as <- <-. injection H2 as <- <-. cbn [bind ideal_event]. eexists. split; [reflexivity|]. split; [reflexivity|]. split; [|exact H]. apply Ps. }
  destruct K as (ta & ea & ea' & E1 & E2 & Hp' & Hr). destruct (same_refl evs ta ea ea' r Hp' Hr) as (r' & Hr' & F & P).
  exists r'. split; auto. change (e2 :: e1 :: evs) with ([e2; e1] ++ evs). rewrite ideal_events_app, E2. cbn [bind]. exact Hr'.
Qed.
Lemma same_front x : forall p q, (forall y, In y p -> apart x y) -> same_effect (x :: p ++ q) (p ++ x :: q).
Proof.
  induction p as [|y p IH]; intros q H; [apply same_refl|]. cbn [app]. eapply same_trans; [apply same_swap; apply H; left; auto|].
  apply same_cons, IH. intros z Hz. apply H. right. auto.
Qed.
Lemma rearranged_same : forall evs evs', rearranged evs evs' -> same_effect evs evs'.
Proof.
  induction evs as [|x evs IH]; intros evs' [Ho Hm].
  - assert (evs' = []) as ->; [|apply same_refl]. destruct evs' as [|[i v|c v] evs']; auto; exfalso.
    + specialize (Ho i). cbn in Ho. rewrite Nat.eqb_refl in Ho. discriminate.
    + apply Permutation_nil in Hm. discriminate.
  - assert (K : exists p q, evs' = p ++ x :: q /\ (forall y, In y p -> apart x y) /\ rearranged evs (p ++ q)).
    { destruct x as [i v|c v].
      - assert (S : forall l vs, occurrences i l = v :: vs -> exists p q, l = p ++ EvScan i v :: q /\ occurrences i p = [] /\ occurrences i q = vs).
        { clear. induction l as [|[j w|c w] l IH]; intros vs H; [discriminate| |].
          - cbn in H. destruct (Nat.eqb_spec j i) as [->|Hn].
            + injection H as -> H. exists [], l. auto.
            + cbn in H. destruct (IH _ H) as (p & q & -> & Hp & Hq). exists (EvScan j w :: p), q. split; [reflexivity|]. split; auto. cbn. destruct (Nat.eqb_spec j i); [contradiction|auto].
          - destruct (IH _ H) as (p & q & -> & Hp & Hq). exists (EvErr c w :: p), q. auto. }
        pose proof (Ho i) as Hi. cbn in Hi. rewrite Nat.eqb_refl in Hi. cbn in Hi. symmetry in Hi. destruct (S _ _ Hi) as (p & q & -> & Hp & Hq). exists p, q. split; auto. split.
        + intros [j w|c w] Hy; cbn; auto. intros <-. assert (In w (occurrences i p)); [|rewrite Hp in H; contradiction].
          unfold occurrences. apply in_flat_map. exists (EvScan i w). split; auto. rewrite Nat.eqb_refl. left. auto.
        + split.
          * intros j. pose proof (Ho j) as Hj. rewrite occurrences_app in Hj |- *. change (EvScan i v :: evs) with ([EvScan i v] ++ evs) in Hj.
            change (EvScan i v :: q) with ([EvScan i v] ++ q) in Hj. rewrite !occurrences_app in Hj. destruct (Nat.eq_dec i j) as [E|Hn].
            { subst j. rewrite Hp in Hj |- *. cbn [app] in Hj |- *. apply app_inv_head in Hj. exact Hj. }
            assert (E : occurrences j [EvScan i v] = []) by (cbn; destruct (Nat.eqb_spec i j); [contradiction|reflexivity]). rewrite E in Hj. exact Hj.
          * rewrite mistakes_app in Hm |- *. exact Hm.
      - cbn in Hm. assert (Hin : In (c, v) (mistakes evs')) by (eapply Permutation_in; [exact Hm|left; auto]).
        unfold mistakes in Hin. apply in_flat_map in Hin as ([j w|d w] & Hy & Hin); [contradiction|]. destruct Hin as [[= -> ->]|[]].
        apply in_split in Hy as (p & q & ->). exists p, q. split; auto. split; [intros y _; exact I|]. split.
        + intros j. rewrite (Ho j : occurrences j evs = _), !occurrences_app. reflexivity.
        + rewrite mistakes_app in Hm |- *. cbn in Hm. eapply Permutation_cons_app_inv. exact Hm. }
    destruct K as (p & q & -> & Ha & Hr). eapply same_trans; [|apply same_front; exact Ha]. apply same_cons, IH, Hr.
Qed.

(** The whole parse. *)
Lemma rearranged_parse evs evs' pos tab tab' errs : rearranged evs evs' -> ideal_parse scan check reset evs pos tab = Ok (tab', errs) ->
  exists errs', ideal_parse scan check reset evs' pos tab = Ok (tab', errs') /\ Permutation errs errs'.
Proof.
  intros Hr H. unfold ideal_parse in *. apply bind_ok in H as (t0 & E0 & H). rewrite E0. cbn [bind]. apply bind_ok in H as ([t1 e1] & E1 & H).
  destruct (rearranged_same _ _ Hr t0 [] [] _ (perm_nil _) E1) as ([t1' e1'] & E1' & F & P). cbn [fst snd] in *. subst t1'. rewrite E1'. cbn [bind].
  apply bind_ok in H as ([t2 e2] & E2 & H). rewrite E2. cbn [bind]. injection H as <- <-. eexists. split; [reflexivity|].
  assert (P' : Permutation (e1 ++ e2) (e1' ++ e2)) by (apply Permutation_app_tail, P).
  destruct (e1 ++ e2) eqn:X.
  - apply Permutation_nil in P'. rewrite P'. auto.
  - destruct (e1' ++ e2) eqn:Y; [apply Permutation_sym, Permutation_nil in P'; discriminate|]. auto.
Qed.

(** The table and the return value are the same, and so are the errors, in another order; of too many errors different ones may
    be recorded. *)
Definition same_but_order (cap : Z) (o1 o2 : list (entry B) * Z * list err) : Prop :=
  fst (fst o1) = fst (fst o2) /\ snd (fst o1) = snd (fst o2) /\
  exists errs1 errs2, Permutation errs1 errs2 /\ snd o1 = shown cap errs1 /\ snd o2 = shown cap errs2.
Definition parsed_but_order (posix : bool) (t : list hdr) (args1 args2 : list str) : Prop :=
  forall cap tab, map e_hdr tab = t -> forall jo jc jp fuel argv h s en a0 jo' jc' jp' fuel' argv' h' s' en' a0',
  call cap tab en h argv a0 args1 fuel -> call cap tab en' h' argv' a0' args2 fuel' ->
  forall o1, observe (parse posix jo jc jp fuel (zlen (a0 :: args1)) argv h s tab en) = Ok o1 ->
  exists o2, observe (parse posix jo' jc' jp' fuel' (zlen (a0' :: args2)) argv' h' s' tab en') = Ok o2 /\ same_but_order cap o1 o2.

Theorem C63_rearranged :
  forall posix t args1 args2 evs1 evs2 pos,
  read_args posix t args1 = (evs1, Finished pos) -> read_args posix t args2 = (evs2, Finished pos) -> rearranged evs1 evs2 ->
  parsed_but_order posix t args1 args2.
Proof.
  intros posix t args1 args2 evs1 evs2 pos H1 H2 Hr cap tab <- jo jc jp fuel argv h s en a0 jo' jc' jp' fuel' argv' h' s' en' a0' C1 C2 o1 Ho.
  rewrite (one_pass scan check reset _ _ _ _ _ _ _ _ _ _ _ _ _ _ _ C1 H1) in Ho. apply bind_ok in Ho as ([t1 e1] & E1 & Ho). injection Ho as <-.
  destruct (rearranged_parse _ _ _ _ _ _ Hr E1) as (e2 & E2 & P).
  rewrite (one_pass scan check reset _ _ _ _ _ _ _ _ _ _ _ _ _ _ _ C2 H2), E2. cbn [bind]. eexists. split; [reflexivity|].
  unfold same_but_order, visible. cbn [fst snd]. split; auto. split; [unfold zlen; rewrite (Permutation_length P); auto|]. eauto.
Qed.

(** Two neighbouring groups of options, complete with their values, that have no entry in common can be exchanged, anywhere in a
    command line. *)
Definition disjoint (ev1 ev2 : list event) : Prop := forall i, occurrences i ev1 = [] \/ occurrences i ev2 = [].
Theorem C63_exchange :
  forall posix t l g1 ev1 g2 ev2 post,
  Forall (good_item t) l -> (posix = true -> positionals l = []) -> option_item t g1 ev1 -> option_item t g2 ev2 -> disjoint ev1 ev2 ->
  parsed_but_order posix t (cmdline l ++ g1 ++ g2 ++ post) (cmdline l ++ g2 ++ g1 ++ post).
Proof.
  intros posix t l g1 ev1 g2 ev2 post Hl Hpx G1 G2 Hd cap tab Ht jo jc jp fuel argv h s en a0 jo' jc' jp' fuel' argv' h' s' en' a0' C1 C2 o1 Ho.
  subst t. set (t := map e_hdr tab) in *.
  destruct (read_args posix t post) as [evs [pos|]] eqn:Hr.
  - assert (R : forall ga gb ea eb, option_item t ga ea -> option_item t gb eb ->
      read_args posix t (cmdline l ++ ga ++ gb ++ post) = (events l ++ ea ++ eb ++ evs, Finished (positionals l ++ pos))).
    { intros ga gb ea eb Ga Gb. apply read_context; auto. rewrite (read_item posix t gb eb), Hr by auto. reflexivity. }
    eapply (C63_rearranged posix t _ _ _ _ _ (R _ _ _ _ G1 G2) (R _ _ _ _ G2 G1)); eauto. split.
    + intros i. rewrite !occurrences_app. destruct (Hd i) as [-> | ->]; cbn [app]; rewrite ?app_nil_r; reflexivity.
    + rewrite !mistakes_app. apply Permutation_app_head. rewrite !app_assoc. apply Permutation_app_tail, Permutation_app_comm.
  - exfalso. destruct (finished_of_ok scan check reset _ _ _ _ _ _ _ _ _ _ _ _ _ _ C1 Ho) as (x & y & E). fold t in E.
    assert (K : snd (read_args posix t (cmdline l ++ g1 ++ g2 ++ post)) = Hangs).
    { destruct posix; [rewrite read_options_posix by auto|rewrite read_items by auto]; rewrite (read_item _ t g1 ev1), (read_item _ t g2 ev2), Hr by auto; reflexivity. }
    rewrite E in K. discriminate.
Qed.
End Generic.

(** ** Spelling *)
Section Spelling.
Context {B : Type}.
Context (scan : hdr -> B -> option (option str -> res (B * Z))).
Context (check : hdr -> B -> option Z).
Context (reset : hdr -> B -> res B).

Lemma occurrences_evs i os : occurrences i (evs_of os) = given_to i os.
Proof. unfold occurrences, evs_of, given_to. induction os as [|o os IH]; [reflexivity|]. cbn [map flat_map]. rewrite IH. reflexivity. Qed.
Lemma mistakes_evs os : mistakes (evs_of os) = [].
Proof. induction os as [|o os IH]; auto. Qed.

(** Well-formed command lines (CommandSpec.v) that give every option the same values in the same order, and the same positional
    arguments: the order of options of different entries does not matter. *)
Theorem C63_same_values :
  forall posix t args1 args2 os1 os2 pos,
  spells t posix args1 os1 pos -> spells t posix args2 os2 pos -> (forall i, given_to i os1 = given_to i os2) ->
  parsed_but_order scan check reset posix t args1 args2.
Proof.
  intros posix t args1 args2 os1 os2 pos H1 H2 Hg. eapply C63_rearranged; [apply spells_read; exact H1|apply spells_read; exact H2|]. split.
  - intros i. rewrite !occurrences_evs. apply Hg.
  - rewrite !mistakes_evs. constructor.
Qed.

(** C64. Two spellings of the same occurrences and positional arguments are parsed alike: short or long, abbreviated or not, in a
    cluster or one by one, with the value attached or in the next argument, options before, between or behind the positional
    arguments. *)
Theorem C64_spelling :
  forall posix t args1 args2 os pos, spells t posix args1 os pos -> spells t posix args2 os pos ->
  parsed_alike scan check reset posix t args1 args2.
Proof. intros posix t args1 args2 os pos H1 H2. eapply alike; apply spells_read; eauto. Qed.

(** The canonical spelling: --name or --name=value for every occurrence, with names chosen by [nm], then -- and the positional
    arguments. *)
Definition canonical_option (nm : nat -> str) (o : occurrence) : str :=
  lit "--" ++ nm (fst o) ++ match snd o with Some v => "="%char :: v | None => [] end.
Definition canonical (nm : nat -> str) (os : list occurrence) (pos : list str) : list str :=
  map (canonical_option nm) os ++ lit "--" :: pos.
(** [nameable t nm o]: the name chosen selects the entry, and the long option takes a value, or none, as the occurrence does. *)
Definition nameable (t : list hdr) (nm : nat -> str) (o : occurrence) : Prop :=
  nm (fst o) <> [] /\ ~ In "="%char (nm (fst o)) /\ exists h, selects t (nm (fst o)) (fst o) h /\
  match snd o with
  | None => long_takes h <> TReq
  | Some v => long_takes h <> TNo /\ (h_hasvalue h = true -> v <> [])
  end.
Lemma canonical_spells posix t nm os pos : Forall (nameable t nm) os -> spells t posix (canonical nm os pos) os pos.
Proof.
  unfold canonical. induction 1 as [|[i v] os (Hn & He & h & Hs & Hv) Hos IH]; cbn [map app]; [constructor|]. cbn [fst snd] in *.
  change ((i, v) :: os) with ([(i, v)] ++ os).
  set (body := nm i ++ match v with Some v => "="%char :: v | None => [] end).
  assert (Hb : body <> []) by (unfold body; destruct (nm i); [contradiction|discriminate]).
  change (canonical_option nm (i, v) :: map (canonical_option nm) os ++ lit "--" :: pos) with (("-"%char :: "-"%char :: body) :: [] ++ map (canonical_option nm) os ++ lit "--" :: pos).
  apply sp_option; auto; [discriminate|intros [= E]; contradiction|]. apply cl_long; auto. unfold body. destruct v as [v|].
  - destruct Hv. eapply lo_equals; eauto.
  - rewrite app_nil_r. eapply lo_bare; eauto.
Qed.
Theorem C64_canonical :
  forall posix posix' t nm args os pos, spells t posix args os pos -> Forall (nameable t nm) os ->
  spells t posix' (canonical nm os pos) os pos /\ parsed_alike scan check reset posix t args (canonical nm os pos).
Proof.
  intros posix posix' t nm args os pos H Hn. split; [apply canonical_spells; auto|]. eapply C64_spelling; [exact H|]. apply canonical_spells; auto.
Qed.
End Spelling.

(** ** Examples *)
Local Open Scope string_scope.
Local Open Scope list_scope.
Local Open Scope Z_scope.
Notation exs := (kscan ExTable.strtod ExTable.rexmatch Long64 unix_seps).
Definition obs (l : list string) := observe (ExTable.run l).
(** A value and a switch can be exchanged. *)
Lemma ex_item_n : option_item ExTable.hdrs (map lit ["-n"; "5"]) [EvScan 1 (ExTable.o "5")].
Proof. apply item_value; [reflexivity|discriminate|reflexivity]. Qed.
Lemma ex_item_v : option_item ExTable.hdrs (map lit ["-xv"]) [EvErr (sc "x") None; EvScan 0 None].
Proof. apply item_alone; [reflexivity|discriminate|reflexivity]. Qed.
Example C63_case : disjoint [EvScan 1 (ExTable.o "5")] [EvErr (sc "x") None; EvScan 0 None] /\
  parsed_but_order exs kcheck kreset false ExTable.hdrs (map lit ["a"] ++ map lit ["-n"; "5"] ++ map lit ["-xv"] ++ map lit ["-nq"]) (map lit ["a"] ++ map lit ["-xv"] ++ map lit ["-n"; "5"] ++ map lit ["-nq"]).
Proof.
  assert (Hd : disjoint [EvScan 1 (ExTable.o "5")] [EvErr (sc "x") None; EvScan 0 None]).
  { intros [|[|i]]; cbn; auto. }
  split; auto. apply (C63_exchange exs kcheck kreset false ExTable.hdrs [Positional (lit "a")] _ _ _ _ (map lit ["-nq"]) ltac:(repeat constructor) ltac:(discriminate) ex_item_n ex_item_v Hd).
Qed.
(** The errors come in another order when both groups have some. *)
Example C63_case_errors : exists t, obs ["p"; "-nq"; "-x"; "a"] = Ok (t, 2, [mk_err (PEntry 1) ARG_ERR_BADINT (ExTable.o "q"); mk_err PEnd (sc "x") None]) /\
  obs ["p"; "-x"; "-nq"; "a"] = Ok (t, 2, [mk_err PEnd (sc "x") None; mk_err (PEntry 1) ARG_ERR_BADINT (ExTable.o "q")]).
Proof. eexists. split; vm_compute; reflexivity. Qed.
(** For the values of one entry the order does matter. *)
Example C63_case_same_entry : obs ["p"; "-n1"; "-n2"; "a"] <> obs ["p"; "-n2"; "-n1"; "a"].
Proof. vm_compute. discriminate. Qed.
(** Six spellings of the same. *)
Definition ex_os : list occurrence := [(0%nat, None); (1%nat, ExTable.o "5")].
Definition ex_names (i : nat) : str := nth i (map lit ["verbose"; "num"; "output"]) [].
Lemma ex_spellings : Forall (fun l => spells ExTable.hdrs false (map lit l) ex_os (map lit ["a"]))
  [["-vn5"; "a"]; ["-v"; "a"; "-n"; "5"]; ["a"; "-vn"; "5"]; ["--verb"; "--nu=5"; "a"]; ["-v"; "--num"; "5"; "--"; "a"]; ["--verbose"; "--num=5"; "--"; "a"]].
Proof. repeat (apply Forall_cons; [apply spells_iff; vm_compute; reflexivity|]). constructor. Qed.
Example C64_case : canonical ex_names ex_os (map lit ["a"]) = map lit ["--verbose"; "--num=5"; "--"; "a"] /\ Forall (nameable ExTable.hdrs ex_names) ex_os.
Proof.
  split; [reflexivity|]. repeat constructor; try discriminate; try (cbn; intuition discriminate).
  - eexists. split; [apply long_find_iff; vm_compute; reflexivity|]. discriminate.
  - eexists. split; [apply long_find_iff; vm_compute; reflexivity|]. split; [discriminate|]. discriminate.
Qed.

Print Assumptions C63_rearranged.
Print Assumptions C63_exchange.
Print Assumptions C63_same_values.
Print Assumptions C64_spelling.
Print Assumptions C64_canonical.
