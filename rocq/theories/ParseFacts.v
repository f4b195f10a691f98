(** Facts about the specification of command-line reading (ParseSpec.v). *)
From Verif Require Import Base ParseModel ParseSpec LongOnlySpec ParseIdeal.
From Coq Require Import ZArith List Ascii String Bool Lia.
Import ListNotations.
Open Scope Z_scope.

(** ** Number of events *)
Fixpoint total (args : list str) : nat :=
  match args with [] => 0 | a :: r => List.length a + total r end.

Lemma long_occurrence_len i h v a : (List.length (long_occurrence i h v a) <= 2)%nat.
Proof. unfold long_occurrence. destruct v as [[|? ?]|]; [destruct (h_hasvalue h)|..]; cbn; lia. Qed.
Lemma read_found_len f a body next : (List.length (fst (read_found f a body next)) <= 2)%nat.
Proof.
  unfold read_found. destruct f as [i h| |]; [|cbn; lia|cbn; lia].
  destruct (long_takes h), (value_part body), next; cbn [fst]; try apply long_occurrence_len; cbn; lia.
Qed.
Lemma read_cluster_in_len lo t a next : forall cs, (List.length (fst (read_cluster_in lo t a cs next)) <= S (List.length cs))%nat.
Proof.
  induction cs as [|c cs IH]; cbn [read_cluster_in List.length]; [cbn; lia|].
  destruct (ceqb c "-").
  - destruct cs as [|c' cs']; [cbn; lia|]. pose proof (read_found_len (long_lookup lo false t (name_part (c' :: cs'))) a (c' :: cs') next).
    destruct (read_found _ a (c' :: cs') next) as [ev u]. cbn [fst List.length] in *. lia.
  - destruct (if lo then as_long t a (c :: cs) next else None) as [[ev u]|] eqn:EA.
    { destruct lo; [|discriminate].
      assert (HE : exists f, read_found f a (c :: cs) next = (ev, u)).
      { unfold as_long in EA. destruct (long_lookup _ _ _ _) as [i h| |]; [eexists (Is i h)|exists Ambiguous|exists Unknown; destruct (declared _ _); [discriminate|]]; congruence. }
      destruct HE as [f HE]. pose proof (read_found_len f a (c :: cs) next) as HF. rewrite HE in HF. cbn [fst] in *. lia. }
    destruct (short_find t 0 c) as [[i h]|].
    + destruct (short_takes h).
      * destruct (read_cluster_in lo t a cs next) as [ev r]. cbn in *. lia.
      * destruct cs; [destruct next|]; cbn; lia.
      * cbn. lia.
    + destruct (read_cluster_in lo t a cs next) as [ev r]. cbn in *. lia.
Qed.
Lemma is_positional_false a : is_positional a = false -> exists c r, a = "-"%char :: c :: r.
Proof.
  destruct a as [|x [|c r]]; try discriminate. cbn. intros H. apply negb_false_iff, ceqb_eq in H. subst. eauto.
Qed.
Lemma read_args_in_len' lo px t n : forall args, (List.length args <= n)%nat ->
  (List.length (fst (read_args_in lo px t args)) <= total args)%nat.
Proof.
  induction n; intros args Hn.
  { destruct args; [cbn; lia|cbn in Hn; lia]. }
  destruct args as [|a rest]; [cbn; lia|]. cbn [read_args_in total]. cbn [List.length] in Hn.
  destruct (is_positional a) eqn:Ep.
  - destruct px; [cbn; lia|]. unfold add_positional. cbn [fst]. pose proof (IHn rest ltac:(lia)). lia.
  - destruct (str_eqb a (lit "--")); [cbn; lia|].
    pose proof (read_cluster_in_len lo t a (hd_error rest) (tl a)) as Hc.
    assert (Hta : (S (List.length (tl a)) <= List.length a)%nat) by (destruct a; cbn in *; [discriminate|lia]).
    destruct (read_cluster_in lo t a (tl a) (hd_error rest)) as [ev [[|]|]]; cbn [fst] in Hc.
    + destruct rest as [|v rest']; [cbn; lia|]. unfold prepend. cbn [fst]. rewrite app_length. cbn [List.length] in Hn.
      pose proof (IHn rest' ltac:(lia)). cbn [total]. lia.
    + unfold prepend. cbn [fst]. rewrite app_length. pose proof (IHn rest ltac:(lia)). lia.
    + cbn. lia.
Qed.
Lemma read_args_in_len lo px t args : (List.length (fst (read_args_in lo px t args)) <= total args)%nat.
Proof. apply (read_args_in_len' lo px t (List.length args)). auto. Qed.
Lemma read_args_len px t args : (List.length (fst (read_args px t args)) <= total args)%nat.
Proof. rewrite <- read_args_default. apply read_args_in_len. Qed.

(** ** What the events carry *)
(** Every value is an argument or a suffix of one. *)
Section Carry.
Context (P : str -> Prop) (Ptl : forall c s, P (c :: s) -> P s).
Definition carries (ev : event) : Prop :=
  match ev with EvScan _ (Some v) => P v | _ => True end.
Lemma value_part_cstr s v : P s -> value_part s = Some v -> P v.
Proof.
  induction s as [|c s IH]; cbn; [discriminate|]. intros Hs. destruct (ceqb c "=").
  - intros [= <-]. eapply Ptl; eauto.
  - apply IH. eapply Ptl; eauto.
Qed.
Lemma long_occurrence_cstr i h v a : (forall s, v = Some s -> P s) -> P a -> Forall carries (long_occurrence i h v a).
Proof.
  intros Hv Ha. unfold long_occurrence. destruct v as [[|x y]|]; [destruct (h_hasvalue h)|..]; repeat constructor; cbn; auto.
Qed.
Lemma read_long_cstr t a body next : P a -> P body -> (forall v, next = Some v -> P v) ->
  Forall carries (fst (read_long t a body next)).
Proof.
  intros Ha Hb Hn. unfold read_long.
  destruct (long_find t (name_part body)) as [[i h]|]; [|repeat constructor; auto].
  pose proof (value_part_cstr body) as Hv.
  destruct (long_takes h), (value_part body) as [v|], next as [w|]; cbn [fst];
    try (repeat constructor; auto; fail); apply long_occurrence_cstr; auto; try discriminate;
    intros s E; injection E as <-; auto.
Qed.
Lemma read_cluster_cstr t a next : P a -> (forall v, next = Some v -> P v) ->
  forall cs, P cs -> Forall carries (fst (read_cluster t a cs next)).
Proof.
  intros Ha Hn. induction cs as [|c cs IH]; intros Hcs; cbn [read_cluster]; [constructor|].
  pose proof (Ptl _ _ Hcs) as Hcs'. destruct (ceqb c "-").
  - destruct cs as [|c' cs']; [constructor|]. pose proof (read_long_cstr t a (c' :: cs') next Ha Hcs' Hn).
    destruct (read_long t a (c' :: cs') next) as [ev u]. auto.
  - destruct (short_find t 0 c) as [[i h]|].
    + destruct (short_takes h).
      * specialize (IH Hcs'). destruct (read_cluster t a cs next) as [ev r]. constructor; cbn; auto.
      * destruct cs; [destruct next|]; repeat constructor; cbn; auto.
      * destruct cs; repeat constructor; cbn; auto.
    + specialize (IH Hcs'). destruct (read_cluster t a cs next) as [ev r]. constructor; cbn; auto.
Qed.
Lemma read_args_carries' px t n : forall args, (List.length args <= n)%nat -> Forall P args ->
  Forall carries (fst (read_args px t args)) /\
  (forall pos, snd (read_args px t args) = Finished pos -> Forall P pos).
Proof.
  induction n; intros args Hn Hc.
  { destruct args; [|cbn in Hn; lia]. cbn. split; [constructor|]. intros ? [= <-]. constructor. }
  destruct args as [|a rest].
  { cbn. split; [constructor|]. intros ? [= <-]. constructor. }
  cbn [read_args]. cbn [List.length] in Hn. inversion_clear Hc as [|? ? Ha Hr].
  destruct (is_positional a) eqn:Ep.
  - destruct px.
    + cbn. split; [constructor|]. intros ? [= <-]. constructor; auto.
    + destruct (IHn rest ltac:(lia) Hr) as [H1 H2]. unfold add_positional. cbn [fst snd]. split; auto.
      destruct (snd (read_args false t rest)); intros pos [= <-]. constructor; auto.
  - destruct (str_eqb a (lit "--")).
    { cbn. split; [constructor|]. intros ? [= <-]. auto. }
    assert (Hnext : forall v, hd_error rest = Some v -> P v).
    { destruct Hr; cbn; [discriminate|]. intros ? [= <-]. auto. }
    assert (Hta : P (tl a)) by (destruct a; [auto|eapply Ptl; eauto]).
    pose proof (read_cluster_cstr t a (hd_error rest) Ha Hnext (tl a) Hta) as Hcl.
    destruct (read_cluster t a (tl a) (hd_error rest)) as [ev [[|]|]]; cbn [fst] in Hcl.
    + destruct rest as [|v rest'].
      { cbn. split; auto. intros ? [= <-]. constructor. }
      inversion_clear Hr. cbn [List.length] in Hn. destruct (IHn rest' ltac:(lia)) as [H1 H2]; auto.
      unfold prepend. cbn [fst snd]. split; auto. apply Forall_app. auto.
    + destruct (IHn rest ltac:(lia) Hr) as [H1 H2]. unfold prepend. cbn [fst snd]. split; auto. apply Forall_app. auto.
    + cbn. split; auto. discriminate.
Qed.
Lemma read_args_carries px t args evs pos : Forall P args -> read_args px t args = (evs, Finished pos) ->
  Forall carries evs /\ Forall P pos.
Proof.
  intros H E. destruct (read_args_carries' px t (List.length args) args) as [H1 H2]; auto. rewrite E in *. cbn in *. split; auto.
Qed.
End Carry.

(** ** Looking up short options *)
Definition first_declaring (t : list hdr) (c : ascii) (i : nat) (h : hdr) : Prop :=
  nth_error t i = Some h /\ declares c h = true /\
  forall j h', (j < i)%nat -> nth_error t j = Some h' -> declares c h' = false.
Lemma short_find_some t c : forall k i h, short_find t k c = Some (i, h) -> exists j, i = (k + j)%nat /\ first_declaring t c j h.
Proof.
  induction t as [|h0 t IH]; cbn; intros k i h; [discriminate|]. destruct (declares c h0) eqn:Ed.
  - intros [= <- <-]. exists 0%nat. split; [lia|]. repeat split; auto. intros; lia.
  - intros H. apply IH in H as (j & -> & H1 & H2 & H3). exists (S j). split; [lia|]. repeat split; auto.
    intros [|j'] h' Hj; cbn; [congruence|]. apply H3. lia.
Qed.
Lemma short_find_none t c : forall k, short_find t k c = None <-> forall h, In h t -> declares c h = false.
Proof.
  induction t as [|h0 t IH]; cbn; intros k.
  - split; auto. intros _ h [].
  - destruct (declares c h0) eqn:Ed.
    + split; [discriminate|]. intros H. rewrite H in Ed by auto. discriminate.
    + rewrite IH. split; [intros H h [<-|Hi]; auto|intros H h Hi; auto].
Qed.
Lemma short_find_iff t c i h : short_find t 0 c = Some (i, h) <-> first_declaring t c i h.
Proof.
  split.
  - intros H. apply short_find_some in H as (j & -> & H). exact H.
  - intros (H1 & H2 & H3). destruct (short_find t 0 c) as [[i' h']|] eqn:E.
    + apply short_find_some in E as (j & -> & E1 & E2 & E3). cbn.
      destruct (Nat.lt_trichotomy i j) as [H|[->|H]].
      * specialize (E3 _ _ H H1). congruence.
      * congruence.
      * specialize (H3 _ _ H E1). congruence.
    + rewrite (proj1 (short_find_none t c 0) E h) in H2 by (eapply nth_error_In; eauto). discriminate.
Qed.

(** ** Hanging *)
(** Short options that do not end a cluster: unknown ones, and those taking no value. *)
Definition passes (t : list hdr) (c : ascii) : Prop :=
  c <> "-"%char /\ (short_find t 0 c = None \/ exists i h, short_find t 0 c = Some (i, h) /\ short_takes h = TNo).

Lemma read_cluster_hangs t a next : forall cs,
  snd (read_cluster t a cs next) = None <-> exists xs, cs = xs ++ lit "-" /\ Forall (passes t) xs.
Proof.
  induction cs as [|c cs IH]; cbn [read_cluster].
  - split; [discriminate|]. intros ([|? ?] & H & _); discriminate.
  - destruct (ceqb_spec c "-") as [->|Hc].
    + destruct cs as [|c' cs'].
      * split; auto. intros _. exists []. split; auto.
      * split.
        { destruct (read_long t a (c' :: cs') next). discriminate. }
        intros ([|x xs] & H & Hp); [discriminate|]. injection H as E _. inversion_clear Hp as [|? ? [Hx _] _]. congruence.
    + destruct (short_find t 0 c) as [[i h]|] eqn:Ef.
      * destruct (short_takes h) eqn:Et.
        { destruct (read_cluster t a cs next) as [ev r]. cbn [snd] in *. rewrite IH. split.
          - intros (xs & -> & Hx). exists (c :: xs). split; auto. constructor; auto. split; auto. right. eauto.
          - intros ([|x xs] & H & Hp); [injection H as -> _; contradiction|]. injection H as -> ->. inversion_clear Hp. eauto. }
        all: split; [destruct cs, next; discriminate|].
        all: intros ([|x xs] & H & Hp); [injection H as -> _; contradiction|]; injection H as -> ->;
             inversion_clear Hp as [|? ? [_ [Hn|(i' & h' & Hn & Ht)]] _]; [congruence|]; rewrite Ef in Hn; injection Hn as <- <-; congruence.
      * destruct (read_cluster t a cs next) as [ev r]. cbn [snd] in *. rewrite IH. split.
        { intros (xs & -> & Hx). exists (c :: xs). split; auto. constructor; auto. split; auto. }
        intros ([|x xs] & H & Hp); [injection H as -> _; contradiction|]. injection H as -> ->. inversion_clear Hp. eauto.
Qed.

(** An argument with the shape -x...- . *)
Definition dash_tailed (a : str) : Prop := exists x p, a = "-"%char :: x :: p ++ lit "-" /\ x <> "-"%char.
Lemma read_args_hangs' px t n : forall args, (List.length args <= n)%nat -> snd (read_args px t args) = Hangs -> exists a, In a args /\ dash_tailed a.
Proof.
  induction n; intros args Hn H.
  { destruct args; [discriminate|cbn in Hn; lia]. }
  destruct args as [|a rest]; [discriminate|]. cbn [read_args] in H. cbn [List.length] in Hn.
  assert (Rest : forall l, (List.length l <= n)%nat -> (forall x, In x l -> In x (a :: rest)) -> snd (read_args px t l) = Hangs -> exists a0, In a0 (a :: rest) /\ dash_tailed a0).
  { intros l Hl Hi Hh. destruct (IHn l Hl Hh) as (x & Hx & Hd). eauto. }
  destruct (is_positional a) eqn:Ep.
  - destruct px; [discriminate|]. unfold add_positional in H. cbn [snd] in H.
    destruct (snd (read_args false t rest)) eqn:E; [discriminate|]. apply (Rest rest); auto; [lia|]. intros; right; auto.
  - destruct (str_eqb a (lit "--")) eqn:Edd; [discriminate|].
    pose proof (read_cluster_hangs t a (hd_error rest) (tl a)) as Hc.
    destruct (read_cluster t a (tl a) (hd_error rest)) as [ev [[|]|]]; cbn [snd] in Hc.
    + destruct rest as [|v rest']; [discriminate|]. cbn [List.length] in Hn. apply (Rest rest'); auto; [lia|]. intros; right; right; auto.
    + apply (Rest rest); auto; [lia|]. intros; right; auto.
    + apply proj1 in Hc. destruct (Hc eq_refl) as (xs & E & Hp). exists a. split; [left; auto|].
      apply is_positional_false in Ep as (c & r & ->). cbn [tl] in E. destruct xs as [|x xs].
      * injection E as -> ->. discriminate Edd.
      * injection E as -> ->. inversion_clear Hp as [|? ? [Hx _] _]. exists x, xs. auto.
Qed.
Lemma read_args_hangs px t args : snd (read_args px t args) = Hangs -> exists a, In a args /\ dash_tailed a.
Proof. apply (read_args_hangs' px t (List.length args)). auto. Qed.

(** ** Complete items of a command line *)
(** [option_item t g evs]: the arguments [g] are one argument holding options, with the value it takes
    from the following argument if any, whatever comes after. *)
Inductive option_item (t : list hdr) : list str -> list event -> Prop :=
| item_alone a ev : is_positional a = false -> a <> lit "--" ->
    (forall next, read_cluster t a (tl a) next = (ev, Some false)) -> option_item t [a] ev
| item_value a v ev : is_positional a = false -> a <> lit "--" ->
    read_cluster t a (tl a) (Some v) = (ev, Some true) -> option_item t [a; v] ev.

Lemma str_eqb_neq a b : a <> b -> str_eqb a b = false.
Proof. intros H. destruct (str_eqb a b) eqn:E; auto. apply str_eqb_eq in E. contradiction. Qed.

Lemma read_item px t g ev rest : option_item t g ev -> read_args px t (g ++ rest) = prepend ev (read_args px t rest).
Proof.
  intros [a ev' Hp Hd Hr|a v ev' Hp Hd Hr]; cbn [app read_args]; rewrite Hp, (str_eqb_neq _ _ Hd).
  - rewrite Hr. reflexivity.
  - cbn [hd_error]. rewrite Hr. reflexivity.
Qed.

Inductive item := Positional (p : str) | Options (g : list str) (evs : list event).
Definition good_item (t : list hdr) (i : item) : Prop :=
  match i with Positional p => is_positional p = true | Options g evs => option_item t g evs end.
Definition item_args (i : item) : list str := match i with Positional p => [p] | Options g _ => g end.
Definition positionals (l : list item) : list str := List.concat (map (fun i => match i with Positional p => [p] | _ => [] end) l).
Definition option_args (l : list item) : list str := List.concat (map (fun i => match i with Options g _ => g | _ => [] end) l).
Definition events (l : list item) : list event := List.concat (map (fun i => match i with Options _ e => e | _ => [] end) l).
Definition cmdline (l : list item) : list str := List.concat (map item_args l).

Definition add_positionals (ps : list str) (r : list event * outcome) : list event * outcome :=
  (fst r, match snd r with Finished p => Finished (ps ++ p) | Hangs => Hangs end).
Lemma read_items t l rest : Forall (good_item t) l ->
  read_args false t (cmdline l ++ rest) = prepend (events l) (add_positionals (positionals l) (read_args false t rest)).
Proof.
  induction 1 as [|i l Hi Hl IH]; unfold cmdline, events, positionals; cbn [map List.concat app].
  - unfold prepend, add_positionals. cbn. destruct (read_args false t rest) as [e [p|]]; reflexivity.
  - fold (cmdline l) (events l) (positionals l). destruct i as [p|g ev]; cbn [item_args good_item] in *.
    + cbn [app read_args]. rewrite Hi, IH. unfold add_positional, prepend, add_positionals. cbn [fst snd].
      destruct (snd (read_args false t rest)); reflexivity.
    + rewrite <- app_assoc, (read_item false t g ev) by auto. rewrite IH. unfold prepend. cbn [fst snd app].
      rewrite app_assoc. reflexivity.
Qed.
(** With POSIXLY_CORRECT only a prefix of options is read. *)
Lemma read_options_posix px t l rest : Forall (good_item t) l -> positionals l = [] ->
  read_args px t (cmdline l ++ rest) = prepend (events l) (read_args px t rest).
Proof.
  induction 1 as [|i l Hi Hl IH]; unfold cmdline, events, positionals; cbn [map List.concat app]; intros Hp.
  - unfold prepend. destruct (read_args px t rest). reflexivity.
  - fold (cmdline l) (events l) in *. destruct i as [p|g ev]; cbn [item_args good_item] in *; [discriminate|].
    rewrite <- app_assoc, (read_item px t g ev) by auto. rewrite IH by auto. unfold prepend. cbn [fst snd]. rewrite app_assoc. reflexivity.
Qed.

Lemma prepend_app a b r : prepend a (prepend b r) = prepend (a ++ b) r.
Proof. unfold prepend. cbn. rewrite app_assoc. reflexivity. Qed.
