(** C73: the order of the options in a table is irrelevant. Exchanging neighbours of a table, at least one of them with options and
    with no option in common, changes nothing but the order in which missing options are reported. For any kinds of entries. *)
From Verif Require Import Base IntModel FileModel DateModel GetoptModel ParseModel ParseSpec GetoptProofs ParseIdeal ParseProofs ParseFacts ParseObserve ParseLemmas ArgModel KindsSpec CommandSpec CommandProofs.
From Verif Require ExTable.
From Coq Require Import ZArith List Ascii String Bool Lia Permutation.
Import ListNotations.
Open Scope Z_scope.

(** No option belongs to both. *)
Definition apart (h1 h2 : hdr) : Prop :=
  (forall c, declares c h1 = true -> declares c h2 = false) /\ (forall n, In n (hdr_names h1) -> ~ In n (hdr_names h2)).

(** [reordered t1 t2]: the table [t2] is [t1] in another order. Entries without options keep their order, and so do entries that
    share an option. *)
Inductive reordered {B} : list (entry B) -> list (entry B) -> Prop :=
| ro_same t : reordered t t
| ro_swap l x y r t : ~ (no_options (e_hdr x) /\ no_options (e_hdr y)) -> apart (e_hdr x) (e_hdr y) ->
    reordered (l ++ y :: x :: r) t -> reordered (l ++ x :: y :: r) t.

(** An error with the entry it is about (if it is not about the command line) instead of the number of the entry. *)
Definition culprit {B} (tab : list (entry B)) (e : err) : option (entry B) * Z * option str :=
  (match err_owner e with PEntry i => nth_error tab i | PEnd => None end, err_code e, err_argval e).

(** ** Exchanging two neighbours *)
Definition sw (k i : nat) : nat := if Nat.eqb i k then S k else if Nat.eqb i (S k) then k else i.
Fixpoint swp {A} (k : nat) (l : list A) : list A :=
  match k, l with
  | O, x :: y :: r => y :: x :: r
  | S k, x :: r => x :: swp k r
  | _, _ => l
  end.
Lemma swp_app {A} (l : list A) x y r : swp (List.length l) (l ++ x :: y :: r) = l ++ y :: x :: r.
Proof. induction l; cbn; congruence. Qed.
Lemma swp_map {A C} (f : A -> C) : forall k l, map f (swp k l) = swp k (map f l).
Proof. induction k as [|k IH]; intros [|x l]; auto; [destruct l; auto|]. cbn. rewrite IH. reflexivity. Qed.
Lemma swp_perm {A} : forall k (l : list A), Permutation l (swp k l).
Proof. induction k as [|k IH]; intros [|x l]; auto; [destruct l; cbn; auto using perm_swap|]. cbn. auto. Qed.
Lemma swp_length {A} k (l : list A) : List.length (swp k l) = List.length l.
Proof. symmetry. apply Permutation_length, swp_perm. Qed.
Lemma swp_combine {A C} : forall k (l : list A) (m : list C), List.length l = List.length m -> combine (swp k l) (swp k m) = swp k (combine l m).
Proof.
  induction k as [|k IH]; intros [|x l] [|y m] H; try discriminate; auto; cbn in H.
  - destruct l, m; try discriminate; auto.
  - cbn. rewrite IH by lia. reflexivity.
Qed.
Lemma sw_S k i : sw (S k) (S i) = S (sw k i).
Proof. unfold sw. cbn [Nat.eqb]. destruct (Nat.eqb i k), (Nat.eqb i (S k)); reflexivity. Qed.
Lemma sw_0 k : sw (S k) 0 = 0%nat.
Proof. reflexivity. Qed.
Lemma sw_sw k i : sw k (sw k i) = i.
Proof.
  unfold sw. destruct (Nat.eqb_spec i k) as [->|H1]; [rewrite Nat.eqb_refl; destruct (Nat.eqb_spec (S k) k); [lia|reflexivity]|].
  destruct (Nat.eqb_spec i (S k)) as [->|H2]; [rewrite Nat.eqb_refl; reflexivity|]. destruct (Nat.eqb_spec i k); [lia|]. destruct (Nat.eqb_spec i (S k)); [lia|reflexivity].
Qed.
Lemma sw_other k i : i <> k -> i <> S k -> sw k i = i.
Proof. intros H1 H2. unfold sw. destruct (Nat.eqb_spec i k); [lia|]. destruct (Nat.eqb_spec i (S k)); [lia|reflexivity]. Qed.
Lemma nth_swp {A} : forall k (l : list A) i, (S k < List.length l)%nat -> nth_error (swp k l) (sw k i) = nth_error l i.
Proof.
  induction k as [|k IH]; intros [|x l] i H; cbn in H; try lia.
  - destruct l as [|y l]; cbn in H; [lia|]. destruct i as [|[|i]]; reflexivity.
  - destruct i as [|i]; [reflexivity|]. rewrite sw_S. cbn [swp nth_error]. apply IH. lia.
Qed.
Lemma lupd_swp {A} : forall k (l : list A) i v, (S k < List.length l)%nat -> lupd (swp k l) (sw k i) v = swp k (lupd l i v).
Proof.
  induction k as [|k IH]; intros [|x l] i v H; cbn in H; try lia.
  - destruct l as [|y l]; cbn in H; [lia|]. destruct i as [|[|i]]; reflexivity.
  - destruct i as [|i]; [reflexivity|]. rewrite sw_S. cbn [swp lupd]. f_equal. apply IH. lia.
Qed.

(** ** Reading *)
Definition ren_event (f : nat -> nat) (ev : event) : event := match ev with EvScan i v => EvScan (f i) v | EvErr c v => EvErr c v end.
Definition ren_found (f : nat -> nat) (p : nat * hdr) : nat * hdr := (f (fst p), snd p).
Section Reading.
Context (f : nat -> nat) (t1 t2 : list hdr).
Hypothesis Hs : forall c, short_find t2 0 c = option_map (ren_found f) (short_find t1 0 c).
Hypothesis Hl : forall n, long_find t2 n = option_map (ren_found f) (long_find t1 n).
Notation ren := (map (ren_event f)).
Lemma ren_occurrence i h v a : long_occurrence (f i) h v a = ren (long_occurrence i h v a).
Proof. unfold long_occurrence. destruct v as [[|? ?]|]; auto. destruct (h_hasvalue h); auto. Qed.
Lemma ren_long a body next : read_long t2 a body next = (ren (fst (read_long t1 a body next)), snd (read_long t1 a body next)).
Proof.
  unfold read_long. rewrite Hl. destruct (long_find t1 (name_part body)) as [[i h]|]; cbn [option_map ren_found fst snd]; [|reflexivity].
  destruct (long_takes h), (value_part body), next; cbn [fst snd]; rewrite ?ren_occurrence; reflexivity.
Qed.
Lemma ren_cluster a next : forall cs, read_cluster t2 a cs next = (ren (fst (read_cluster t1 a cs next)), snd (read_cluster t1 a cs next)).
Proof.
  induction cs as [|c cs IH]; [reflexivity|]. cbn [read_cluster]. destruct (ceqb c "-").
  - destruct cs as [|c' cs']; [reflexivity|]. rewrite ren_long. destruct (read_long t1 a (c' :: cs') next); reflexivity.
  - rewrite Hs. destruct (short_find t1 0 c) as [[i h]|]; cbn [option_map ren_found fst snd].
    + destruct (short_takes h).
      * rewrite IH. destruct (read_cluster t1 a cs next); reflexivity.
      * destruct cs; [destruct next|]; reflexivity.
      * reflexivity.
    + rewrite IH. destruct (read_cluster t1 a cs next); reflexivity.
Qed.
Lemma ren_args' posix n : forall args, (List.length args <= n)%nat -> read_args posix t2 args = (ren (fst (read_args posix t1 args)), snd (read_args posix t1 args)).
Proof.
  induction n as [|n IH]; intros args Hn; [destruct args; [reflexivity|cbn in Hn; lia]|].
  destruct args as [|a rest]; [reflexivity|]. cbn [List.length] in Hn. cbn [read_args]. destruct (is_positional a).
  - destruct posix; [reflexivity|]. unfold add_positional. rewrite (IH rest) by lia. reflexivity.
  - destruct (str_eqb a (lit "--")); [reflexivity|]. rewrite ren_cluster. destruct (read_cluster t1 a (tl a) (hd_error rest)) as [ev [[|]|]]; cbn [fst snd].
    + destruct rest as [|v rest']; [reflexivity|]. cbn [List.length] in Hn. unfold prepend. rewrite (IH rest') by lia. cbn [fst snd]. rewrite map_app. reflexivity.
    + unfold prepend. rewrite (IH rest) by lia. cbn [fst snd]. rewrite map_app. reflexivity.
    + reflexivity.
Qed.
Lemma ren_args posix args evs out : read_args posix t1 args = (evs, out) -> read_args posix t2 args = (ren evs, out).
Proof. intros E. rewrite (ren_args' posix (List.length args)) by auto. rewrite E. reflexivity. Qed.
End Reading.

Section Lookup.
Context (k : nat) (t : list hdr) (hx hy : hdr).
Hypothesis Hk : (S k < List.length t)%nat.
Hypothesis Hx : nth_error t k = Some hx.
Hypothesis Hy : nth_error t (S k) = Some hy.
Hypothesis Ha : apart hx hy.
Lemma swp_back j h : nth_error (swp k t) j = Some h -> nth_error t (sw k j) = Some h.
Proof. intros E. rewrite <- (sw_sw k j) in E. rewrite nth_swp in E by auto. exact E. Qed.
(** Who was before [i] and now is not, or the reverse. *)
Lemma before_swp (P : hdr -> Prop) i h : nth_error t i = Some h -> (P hx -> ~ P hy) -> P h -> (forall j h', (j < i)%nat -> nth_error t j = Some h' -> ~ P h') ->
  forall j h', (j < sw k i)%nat -> nth_error (swp k t) j = Some h' -> ~ P h'.
Proof.
  intros Hi Hd Hp Hb j h' Hj Hn Hp'. apply swp_back in Hn. destruct (Nat.eq_dec i k) as [->|N1].
  - assert (h = hx) as -> by congruence. destruct (Nat.eq_dec j k) as [->|N2].
    + unfold sw in Hn. rewrite Nat.eqb_refl in Hn. assert (h' = hy) as -> by congruence. exact (Hd Hp Hp').
    + assert (sw k k = S k) as E by (unfold sw; rewrite Nat.eqb_refl; reflexivity). rewrite E in Hj. rewrite sw_other in Hn by lia. apply (Hb j h'); auto. lia.
  - destruct (Nat.eq_dec i (S k)) as [->|N2].
    + assert (sw k (S k) = k) as E by (unfold sw; rewrite Nat.eqb_refl; destruct (Nat.eqb_spec (S k) k); [lia|reflexivity]). rewrite E in Hj. rewrite sw_other in Hn by lia. apply (Hb j h'); auto.
    + rewrite sw_other in Hj by auto. apply (Hb (sw k j) h'); auto. unfold sw. destruct (Nat.eqb_spec j k); [lia|]. destruct (Nat.eqb_spec j (S k)); lia.
Qed.
Lemma declaring_swp c i h : first_declaring t c i h -> first_declaring (swp k t) c (sw k i) h.
Proof.
  intros (H1 & H2 & H3). split; [rewrite nth_swp by auto; auto|]. split; auto. intros j h' Hj Hn. apply not_true_iff_false.
  apply (before_swp (fun h => declares c h = true) i h) with j; auto.
  - intros E. apply not_true_iff_false. apply (proj1 Ha). exact E.
  - intros j0 h0 A B. apply not_true_iff_false. eauto.
Qed.
Lemma selects_swp n i h : selects t n i h -> selects (swp k t) n (sw k i) h.
Proof.
  intros [H1 H2 H3|m H1 H2 H3 H4 H5].
  - apply sel_exact; [rewrite nth_swp by auto; auto|auto|]. intros j h' Hj Hn. apply (before_swp (fun h => In n (hdr_names h)) i h) with j; auto. apply (proj2 Ha).
  - apply (sel_prefix _ _ _ _ m); auto; [|rewrite nth_swp by auto; auto|].
    + intros j h' Hn. apply swp_back in Hn. eauto.
    + intros j h' m' Hn Hm Hp. apply swp_back in Hn. rewrite <- (H5 _ _ _ Hn Hm Hp). symmetry. apply sw_sw.
Qed.
End Lookup.
Lemma apart_sym h1 h2 : apart h1 h2 -> apart h2 h1.
Proof. intros [H1 H2]. split; intros x A; [destruct (declares x h1) eqn:E; auto; rewrite (H1 _ E) in A; discriminate|intros C; exact (H2 _ C A)]. Qed.
Lemma swp_swp {A} : forall k (l : list A), swp k (swp k l) = l.
Proof. induction k as [|k IH]; intros [|x l]; auto; [destruct l; auto|]. cbn. rewrite IH. reflexivity. Qed.
Section Find.
Context (k : nat) (t : list hdr) (hx hy : hdr).
Hypothesis Hk : (S k < List.length t)%nat.
Hypothesis Hx : nth_error t k = Some hx.
Hypothesis Hy : nth_error t (S k) = Some hy.
Hypothesis Ha : apart hx hy.
Lemma nth_swp_k : nth_error (swp k t) k = Some hy.
Proof. rewrite <- Hy, <- (nth_swp k t (S k)) by auto. f_equal. unfold sw. rewrite Nat.eqb_refl. destruct (Nat.eqb_spec (S k) k); [lia|reflexivity]. Qed.
Lemma nth_swp_Sk : nth_error (swp k t) (S k) = Some hx.
Proof. rewrite <- Hx, <- (nth_swp k t k) by auto. f_equal. unfold sw. rewrite Nat.eqb_refl. reflexivity. Qed.
Lemma short_swp c : short_find (swp k t) 0 c = option_map (ren_found (sw k)) (short_find t 0 c).
Proof.
  destruct (short_find t 0 c) as [[i h]|] eqn:E.
  - apply short_find_iff in E. apply short_find_iff. cbn. eapply declaring_swp; eauto.
  - cbn. destruct (short_find (swp k t) 0 c) as [[i h]|] eqn:E2; [|reflexivity]. apply short_find_iff in E2.
    assert (E3 : first_declaring t c (sw k i) h).
    { rewrite <- (swp_swp k t). apply (declaring_swp k (swp k t) hy hx); auto using nth_swp_k, nth_swp_Sk, apart_sym. rewrite swp_length. auto. }
    apply short_find_iff in E3. congruence.
Qed.
Lemma long_swp n : long_find (swp k t) n = option_map (ren_found (sw k)) (long_find t n).
Proof.
  destruct (long_find t n) as [[i h]|] eqn:E.
  - apply long_find_iff in E. apply long_find_iff. cbn. eapply selects_swp; eauto.
  - cbn. destruct (long_find (swp k t) n) as [[i h]|] eqn:E2; [|reflexivity]. apply long_find_iff in E2.
    assert (E3 : selects t n (sw k i) h).
    { rewrite <- (swp_swp k t). apply (selects_swp k (swp k t) hy hx); auto using nth_swp_k, nth_swp_Sk, apart_sym. rewrite swp_length. auto. }
    apply long_find_iff in E3. congruence.
Qed.
End Find.

(** ** Processing *)
Section Process.
Context {B : Type}.
Context (scan : hdr -> B -> option (option str -> res (B * Z))).
Context (check : hdr -> B -> option Z).
Context (reset : hdr -> B -> res B).
Definition ren_err (f : nat -> nat) (e : err) : err := mk_err (match err_owner e with PEntry i => PEntry (f i) | PEnd => PEnd end) (err_code e) (err_argval e).

Lemma reset_swp : forall k tab t, ideal_reset reset tab = Ok t -> ideal_reset reset (swp k tab) = Ok (swp k t).
Proof.
  induction k as [|k IH]; intros [|x tab] t H; cbn [ideal_reset swp] in *; try (injection H as <-; reflexivity).
  - apply bind_ok in H as (bx & Ex & H). apply bind_ok in H as (t' & E & H). injection H as <-. destruct tab as [|y tab]; cbn [ideal_reset] in *; [rewrite Ex; cbn; injection E as <-; reflexivity|].
    apply bind_ok in E as (by_ & Ey & E). apply bind_ok in E as (t2 & E & H). injection H as <-. rewrite Ey. cbn [bind]. rewrite Ex. cbn [bind]. rewrite E. reflexivity.
  - apply bind_ok in H as (bx & Ex & H). apply bind_ok in H as (t' & E & H). injection H as <-. rewrite Ex. cbn [bind]. rewrite (IH _ _ E). reflexivity.
Qed.
Lemma reset_length : forall tab t, ideal_reset reset tab = Ok t -> List.length t = List.length tab.
Proof.
  induction tab as [|e tab IH]; intros t H; cbn [ideal_reset] in H; [injection H as <-; auto|].
  apply bind_ok in H as (b & E & H). apply bind_ok in H as (t' & E' & H). injection H as <-. cbn. f_equal. auto.
Qed.
Lemma lupd_length {A} : forall (l : list A) i v, List.length (lupd l i v) = List.length l.
Proof. induction l as [|x l IH]; intros [|i] v; cbn; auto. Qed.
Lemma events_swp k : forall evs tab errs tab' errs', (S k < List.length tab)%nat -> ideal_events scan evs (tab, errs) = Ok (tab', errs') ->
  ideal_events scan (map (ren_event (sw k)) evs) (swp k tab, map (ren_err (sw k)) errs) = Ok (swp k tab', map (ren_err (sw k)) errs') /\ List.length tab' = List.length tab.
Proof.
  induction evs as [|ev evs IH]; intros tab errs tab' errs' Hk H; cbn [ideal_events map] in *.
  - injection H as <- <-. auto.
  - apply bind_ok in H as ([t1 e1] & H1 & H). destruct ev as [i v|c v]; cbn [ideal_event ren_event] in *.
    + destruct (nth_error tab i) as [e|] eqn:Ei; [|discriminate]. rewrite nth_swp by auto. rewrite Ei. destruct (scan (e_hdr e) (e_body e)) as [f|].
      * apply bind_ok in H1 as ([b c] & Ef & H1). injection H1 as <- <-. rewrite Ef. cbn [bind]. rewrite lupd_swp by auto.
        destruct (IH _ _ _ _ ltac:(rewrite lupd_length; exact Hk) H) as [G L]. split; [|rewrite L; apply lupd_length]. rewrite <- G. f_equal. f_equal. destruct (c =? 0); auto. rewrite map_app. reflexivity.
      * injection H1 as <- <-. cbn [bind]. apply IH; auto.
    + injection H1 as <- <-. cbn [bind]. destruct (IH _ _ _ _ Hk H) as [G L]. split; auto. rewrite <- G. rewrite map_app. reflexivity.
Qed.
Lemma feed_ren f h i : forall args b rej b' l r, feed scan h i b args rej = Ok (b', l, r) ->
  feed scan h (f i) b args (option_map (ren_err f) rej) = Ok (b', l, option_map (ren_err f) r).
Proof.
  induction args as [|a args IH]; intros b rej b' l r H; cbn [feed] in *; [injection H as <- <- <-; auto|].
  destruct (scan h b) as [g|]; [|injection H as <- <- <-; auto]. apply bind_ok in H as ([b1 c] & E & H). rewrite E. cbn [bind]. destruct (c =? 0).
  - apply (IH _ None) in H. exact H.
  - injection H as <- <- <-. reflexivity.
Qed.
Lemma unexpected_ren f l : map (ren_err f) (map unexpected l) = map unexpected l.
Proof. rewrite map_map. apply map_ext. reflexivity. Qed.
Lemma positional_later k : forall todo n args rej t er, (S k < n)%nat -> ideal_positional scan n todo args rej = Ok (t, er) ->
  ideal_positional scan n todo args (option_map (ren_err (sw k)) rej) = Ok (t, map (ren_err (sw k)) er).
Proof.
  induction todo as [|e todo IH]; intros n args rej t er Hn H; destruct args as [|a args]; cbn [ideal_positional] in *; try (injection H as <- <-; reflexivity).
  - injection H as <- <-. destruct rej as [r|]; cbn [option_map map]; rewrite unexpected_ren; reflexivity.
  - destruct (positional_hdr (e_hdr e)).
    + apply bind_ok in H as ([[b l] r] & Ef & H). apply bind_ok in H as ([t1 er1] & H & E). injection E as <- <-. apply (feed_ren (sw k)) in Ef. rewrite (sw_other k n) in Ef by lia. rewrite Ef. cbn [bind].
      rewrite (IH (S n) _ _ _ _ ltac:(lia) H). reflexivity.
    + apply bind_ok in H as ([t1 er1] & H & E). injection E as <- <-. rewrite (IH (S n) _ _ _ _ ltac:(lia) H). reflexivity.
Qed.
Lemma positional_nil n todo rej : ideal_positional scan n todo [] rej = Ok (todo, []).
Proof. destruct todo; reflexivity. Qed.
Lemma positional_swp K : forall k todo n args rej t er x y, (n + k = K)%nat -> nth_error todo k = Some x -> nth_error todo (S k) = Some y ->
  ~ (no_options (e_hdr x) /\ no_options (e_hdr y)) -> ideal_positional scan n todo args rej = Ok (t, er) ->
  ideal_positional scan n (swp k todo) args (option_map (ren_err (sw K)) rej) = Ok (swp k t, map (ren_err (sw K)) er).
Proof.
  induction k as [|k IH]; intros todo n args rej t er x y HK Hx Hy Hn H.
  - destruct todo as [|x0 [|y0 todo]]; try discriminate. cbn in Hx, Hy. injection Hx as ->. injection Hy as ->. assert (n = K) as -> by lia. cbn [swp].
    destruct args as [|a args]; [rewrite positional_nil in *; injection H as <- <-; reflexivity|].
    destruct (positional_hdr (e_hdr x)) eqn:Px; destruct (positional_hdr (e_hdr y)) eqn:Py.
    + destruct Hn. split; apply positional_hdr_iff; auto.
    + cbn [ideal_positional] in H |- *. rewrite Px in H. rewrite Px, Py. apply bind_ok in H as ([[b l] r] & Ef & H). apply bind_ok in H as ([t1 er1] & H & E). injection E as <- <-.
      apply (feed_ren (sw K)) in Ef. assert (sw K K = S K) as E by (unfold sw; rewrite Nat.eqb_refl; reflexivity). rewrite E in Ef. rewrite Ef. cbn [bind]. clear Ef E.
      destruct l as [|a' l]; [cbn in H; injection H as <- <-; rewrite positional_nil; reflexivity|]. cbn [ideal_positional] in H. rewrite Py in H. apply bind_ok in H as ([t2 er2] & H & E). injection E as <- <-.
      rewrite (positional_later K _ (S (S K)) _ _ _ _ ltac:(lia) H). reflexivity.
    + cbn [ideal_positional] in H |- *. rewrite Px, Py in *. apply bind_ok in H as ([t1 er1] & H & E). injection E as <- <-. apply bind_ok in H as ([[b l] r] & Ef & H). apply bind_ok in H as ([t2 er2] & H & E). injection E as <- <-.
      apply (feed_ren (sw K)) in Ef. assert (sw K (S K) = K) as E by (unfold sw; rewrite Nat.eqb_refl; destruct (Nat.eqb_spec (S K) K); [lia|reflexivity]). rewrite E in Ef. rewrite Ef. cbn [bind]. clear Ef E.
      apply (positional_later K) in H; [|lia]. destruct l as [|a' l]; [rewrite positional_nil in H; cbn; injection H as <- H2; rewrite <- H2; reflexivity|]. cbn [ideal_positional]. rewrite H. reflexivity.
    + cbn [ideal_positional] in H |- *. rewrite Px, Py in *. apply bind_ok in H as ([t1 er1] & H & E). injection E as <- <-. apply bind_ok in H as ([t2 er2] & H & E). injection E as <- <-.
      rewrite (positional_later K _ (S (S K)) _ _ _ _ ltac:(lia) H). reflexivity.
  - destruct todo as [|e todo]; [discriminate|]. cbn [nth_error] in Hx, Hy. cbn [swp]. destruct args as [|a args]; cbn [ideal_positional] in *; [injection H as <- <-; reflexivity|].
    destruct (positional_hdr (e_hdr e)).
    + apply bind_ok in H as ([[b l] r] & Ef & H). apply bind_ok in H as ([t1 er1] & H & E). injection E as <- <-. apply (feed_ren (sw K)) in Ef. rewrite (sw_other K n) in Ef by lia. rewrite Ef. cbn [bind].
      rewrite (IH _ (S n) _ _ _ _ _ _ ltac:(lia) Hx Hy Hn H). reflexivity.
    + apply bind_ok in H as ([t1 er1] & H & E). injection E as <- <-. rewrite (IH _ (S n) _ _ _ _ _ _ ltac:(lia) Hx Hy Hn H). reflexivity.
Qed.
Lemma check_later k : forall tab n, (S k < n)%nat -> map (ren_err (sw k)) (ideal_check check n tab) = ideal_check check n tab.
Proof.
  induction tab as [|e tab IH]; intros n Hn; [reflexivity|]. cbn [ideal_check]. rewrite map_app, IH by lia. f_equal.
  destruct (check (e_hdr e) (e_body e)) as [c|]; [|reflexivity]. destruct (c =? 0); [reflexivity|]. cbn. unfold ren_err. cbn [err_owner mk_err err_code err_argval]. rewrite (sw_other k n) by lia. reflexivity.
Qed.
Lemma check_swp K : forall k tab n, (n + k = K)%nat -> (S k < List.length tab)%nat -> Permutation (map (ren_err (sw K)) (ideal_check check n tab)) (ideal_check check n (swp k tab)).
Proof.
  assert (One : forall f e n, map (ren_err f) (match check (e_hdr e) (e_body e) with Some c => if c =? 0 then [] else [mk_err (PEntry n) c None] | None => [] end) =
                match check (e_hdr e) (e_body e) with Some c => if c =? 0 then [] else [mk_err (PEntry (f n)) c None] | None => [] end).
  { intros f e n. destruct (check (e_hdr e) (e_body e)) as [c|]; [|reflexivity]. destruct (c =? 0); reflexivity. }
  induction k as [|k IH]; intros [|x tab] n HK Hk; cbn in Hk; try lia.
  - destruct tab as [|y tab]; cbn in Hk; [lia|]. assert (n = K) as -> by lia. cbn [swp ideal_check]. rewrite !map_app, !One, check_later by lia.
    assert (sw K K = S K) as -> by (unfold sw; rewrite Nat.eqb_refl; reflexivity).
    assert (sw K (S K) = K) as -> by (unfold sw; rewrite Nat.eqb_refl; destruct (Nat.eqb_spec (S K) K); [lia|reflexivity]).
    rewrite !app_assoc. apply Permutation_app_tail. apply Permutation_app_comm.
  - cbn [swp ideal_check]. rewrite map_app, One, (sw_other K n) by lia. apply Permutation_app_head. apply IH; lia.
Qed.
Lemma positional_length : forall todo n args rej t er, ideal_positional scan n todo args rej = Ok (t, er) -> List.length t = List.length todo.
Proof.
  induction todo as [|e todo IH]; intros n args rej t er H; destruct args as [|a args]; cbn [ideal_positional] in H; try (injection H as <- <-; reflexivity).
  destruct (positional_hdr (e_hdr e)).
  - apply bind_ok in H as ([[b l] r] & Ef & H). apply bind_ok in H as ([t1 er1] & H & E). injection E as <- <-. cbn. f_equal. eauto.
  - apply bind_ok in H as ([t1 er1] & H & E). injection E as <- <-. cbn. f_equal. eauto.
Qed.
Lemma hdr_nth (t0 t1 : list (entry B)) : map e_hdr t1 = map e_hdr t0 -> forall i e, nth_error t0 i = Some e -> exists e', nth_error t1 i = Some e' /\ e_hdr e' = e_hdr e.
Proof.
  intros H i e Hi. apply (map_nth_error e_hdr) in Hi. rewrite <- H in Hi. rewrite nth_error_map in Hi. destruct (nth_error t1 i) as [e'|]; [|discriminate]. cbn in Hi. injection Hi as Hi. eauto.
Qed.
Lemma ideal_events_hdr : forall evs tab errs tab' errs', ideal_events scan evs (tab, errs) = Ok (tab', errs') -> map e_hdr tab' = map e_hdr tab.
Proof.
  induction evs as [|ev evs IH]; intros t0 l t1 e1 Ee; cbn [ideal_events] in Ee; [injection Ee as <- _; reflexivity|].
  apply bind_ok in Ee as ([t er] & E1 & Ee). rewrite (IH _ _ _ _ Ee). destruct ev as [i v|c v]; cbn in E1; [|injection E1 as <- _; reflexivity].
  destruct (nth_error t0 i) as [e|] eqn:En; [|discriminate]. destruct (scan (e_hdr e) (e_body e)); [|injection E1 as <- _; reflexivity].
  apply bind_ok in E1 as ([b c] & _ & E1). injection E1 as <- _. apply map_lupd_hdr. auto.
Qed.

Definition alike (tab1 : list (entry B)) (st1 : list (entry B) * list err) (tab2 : list (entry B)) (st2 : list (entry B) * list err) : Prop :=
  Permutation (combine tab1 (fst st1)) (combine tab2 (fst st2)) /\ Permutation (map (culprit tab1) (snd st1)) (map (culprit tab2) (snd st2)).
Lemma culprit_swp k (tab : list (entry B)) e : (S k < List.length tab)%nat -> culprit (swp k tab) (ren_err (sw k) e) = culprit tab e.
Proof. intros H. unfold culprit, ren_err. destruct e as [o c v]; destruct o; cbn; rewrite ?nth_swp by auto; reflexivity. Qed.
Lemma parse_swp evs pos l x y r t errs : ~ (no_options (e_hdr x) /\ no_options (e_hdr y)) ->
  ideal_parse scan check reset evs pos (l ++ x :: y :: r) = Ok (t, errs) ->
  exists t' errs', ideal_parse scan check reset (map (ren_event (sw (List.length l))) evs) pos (l ++ y :: x :: r) = Ok (t', errs') /\
    alike (l ++ x :: y :: r) (t, errs) (l ++ y :: x :: r) (t', errs').
Proof.
  intros Hn H. set (k := List.length l) in *. set (tab := l ++ x :: y :: r) in *.
  assert (Hk : (S k < List.length tab)%nat) by (unfold tab, k; rewrite app_length; cbn; lia).
  assert (Hx : nth_error tab k = Some x) by (unfold tab, k; rewrite nth_error_app2, Nat.sub_diag by lia; reflexivity).
  assert (Hy : nth_error tab (S k) = Some y) by (unfold tab, k; rewrite nth_error_app2 by lia; replace (S (List.length l) - List.length l)%nat with 1%nat by lia; reflexivity).
  assert (Es : l ++ y :: x :: r = swp k tab) by (symmetry; apply swp_app). rewrite Es. clear Es.
  unfold ideal_parse in *. apply bind_ok in H as (t0 & E0 & H). apply bind_ok in H as ([t1 e1] & E1 & H). apply bind_ok in H as ([t2 e2] & E2 & H). injection H as -> H.
  pose proof (reset_length _ _ E0) as L0. pose proof (ideal_reset_hdr _ _ _ E0) as D0. pose proof (ideal_events_hdr _ _ _ _ _ E1) as D1.
  rewrite (reset_swp k _ _ E0). cbn [bind]. destruct (events_swp k evs t0 [] t1 e1 ltac:(lia) E1) as [G1 L1]. cbn [map] in G1. rewrite G1. cbn [bind].
  destruct (hdr_nth tab t1 ltac:(congruence) _ _ Hx) as (x' & Hx' & Ex). destruct (hdr_nth tab t1 ltac:(congruence) _ _ Hy) as (y' & Hy' & Ey).
  pose proof (positional_swp k k t1 0 pos None t e2 x' y' eq_refl Hx' Hy' ltac:(rewrite Ex, Ey; exact Hn) E2) as G2. cbn [option_map] in G2. rewrite G2. cbn [bind].
  pose proof (positional_length _ _ _ _ _ _ E2) as L2.
  eexists. eexists. split; [reflexivity|]. split; cbn [fst snd].
  - rewrite swp_combine by lia. apply swp_perm.
  - rewrite <- map_app. destruct (e1 ++ e2) as [|e0 er] eqn:E12; cbn [map].
    + rewrite <- H. apply Permutation_trans with (map (culprit (swp k tab)) (map (ren_err (sw k)) (ideal_check check 0 t))).
      * rewrite map_map. erewrite map_ext; [apply Permutation_refl|]. intros e. symmetry. apply culprit_swp. auto.
      * apply Permutation_map. apply (check_swp k k t 0); lia.
    + rewrite <- H. cbn [map]. rewrite culprit_swp by auto. apply perm_skip. rewrite map_map. erewrite map_ext; [apply Permutation_refl|]. intros e. symmetry. apply culprit_swp. auto.
Qed.
Lemma read_swp posix (l : list (entry B)) x y r args evs out : apart (e_hdr x) (e_hdr y) -> read_args posix (map e_hdr (l ++ x :: y :: r)) args = (evs, out) ->
  read_args posix (map e_hdr (l ++ y :: x :: r)) args = (map (ren_event (sw (List.length l))) evs, out).
Proof.
  intros Ha H. set (k := List.length l) in *. rewrite <- swp_app. rewrite swp_map. fold k. set (t := map e_hdr (l ++ x :: y :: r)) in *.
  assert (Hk : (S k < List.length t)%nat) by (unfold t, k; rewrite map_length, app_length; cbn; lia).
  assert (Hx : nth_error t k = Some (e_hdr x)) by (unfold t, k; rewrite nth_error_map, nth_error_app2, Nat.sub_diag by lia; reflexivity).
  assert (Hy : nth_error t (S k) = Some (e_hdr y)) by (unfold t, k; rewrite nth_error_map, nth_error_app2 by lia; replace (S (List.length l) - List.length l)%nat with 1%nat by lia; reflexivity).
  apply (ren_args (sw k) t); auto; intros c; [eapply short_swp|eapply long_swp]; eauto.
Qed.
Lemma reordered_ideal tab1 tab2 : reordered tab1 tab2 -> forall posix args evs1 pos, read_args posix (map e_hdr tab1) args = (evs1, Finished pos) ->
  exists evs2, read_args posix (map e_hdr tab2) args = (evs2, Finished pos) /\
  forall t1 e1, ideal_parse scan check reset evs1 pos tab1 = Ok (t1, e1) -> exists t2 e2, ideal_parse scan check reset evs2 pos tab2 = Ok (t2, e2) /\ alike tab1 (t1, e1) tab2 (t2, e2).
Proof.
  induction 1 as [t|l x y r t Hn Ha H IH]; intros posix args evs1 pos Hr.
  - exists evs1. split; auto. intros t1 e1 E. exists t1, e1. split; auto. split; apply Permutation_refl.
  - apply read_swp in Hr; auto. destruct (IH _ _ _ _ Hr) as (evs2 & R2 & G). exists evs2. split; auto. intros t1 e1 E.
    destruct (parse_swp _ _ _ _ _ _ _ _ Hn E) as (t' & e' & E' & A1 & A2). destruct (G _ _ E') as (t2 & e2 & E2 & B1 & B2). exists t2, e2. split; auto. split; eapply Permutation_trans; eauto.
Qed.

(** A parse with the one table and a parse of the same arguments with the other: the entries end up alike, there are as many errors,
    and if there is room for all, they are the same but for their order. *)
Theorem C73_table_order :
  forall tab1 tab2, reordered tab1 tab2 ->
  forall posix cap rest jo1 jc1 jp1 fuel1 argv1 h1 s1 en1 a1 h1' s1' tab1' en1' jo2 jc2 jp2 fuel2 argv2 h2 s2 en2 a2,
  call cap tab1 en1 h1 argv1 a1 rest fuel1 -> call cap tab2 en2 h2 argv2 a2 rest fuel2 ->
  arg_parse scan check reset posix jo1 jc1 jp1 fuel1 (zlen (a1 :: rest)) argv1 h1 s1 tab1 en1 = Ok (h1', s1', tab1', en1') ->
  exists h2' s2' tab2' en2', arg_parse scan check reset posix jo2 jc2 jp2 fuel2 (zlen (a2 :: rest)) argv2 h2 s2 tab2 en2 = Ok (h2', s2', tab2', en2') /\
    Permutation (combine tab1 tab1') (combine tab2 tab2') /\ end_count en1' = end_count en2' /\
    (end_count en1' < cap -> Permutation (map (culprit tab1) (recorded en1')) (map (culprit tab2) (recorded en2'))).
Proof.
  intros tab1 tab2 Hro posix cap rest jo1 jc1 jp1 fuel1 argv1 h1 s1 en1 a1 h1' s1' tab1' en1' jo2 jc2 jp2 fuel2 argv2 h2 s2 en2 a2 C1 C2 P1.
  destruct (read_args posix (map e_hdr tab1) rest) as [evs1 [pos|]] eqn:R1.
  2:{ destruct (observe_hangs scan check reset posix jo1 jc1 jp1 cap fuel1 argv1 h1 s1 tab1 en1 a1 rest evs1 C1 R1 fuel1 _ P1). }
  destruct (reordered_ideal _ _ Hro _ _ _ _ R1) as (evs2 & R2 & G).
  pose proof (one_pass scan check reset posix cap jo1 jc1 jp1 fuel1 argv1 h1 s1 tab1 en1 a1 rest evs1 pos C1 R1) as O1. rewrite P1 in O1. cbn [observe bind] in O1.
  symmetry in O1. apply bind_ok in O1 as ([t1 e1] & I1 & O1). destruct (G _ _ I1) as (t2 & e2 & I2 & A1 & A2). cbn [fst snd] in A1, A2.
  pose proof (one_pass scan check reset posix cap jo2 jc2 jp2 fuel2 argv2 h2 s2 tab2 en2 a2 rest evs2 pos C2 R2) as O2. rewrite I2 in O2. cbn [bind] in O2.
  apply bind_ok in O2 as ([[[h2' s2'] tab2'] en2'] & P2 & O2). exists h2', s2', tab2', en2'. split; auto.
  unfold visible in O1, O2. cbn [fst snd] in O1, O2. injection O1 as E1 F1 S1. injection O2 as E2 F2 S2. subst t1 t2.
  assert (L : zlen e1 = zlen e2) by (apply Permutation_length in A2; rewrite !map_length in A2; unfold zlen; congruence).
  split; auto. split; [rewrite <- F1, F2, L; reflexivity|]. intros Hcap. rewrite <- S1, S2. unfold shown. rewrite <- L. destruct (Z.leb_spec (zlen e1) cap); [exact A2|]. lia.
Qed.
End Process.
(** The theorem for the kinds of the library. *)
Lemma order_kinds (D : Type) (strtod : str -> D * nat) rexmatch lm sp : forall (tab1 tab2 : list (entry (body D))), reordered tab1 tab2 ->
  forall posix cap rest jo1 jc1 jp1 fuel1 argv1 h1 s1 en1 a1 h1' s1' tab1' en1' jo2 jc2 jp2 fuel2 argv2 h2 s2 en2 a2,
  call cap tab1 en1 h1 argv1 a1 rest fuel1 -> call cap tab2 en2 h2 argv2 a2 rest fuel2 ->
  karg_parse strtod rexmatch lm sp posix jo1 jc1 jp1 fuel1 (zlen (a1 :: rest)) argv1 h1 s1 tab1 en1 = Ok (h1', s1', tab1', en1') ->
  exists h2' s2' tab2' en2', karg_parse strtod rexmatch lm sp posix jo2 jc2 jp2 fuel2 (zlen (a2 :: rest)) argv2 h2 s2 tab2 en2 = Ok (h2', s2', tab2', en2') /\
    Permutation (combine tab1 tab1') (combine tab2 tab2') /\ end_count en1' = end_count en2' /\
    (end_count en1' < cap -> Permutation (map (culprit tab1) (recorded en1')) (map (culprit tab2) (recorded en2'))).
Proof. exact (C73_table_order (kscan strtod rexmatch lm sp) kcheck kreset). Qed.

(** ** Example: the table of ExTable in another order *)
Definition apartb (h1 h2 : hdr) : bool :=
  match h_shortopts h1 with Some so => forallb (fun c => negb (declares c h2)) so | None => true end &&
  forallb (fun n => negb (existsb (str_eqb n) (hdr_names h2))) (hdr_names h1).
Lemma apartb_ok h1 h2 : apartb h1 h2 = true -> apart h1 h2.
Proof.
  unfold apartb. intros H. apply andb_true_iff in H as [H1 H2]. split.
  - intros c Hc. unfold declares in Hc. destruct (h_shortopts h1) as [so|]; [|discriminate]. apply existsb_exists in Hc as (c' & Hi & E). apply ceqb_eq in E. subst c'.
    rewrite forallb_forall in H1. apply negb_true_iff. auto.
  - intros n Hn Hn'. rewrite forallb_forall in H2. apply H2 in Hn. apply negb_true_iff in Hn. assert (existsb (str_eqb n) (hdr_names h2) = true) by (apply existsb_exists; exists n; split; auto; apply str_eqb_eq; auto). congruence.
Qed.
Local Open Scope string_scope.
Local Open Scope list_scope.
Local Open Scope Z_scope.
Definition ex_lit : entry (body Z) := arg_litn (ExTable.o "v") (ExTable.o "verbose,version") 0 3 None.
Definition ex_int : entry (body Z) := arg_intn (fun _ => 7) (ExTable.o "n") (ExTable.o "num") None 0 2 None.
Definition ex_file : entry (body Z) := arg_filen (ExTable.o "o") (ExTable.o "output") None 0 1 None.
Definition ex_str : entry (body Z) := arg_strn None None None 1 2 None.
Definition ex_other : list (entry (body Z)) := [ex_int; ex_lit; ex_str; ex_file].
Lemma ex_reordered : reordered ExTable.tab ex_other.
Proof.
  change ExTable.tab with ([ex_lit; ex_int] ++ ex_file :: ex_str :: []). apply ro_swap; [intros [[H _] _]; discriminate H|apply apartb_ok; reflexivity|].
  change ([ex_lit; ex_int] ++ [ex_str; ex_file]) with ([] ++ ex_lit :: ex_int :: [ex_str; ex_file]). apply ro_swap; [intros [[H _] _]; discriminate H|apply apartb_ok; reflexivity|]. apply ro_same.
Qed.
Notation ex_parsed l t := (karg_parse ExTable.strtod ExTable.rexmatch Long64 unix_seps false ExTable.jo ExTable.jc ExTable.jp (S (total (map lit l))) (zlen (lit "p" :: map lit l)) 1
  (ExTable.heap0 ("p" :: l)) ExTable.s0 t (ExTable.en 4)).
Lemma ex_call (t : list (entry (body Z))) l : forallb ExTable.good_hdrb (map e_hdr t) = true -> ExTable.strs_cstr (map lit l) = true ->
  call 4 t (ExTable.en 4) (ExTable.heap0 ("p" :: l)) 1 (lit "p") (map lit l) (S (total (map lit l))).
Proof.
  intros Hg Hs. destruct (ExTable.call_ok "p" l 4 0 ltac:(lia) Hs) as [K1 K2 K3 K4 K5]. constructor; auto. apply ExTable.good_hdrs_ok; exact Hg.
Qed.
Definition ex_line : list string := ["-v"; "-n"; "5"; "a"; "--verbose"; "--num=x"; "--bad"].
Example C73_case : exists h1 s1 t1 n1 h2 s2 t2 n2, ex_parsed ex_line ExTable.tab = Ok (h1, s1, t1, n1) /\ ex_parsed ex_line ex_other = Ok (h2, s2, t2, n2) /\
  Permutation (combine ExTable.tab t1) (combine ex_other t2) /\ end_count n1 = 2 /\ end_count n2 = 2 /\
  Permutation (map (culprit ExTable.tab) (recorded n1)) (map (culprit ex_other) (recorded n2)) /\
  map (culprit ExTable.tab) (recorded n1) = [(Some ex_int, ARG_ERR_BADINT, ExTable.o "x"); (None, ARG_ELONGOPT, ExTable.o "--bad")].
Proof.
  assert (X1 : match ex_parsed ex_line ExTable.tab with Ok (_, _, t, n) => end_count n = 2 /\ map (culprit ExTable.tab) (recorded n) = [(Some ex_int, ARG_ERR_BADINT, ExTable.o "x"); (None, ARG_ELONGOPT, ExTable.o "--bad")]
    | _ => False end) by (vm_compute; split; reflexivity).
  destruct (ex_parsed ex_line ExTable.tab) as [[[[h1 s1] t1] n1]| |] eqn:E1; [|elim X1|elim X1]. destruct X1 as [X1 X2].
  destruct (order_kinds Z ExTable.strtod ExTable.rexmatch Long64 unix_seps ExTable.tab ex_other ex_reordered
    false 4 (map lit ex_line) ExTable.jo ExTable.jc ExTable.jp _ _ _ ExTable.s0 _ (lit "p") h1 s1 t1 n1 ExTable.jo ExTable.jc ExTable.jp _ _ _ ExTable.s0 _ (lit "p")
    (ex_call ExTable.tab ex_line eq_refl eq_refl) (ex_call ex_other ex_line eq_refl eq_refl) E1) as (h2 & s2 & t2 & n2 & E2 & P1 & P2 & P3).
  exists h1, s1, t1, n1, h2, s2, t2, n2. split; [reflexivity|]. split; [exact E2|]. split; [exact P1|]. split; [exact X1|]. split; [rewrite <- P2; exact X1|]. split; [apply P3; rewrite X1; reflexivity|exact X2].
Qed.

(** Entries without options may not be exchanged: two numbers and a text in the two orders. Nor may entries that share an option: the
    first of them gets it. *)
Definition pos_int : entry (body Z) := arg_intn (fun _ => 7) None None None 0 1 None.
Definition pos_str : entry (body Z) := arg_strn None None None 0 1 None.
Definition lit_v : entry (body Z) := arg_litn (ExTable.o "v") None 0 1 None.
Definition lit_vw : entry (body Z) := arg_litn (ExTable.o "vw") None 0 1 None.
Definition counts (t : list (entry (body Z))) : list (option Z) := map (fun e => kcount (e_body e)) t.
Theorem C73_other_exchanges_refuted :
  (exists h1 s1 t1 n1 h2 s2 t2 n2, ex_parsed ["1"; "x"] [pos_int; pos_str] = Ok (h1, s1, t1, n1) /\ ex_parsed ["1"; "x"] [pos_str; pos_int] = Ok (h2, s2, t2, n2) /\ end_count n1 = 0 /\ end_count n2 = 1) /\
  (exists h1 s1 t1 n1 h2 s2 t2 n2, ex_parsed ["-v"] [lit_v; lit_vw] = Ok (h1, s1, t1, n1) /\ ex_parsed ["-v"] [lit_vw; lit_v] = Ok (h2, s2, t2, n2) /\
     counts t1 = [Some 1; Some 0] /\ counts t2 = [Some 1; Some 0]).
Proof.
  split.
  - assert (X1 : match ex_parsed ["1"; "x"] [pos_int; pos_str] with Ok (_, _, t, n) => end_count n = 0 | _ => False end) by (vm_compute; reflexivity).
    destruct (ex_parsed ["1"; "x"] [pos_int; pos_str]) as [[[[h1 s1] t1] n1]| |]; [|elim X1|elim X1].
    assert (X2 : match ex_parsed ["1"; "x"] [pos_str; pos_int] with Ok (_, _, t, n) => end_count n = 1 | _ => False end) by (vm_compute; reflexivity).
    destruct (ex_parsed ["1"; "x"] [pos_str; pos_int]) as [[[[h2 s2] t2] n2]| |]; [|elim X2|elim X2]. exists h1, s1, t1, n1, h2, s2, t2, n2. auto.
  - assert (X1 : match ex_parsed ["-v"] [lit_v; lit_vw] with Ok (_, _, t, n) => counts t = [Some 1; Some 0] | _ => False end) by (vm_compute; reflexivity).
    destruct (ex_parsed ["-v"] [lit_v; lit_vw]) as [[[[h1 s1] t1] n1]| |]; [|elim X1|elim X1].
    assert (X2 : match ex_parsed ["-v"] [lit_vw; lit_v] with Ok (_, _, t, n) => counts t = [Some 1; Some 0] | _ => False end) by (vm_compute; reflexivity).
    destruct (ex_parsed ["-v"] [lit_vw; lit_v]) as [[[[h2 s2] t2] n2]| |]; [|elim X2|elim X2]. exists h1, s1, t1, n1, h2, s2, t2, n2. auto.
Qed.

Print Assumptions C73_table_order.
Print Assumptions C73_other_exchanges_refuted.
