(** Putting another entry into a table: lemmas for C62 and C65. *)
From Verif Require Import Base IntModel FileModel DateModel GetoptModel ParseModel ParseSpec GetoptProofs ParseIdeal ParseProofs ParseFacts ParseObserve ParseLemmas ArgModel.
From Coq Require Import ZArith List Ascii String Bool Lia.
Import ListNotations.
Open Scope Z_scope.

(** What was entry [i] before another one was put in front of entry [k]. *)
Definition renumber (k i : nat) : nat := if (i <? k)%nat then i else S i.
Definition renumber_err (k : nat) (e : err) : err :=
  mk_err (match err_owner e with PEnd => PEnd | PEntry i => PEntry (renumber k i) end) (err_code e) (err_argval e).
Definition renumber_ev (k : nat) (ev : event) : event :=
  match ev with EvScan i v => EvScan (renumber k i) v | EvErr c v => EvErr c v end.
Definition put_at {A} (k : nat) (x : A) (l : list A) : list A := firstn k l ++ x :: skipn k l.

Lemma put_at_app {A} (l1 l2 : list A) x : put_at (List.length l1) x (l1 ++ l2) = l1 ++ x :: l2.
Proof. unfold put_at. rewrite firstn_app, skipn_app, firstn_all, skipn_all, Nat.sub_diag. cbn. rewrite app_nil_r. reflexivity. Qed.
Lemma put_at_nth {A} : forall k (l : list A) x i, (k <= List.length l)%nat -> nth_error (put_at k x l) (renumber k i) = nth_error l i.
Proof.
  unfold put_at, renumber. induction k as [|k IH]; intros l x i Hk; [reflexivity|].
  destruct l as [|y l]; cbn in Hk; [lia|]. destruct i as [|i]; [reflexivity|]. specialize (IH l x i ltac:(lia)).
  change (S i <? S k)%nat with (i <? k)%nat. destruct (i <? k)%nat; cbn [firstn skipn app nth_error]; exact IH.
Qed.
Lemma put_at_lupd {A} : forall k (l : list A) x i y, (k <= List.length l)%nat -> lupd (put_at k x l) (renumber k i) y = put_at k x (lupd l i y).
Proof.
  unfold put_at, renumber. induction k as [|k IH]; intros l x i y Hk; [reflexivity|].
  destruct l as [|z l]; cbn in Hk; [lia|]. destruct i as [|i]; [reflexivity|]. specialize (IH l x i y ltac:(lia)).
  change (S i <? S k)%nat with (i <? k)%nat. destruct (i <? k)%nat; cbn [firstn skipn app lupd] in *; f_equal; exact IH.
Qed.

(** ** Reading *)
Section Reading.
Context (r : hdr) (Hs : h_shortopts r = None) (Hl : h_longopts r = None).
Definition ren (k : nat) (p : nat * hdr) : nat * hdr := (renumber k (fst p), snd p).

Lemma short_find_ren c : forall k t n, (k <= List.length t)%nat ->
  short_find (put_at k r t) n c = option_map (fun p => ((n + renumber k (fst p - n))%nat, snd p)) (short_find t n c).
Proof.
  assert (Hr : declares c r = false) by (unfold declares; rewrite Hs; reflexivity).
  assert (Hlow : forall t n p, short_find t n c = Some p -> (n <= fst p)%nat).
  { induction t as [|h t IH]; intros n p H; [discriminate|]. cbn in H. destruct (declares c h); [injection H as <-; auto|]. apply IH in H. lia. }
  assert (Hsh : forall t n, short_find t (S n) c = option_map (fun p => (S (fst p), snd p)) (short_find t n c)).
  { induction t as [|h t IH]; intros n; [reflexivity|]. cbn. destruct (declares c h); auto. }
  induction k as [|k IH]; intros t n Hk.
  - unfold put_at. cbn. rewrite Hr, Hsh. destruct (short_find t n c) as [p|] eqn:E; [|reflexivity]. apply Hlow in E. cbn. f_equal. f_equal. unfold renumber. cbn. lia.
  - destruct t as [|h t]; cbn in Hk; [lia|]. change (put_at (S k) r (h :: t)) with (h :: put_at k r t). cbn [short_find].
    destruct (declares c h).
    + cbn. rewrite Nat.sub_diag. cbn. rewrite Nat.add_0_r. reflexivity.
    + rewrite IH by lia. destruct (short_find t (S n) c) as [p|] eqn:E; [|reflexivity]. apply Hlow in E. cbn. f_equal. f_equal.
      destruct (fst p) as [|m] eqn:Em; [lia|]. replace (S m - n)%nat with (S (m - n)) by lia. replace (S m - S n)%nat with (m - n)%nat by lia.
      unfold renumber. change (S (m - n) <? S k)%nat with (m - n <? k)%nat. destruct (m - n <? k)%nat; lia.
Qed.
Lemma short_find_put k t c : (k <= List.length t)%nat -> short_find (put_at k r t) 0 c = option_map (ren k) (short_find t 0 c).
Proof. intros Hk. rewrite short_find_ren by auto. destruct (short_find t 0 c) as [p|]; [|reflexivity]. cbn. rewrite Nat.sub_0_r. reflexivity. Qed.

Definition ren_name (k : nat) (p : str * (nat * hdr)) : str * (nat * hdr) := (fst p, ren k (snd p)).
Lemma long_names_shift : forall t n, long_names t (S n) = map (fun p => (fst p, (S (fst (snd p)), snd (snd p)))) (long_names t n).
Proof. induction t as [|h t IH]; intros n; [reflexivity|]. cbn. rewrite map_app, map_map, IH. reflexivity. Qed.
Lemma long_names_put : forall k t, (k <= List.length t)%nat -> long_names (put_at k r t) 0 = map (ren_name k) (long_names t 0).
Proof.
  assert (Hr : hdr_names r = []) by (unfold hdr_names; rewrite Hl; reflexivity).
  induction k as [|k IH]; intros t Hk.
  - unfold put_at. cbn. rewrite Hr. cbn. rewrite long_names_shift. apply map_ext. intros [a [i h]]. reflexivity.
  - destruct t as [|h t]; cbn in Hk; [lia|]. change (put_at (S k) r (h :: t)) with (h :: put_at k r t). cbn [long_names].
    rewrite map_app, map_map. f_equal.
    rewrite !long_names_shift, IH by lia. rewrite !map_map. apply map_ext. intros [a [i h']]. unfold ren_name, ren, renumber. cbn [fst snd].
    change (S i <? S k)%nat with (i <? k)%nat. destruct (i <? k)%nat; reflexivity.
Qed.
Lemma find_map {A C} (f : C -> bool) (g : A -> C) l : find f (map g l) = option_map g (find (fun x => f (g x)) l).
Proof. induction l as [|x l IH]; [reflexivity|]. cbn. destruct (f (g x)); auto. Qed.
Lemma filter_map {A C} (f : C -> bool) (g : A -> C) l : filter f (map g l) = map g (filter (fun x => f (g x)) l).
Proof. induction l as [|x l IH]; [reflexivity|]. cbn. destruct (f (g x)); cbn; rewrite IH; reflexivity. Qed.
Lemma renumber_eqb k i j : Nat.eqb (renumber k i) (renumber k j) = Nat.eqb i j.
Proof. unfold renumber. destruct (Nat.eqb_spec i j) as [->|H]; [apply Nat.eqb_refl|]. apply Nat.eqb_neq. destruct (Nat.ltb_spec i k), (Nat.ltb_spec j k); lia. Qed.
Lemma long_find_put k t nm : (k <= List.length t)%nat -> long_find (put_at k r t) nm = option_map (ren k) (long_find t nm).
Proof.
  intros Hk. unfold long_find. rewrite long_names_put by auto. rewrite find_map, filter_map. cbn [ren_name fst].
  destruct (find _ (long_names t 0)) as [p|]; [reflexivity|]. cbn [option_map].
  destruct (filter _ (long_names t 0)) as [|[a [i h]] l]; [reflexivity|]. cbn [map ren_name ren fst snd].
  replace (forallb (fun p => Nat.eqb (fst (snd p)) (renumber k i)) (map (ren_name k) l)) with (forallb (fun p => Nat.eqb (fst (snd p)) i) l).
  - destruct (forallb _ l); reflexivity.
  - clear. induction l as [|x l IH]; [reflexivity|]. cbn. rewrite renumber_eqb, IH. reflexivity.
Qed.

Lemma read_long_put k t a b next : (k <= List.length t)%nat ->
  read_long (put_at k r t) a b next = (map (renumber_ev k) (fst (read_long t a b next)), snd (read_long t a b next)).
Proof.
  intros Hk. unfold read_long. rewrite long_find_put by auto. destruct (long_find t (name_part b)) as [[i h]|]; [|reflexivity]. cbn [option_map ren fst snd].
  destruct (long_takes h), (value_part b) as [v|]; try reflexivity; try (destruct next as [v|]; try reflexivity); unfold long_occurrence; destruct v; try reflexivity; destruct (h_hasvalue h); reflexivity.
Qed.
Lemma read_cluster_put k t a next : (k <= List.length t)%nat -> forall cs,
  read_cluster (put_at k r t) a cs next = (map (renumber_ev k) (fst (read_cluster t a cs next)), snd (read_cluster t a cs next)).
Proof.
  intros Hk. induction cs as [|c cs IH]; [reflexivity|]. cbn [read_cluster]. destruct (ceqb c "-").
  - destruct cs as [|c' cs]; [reflexivity|]. rewrite read_long_put by auto. destruct (read_long t a (c' :: cs) next); reflexivity.
  - rewrite short_find_put by auto. destruct (short_find t 0 c) as [[i h]|]; cbn [option_map ren fst snd].
    + destruct (short_takes h).
      * rewrite IH. destruct (read_cluster t a cs next); reflexivity.
      * destruct cs; [destruct next|]; reflexivity.
      * reflexivity.
    + rewrite IH. destruct (read_cluster t a cs next); reflexivity.
Qed.
Lemma read_args_put posix k t : (k <= List.length t)%nat -> forall n args, (List.length args <= n)%nat ->
  read_args posix (put_at k r t) args = (map (renumber_ev k) (fst (read_args posix t args)), snd (read_args posix t args)).
Proof.
  intros Hk. induction n as [|n IH]; intros [|a rest] Hn; try reflexivity; cbn in Hn; [lia|]. cbn [read_args].
  destruct (is_positional a).
  - destruct posix; [reflexivity|]. rewrite IH by lia. unfold add_positional. cbn [fst snd]. reflexivity.
  - destruct (str_eqb a (lit "--")); [reflexivity|]. rewrite read_cluster_put by auto. destruct (read_cluster t a (tl a) (hd_error rest)) as [ev [[|]|]]; cbn [fst snd].
    + destruct rest as [|x rest]; [reflexivity|]. cbn in Hn. rewrite IH by lia. unfold prepend. cbn [fst snd]. rewrite map_app. reflexivity.
    + rewrite IH by lia. unfold prepend. cbn [fst snd]. rewrite map_app. reflexivity.
    + reflexivity.
Qed.
End Reading.

(** ** Parsing *)
Section Parsing.
Context {B : Type}.
Context (scan : hdr -> B -> option (option str -> res (B * Z))).
Context (check : hdr -> B -> option Z).
Context (reset : hdr -> B -> res B).
Context (r0 r : entry B).
(** Resetting makes [r] of [r0]; [r] takes no positional arguments and has no complaints. *)
Definition bystander : Prop :=
  e_hdr r = e_hdr r0 /\ reset (e_hdr r0) (e_body r0) = Ok (e_body r) /\
  (positional_hdr (e_hdr r) = true -> scan (e_hdr r) (e_body r) = None) /\
  (check (e_hdr r) (e_body r) = None \/ check (e_hdr r) (e_body r) = Some 0).
Hypothesis Hi : bystander.

Definition onto (k : nat) (st : list (entry B) * list err) : list (entry B) * list err := (put_at k r (fst st), map (renumber_err k) (snd st)).

Lemma set_same : set_body (e_body r) r = r. Proof. destruct r. reflexivity. Qed.
Lemma set_reset : set_body (e_body r) r0 = r.
Proof. destruct Hi as (He & _). unfold set_body. rewrite <- He. destruct r. reflexivity. Qed.
Lemma reset_put : forall k tab, (k <= List.length tab)%nat ->
  ideal_reset reset (put_at k r0 tab) = (t <- ideal_reset reset tab ;; Ok (put_at k r t)).
Proof.
  destruct Hi as (_ & Hre & _).
  induction k as [|k IH]; intros tab Hk.
  - unfold put_at. cbn. rewrite Hre. cbn. destruct (ideal_reset reset tab); cbn; rewrite ?set_reset; reflexivity.
  - destruct tab as [|e tab]; cbn in Hk; [lia|]. change (put_at (S k) r0 (e :: tab)) with (e :: put_at k r0 tab). cbn [ideal_reset]. rewrite IH by lia.
    destruct (reset (e_hdr e) (e_body e)); try reflexivity. cbn. destruct (ideal_reset reset tab); reflexivity.
Qed.
Lemma events_put k : forall evs st, (k <= List.length (fst st))%nat ->
  ideal_events scan (map (renumber_ev k) evs) (onto k st) = (st <- ideal_events scan evs st ;; Ok (onto k st)).
Proof.
  induction evs as [|ev evs IH]; intros [tab errs] Hk; [reflexivity|]. cbn [map ideal_events fst snd] in *.
  assert (E : ideal_event scan (renumber_ev k ev) (onto k (tab, errs)) = (st <- ideal_event scan ev (tab, errs) ;; Ok (onto k st))).
  { destruct ev as [i v|c v]; cbn [renumber_ev ideal_event onto fst snd].
    - rewrite put_at_nth by auto. destruct (nth_error tab i) as [e|]; [|reflexivity].
      destruct (scan (e_hdr e) (e_body e)) as [f|]; [|reflexivity]. destruct (f v) as [[b c]| |]; [|reflexivity|reflexivity]. cbn.
      rewrite put_at_lupd by auto. unfold onto. cbn [fst snd]. destruct (c =? 0); rewrite ?map_app; reflexivity.
    - cbn [bind]. unfold onto. cbn [fst snd]. rewrite map_app. reflexivity. }
  rewrite E. destruct (ideal_event scan ev (tab, errs)) as [[tab' errs']| |] eqn:Ev; [|reflexivity|reflexivity]. cbn [bind]. apply IH.
  destruct ev as [i v|c v]; cbn in Ev.
  - destruct (nth_error tab i) as [e|]; [|discriminate]. destruct (scan (e_hdr e) (e_body e)) as [f|]; [|injection Ev as <- _; auto].
    destruct (f v) as [[b c]| |]; try discriminate. cbn in Ev. injection Ev as <- _. cbn. rewrite lupd_length. auto.
  - injection Ev as <- _. auto.
Qed.

Lemma feed_put k i i' h : renumber k i = i' -> forall args b rej,
  feed scan h i' b args (option_map (renumber_err k) rej)
  = ('(b, args, rej) <- feed scan h i b args rej ;; Ok (b, args, option_map (renumber_err k) rej)).
Proof.
  intros <-. induction args as [|a args IH]; intros b rej; [reflexivity|]. cbn [feed]. destruct (scan h b) as [f|]; [|reflexivity].
  destruct (f (Some a)) as [[b' c]| |]; [|reflexivity|reflexivity]. cbn [bind]. destruct (c =? 0); [apply (IH b' None)|reflexivity].
Qed.
Definition ren_out (k : nat) (x : res (list (entry B) * list err)) : res (list (entry B) * list err) :=
  '(t, er) <- x ;; Ok (t, map (renumber_err k) er).
Lemma unexpected_ren k args : map (renumber_err k) (map unexpected args) = map unexpected args.
Proof. rewrite map_map. reflexivity. Qed.
Lemma positional_shift k : forall todo n args rej, (k <= n)%nat ->
  ideal_positional scan (S n) todo args (option_map (renumber_err k) rej)
  = ('(t, er) <- ideal_positional scan n todo args rej ;; Ok (t, map (renumber_err k) er)).
Proof.
  induction todo as [|e todo IH]; intros n [|a args] rej Hn; try reflexivity.
  - cbn [ideal_positional bind]. destruct rej; cbn [option_map map]; rewrite unexpected_ren; reflexivity.
  - cbn [ideal_positional]. destruct (positional_hdr (e_hdr e)).
    + rewrite (feed_put k n (S n)) by (unfold renumber; destruct (Nat.ltb_spec n k); lia).
      destruct (feed scan (e_hdr e) n (e_body e) (a :: args) rej) as [[[b args'] rej']| |]; [|reflexivity|reflexivity]. cbn [bind].
      rewrite IH by lia. destruct (ideal_positional scan (S n) todo args' rej') as [[t er]| |]; reflexivity.
    + rewrite IH by lia. destruct (ideal_positional scan (S n) todo (a :: args) rej) as [[t er]| |]; reflexivity.
Qed.
Lemma positional_put k : forall j todo n args rej, (n + j)%nat = k -> (j <= List.length todo)%nat ->
  ideal_positional scan n (put_at j r todo) args (option_map (renumber_err k) rej)
  = ('(t, er) <- ideal_positional scan n todo args rej ;; Ok (put_at j r t, map (renumber_err k) er)).
Proof.
  destruct Hi as (_ & _ & Hsc & _).
  induction j as [|j IH]; intros todo n args rej Hn Hj.
  - unfold put_at. cbn [firstn skipn app]. destruct args as [|a args].
    { destruct todo; reflexivity. }
    cbn [ideal_positional]. destruct (positional_hdr (e_hdr r)).
    { cbn [feed]. rewrite Hsc by reflexivity. cbn [bind]. rewrite positional_shift by lia. cbn [ideal_positional].
      destruct (ideal_positional scan n todo (a :: args) rej) as [[t er]| |]; cbn [bind]; rewrite ?set_same; reflexivity. }
    rewrite positional_shift by lia. destruct (ideal_positional scan n todo (a :: args) rej) as [[t er]| |]; cbn [bind]; rewrite ?set_same; reflexivity.
  - destruct todo as [|e todo]; cbn in Hj; [lia|]. change (put_at (S j) r (e :: todo)) with (e :: put_at j r todo).
    destruct args as [|a args]; [reflexivity|]. cbn [ideal_positional]. destruct (positional_hdr (e_hdr e)).
    + rewrite (feed_put k n n) by (unfold renumber; destruct (Nat.ltb_spec n k); lia).
      destruct (feed scan (e_hdr e) n (e_body e) (a :: args) rej) as [[[b args'] rej']| |]; [|reflexivity|reflexivity]. cbn [bind].
      rewrite IH by lia. destruct (ideal_positional scan (S n) todo args' rej') as [[t er]| |]; reflexivity.
    + rewrite IH by lia. destruct (ideal_positional scan (S n) todo (a :: args) rej) as [[t er]| |]; reflexivity.
Qed.
Lemma check_shift k : forall tab n, (k <= n)%nat -> ideal_check check (S n) tab = map (renumber_err k) (ideal_check check n tab).
Proof.
  induction tab as [|e tab IH]; intros n Hn; [reflexivity|]. cbn [ideal_check]. rewrite map_app, IH by lia. f_equal.
  destruct (check (e_hdr e) (e_body e)) as [c|]; [|reflexivity]. destruct (c =? 0); [reflexivity|]. cbn [map]. unfold renumber_err, renumber. cbn [mk_err err_owner err_code err_argval]. destruct (Nat.ltb_spec n k); [lia|reflexivity].
Qed.
Lemma check_put k : forall j tab n, (n + j)%nat = k -> (j <= List.length tab)%nat ->
  ideal_check check n (put_at j r tab) = map (renumber_err k) (ideal_check check n tab).
Proof.
  destruct Hi as (_ & _ & _ & Hc).
  induction j as [|j IH]; intros tab n Hn Hj.
  - unfold put_at. cbn [firstn skipn app ideal_check]. destruct Hc as [Hc|Hc]; rewrite Hc; cbn [app Z.eqb]; apply check_shift; lia.
  - destruct tab as [|e tab]; cbn in Hj; [lia|]. change (put_at (S j) r (e :: tab)) with (e :: put_at j r tab). cbn [ideal_check].
    rewrite map_app, IH by lia. f_equal.
    destruct (check (e_hdr e) (e_body e)) as [c|]; [|reflexivity]. destruct (c =? 0); [reflexivity|]. cbn [map]. unfold renumber_err, renumber. cbn [mk_err err_owner err_code err_argval]. destruct (Nat.ltb_spec n k); [reflexivity|lia].
Qed.
Lemma events_length : forall evs st st', ideal_events scan evs st = Ok st' -> List.length (fst st') = List.length (fst st).
Proof.
  induction evs as [|ev evs IH]; intros [t e] st' H; [injection H as <-; reflexivity|]. cbn [ideal_events] in H. apply bind_ok in H as ([t1 e1] & H1 & H).
  rewrite (IH _ _ H). cbn [fst]. destruct ev as [i v|c v]; cbn in H1; [|injection H1 as <- _; reflexivity].
  destruct (nth_error t i) as [x|]; [|discriminate]. destruct (scan (e_hdr x) (e_body x)) as [f|]; [|injection H1 as <- _; reflexivity].
  apply bind_ok in H1 as ([b c] & _ & H1). injection H1 as <- _. apply lupd_length.
Qed.
Lemma positional_length : forall todo n args rej st, ideal_positional scan n todo args rej = Ok st -> List.length (fst st) = List.length todo.
Proof.
  induction todo as [|e todo IH]; intros n [|a args] rej st H; try (injection H as <-; reflexivity). cbn [ideal_positional] in H.
  destruct (positional_hdr (e_hdr e)).
  - apply bind_ok in H as ([[b args'] rej'] & _ & H). apply bind_ok in H as ([t er] & H1 & H). injection H as <-. cbn [fst List.length]. f_equal. exact (IH _ _ _ _ H1).
  - apply bind_ok in H as ([t er] & H1 & H). injection H as <-. cbn [fst List.length]. f_equal. exact (IH _ _ _ _ H1).
Qed.
Lemma parse_put k evs pos tab : (k <= List.length tab)%nat ->
  ideal_parse scan check reset (map (renumber_ev k) evs) pos (put_at k r0 tab) = (st <- ideal_parse scan check reset evs pos tab ;; Ok (onto k st)).
Proof.
  intros Hk. unfold ideal_parse. rewrite reset_put by auto. destruct (ideal_reset reset tab) as [t0| |] eqn:E0; [|reflexivity|reflexivity]. cbn [bind].
  assert (L0 : List.length t0 = List.length tab) by (rewrite <- (map_length e_hdr t0), (ideal_reset_hdr _ _ _ E0), map_length; reflexivity).
  pose proof (events_put k evs (t0, []) ltac:(cbn; lia)) as Ee. change (onto k (t0, [])) with (put_at k r t0, @nil err) in Ee. rewrite Ee.
  destruct (ideal_events scan evs (t0, [])) as [[t1 e1]| |] eqn:E1; [|reflexivity|reflexivity]. cbn [bind onto fst snd].
  assert (L1 : List.length t1 = List.length t0).
  { exact (events_length evs (t0, []) (t1, e1) E1). }
  pose proof (positional_put k k t1 0 pos None eq_refl ltac:(lia)) as Ep. cbn [option_map] in Ep. rewrite Ep.
  destruct (ideal_positional scan 0 t1 pos None) as [[t2 e2]| |] eqn:E2; [|reflexivity|reflexivity]. cbn [bind onto fst snd].
  assert (L2 : List.length t2 = List.length t1).
  { exact (positional_length t1 0%nat pos None _ E2). }
  unfold onto. cbn [fst snd]. rewrite <- map_app. f_equal. f_equal. destruct (e1 ++ e2); [|reflexivity]. cbn [map]. apply (check_put k k t2 0); lia.
Qed.
End Parsing.

(** What is visible of a parse, with entry [r] put in front of entry [k] of the table. *)
Definition with_entry {B} (k : nat) (r : entry B) (o : list (entry B) * Z * list err) : list (entry B) * Z * list err :=
  (put_at k r (fst (fst o)), snd (fst o), map (renumber_err k) (snd o)).
Lemma visible_onto {B} cap k (r : entry B) st : visible cap (onto r k st) = with_entry k r (visible cap st).
Proof.
  unfold visible, onto, with_entry. cbn [fst snd]. unfold zlen. rewrite map_length. f_equal. unfold shown, zlen. rewrite map_length.
  destruct (_ <=? _); [reflexivity|]. rewrite map_app, firstn_map. reflexivity.
Qed.
