(** Facts about the reading of command lines in the long-only build (LongOnlySpec.v). *)
From Verif Require Import Base ParseModel ParseSpec LongOnlySpec GetoptProofs ParseIdeal ParseProofs ParseFacts ParseObserve ParseSafe ParseLemmas.
From Coq Require Import ZArith List Ascii String Bool Lia.
Import ListNotations.
Open Scope Z_scope.

(** Induction over command lines that may skip a value. *)
Lemma args_ind (P : list str -> Prop) : P [] ->
  (forall a rest, P rest -> (forall v rest', rest = v :: rest' -> P rest') -> P (a :: rest)) -> forall args, P args.
Proof.
  intros H0 H1 args. assert (H : forall n args, (List.length args <= n)%nat -> P args); [|apply (H _ args (le_n _))].
  clear args. induction n as [|n IH]; intros [|a rest] Hn; auto; cbn [List.length] in Hn; [lia|].
  apply H1; [apply IH; lia|]. intros v rest' ->. apply IH. cbn [List.length] in Hn. lia.
Qed.

(** ** Values come from the arguments *)
Section Carries.
Context (P : str -> Prop) (Ptl : forall c s, P (c :: s) -> P s).
Lemma read_found_carries f a body next : P a -> P body -> (forall v, next = Some v -> P v) ->
  Forall (carries P) (fst (read_found f a body next)).
Proof.
  intros Ha Hb Hn. unfold read_found. destruct f as [i h| |]; try (repeat constructor; fail).
  pose proof (value_part_cstr P Ptl body) as Hv.
  destruct (long_takes h), (value_part body) as [v|], next as [w|]; cbn [fst];
    try (repeat constructor; auto; fail); apply long_occurrence_cstr; auto; try discriminate;
    intros s E; injection E as <-; auto.
Qed.
Lemma as_long_found t a cs next r : as_long t a cs next = Some r -> exists f, r = read_found f a cs next.
Proof.
  intros H. exists (long_lookup true (declared t (hd0 cs)) t (name_part cs)). revert H.
  unfold as_long. destruct (long_lookup true (declared t (hd0 cs)) t (name_part cs)); try congruence.
  destruct (declared t (hd0 cs)); congruence.
Qed.
Lemma read_cluster_in_carries lo t a next : P a -> (forall v, next = Some v -> P v) ->
  forall cs, P cs -> Forall (carries P) (fst (read_cluster_in lo t a cs next)).
Proof.
  intros Ha Hn. induction cs as [|c cs IH]; intros Hcs; cbn [read_cluster_in]; [constructor|].
  pose proof (Ptl _ _ Hcs) as Hcs'. specialize (IH Hcs'). destruct (ceqb c "-").
  - destruct cs as [|c' cs']; [constructor|]. pose proof (read_found_carries (long_lookup lo false t (name_part (c' :: cs'))) a (c' :: cs') next Ha Hcs' Hn).
    destruct (read_found _ a (c' :: cs') next) as [ev u]. auto.
  - destruct (if lo then as_long t a (c :: cs) next else None) as [[ev u]|] eqn:El.
    { destruct lo; [|discriminate]. apply as_long_found in El as (f & E). pose proof (read_found_carries f a (c :: cs) next Ha Hcs Hn) as H.
      rewrite <- E in H. exact H. }
    destruct (short_find t 0 c) as [[i h]|].
    + destruct (short_takes h).
      * destruct (read_cluster_in lo t a cs next) as [ev r]. constructor; cbn; auto.
      * destruct cs; [destruct next|]; repeat constructor; cbn; auto.
      * destruct cs; repeat constructor; cbn; auto.
    + destruct (read_cluster_in lo t a cs next) as [ev r]. constructor; cbn; auto.
Qed.
Lemma read_args_in_carries lo px t : forall args, Forall P args ->
  Forall (carries P) (fst (read_args_in lo px t args)) /\
  (forall pos, snd (read_args_in lo px t args) = Finished pos -> Forall P pos).
Proof.
  induction args as [|a rest IH IH'] using args_ind; intros Hc.
  { cbn. split; [constructor|]. intros ? [= <-]. constructor. }
  cbn [read_args_in]. inversion_clear Hc as [|? ? Ha Hr]. destruct (IH Hr) as [H1 H2].
  destruct (is_positional a) eqn:Ep.
  - destruct px.
    + cbn. split; [constructor|]. intros ? [= <-]. constructor; auto.
    + unfold add_positional. cbn [fst snd]. split; auto.
      destruct (snd (read_args_in lo false t rest)); intros pos [= <-]. constructor; auto.
  - destruct (str_eqb a (lit "--")).
    { cbn. split; [constructor|]. intros ? [= <-]. auto. }
    assert (Hnext : forall v, hd_error rest = Some v -> P v).
    { destruct Hr; cbn; [discriminate|]. intros ? [= <-]. auto. }
    assert (Hta : P (tl a)) by (destruct a; [auto|eapply Ptl; eauto]).
    pose proof (read_cluster_in_carries lo t a (hd_error rest) Ha Hnext (tl a) Hta) as Hcl.
    destruct (read_cluster_in lo t a (tl a) (hd_error rest)) as [ev [[|]|]]; cbn [fst] in Hcl.
    + destruct rest as [|v rest'].
      { cbn. split; [auto|]. intros ? [= <-]; constructor. }
      inversion_clear Hr. destruct (IH' v rest' eq_refl) as [H3 H4]; auto.
      unfold prepend. cbn [fst snd]. split; auto. apply Forall_app. auto.
    + unfold prepend. cbn [fst snd]. split; auto. apply Forall_app. auto.
    + cbn. split; auto. discriminate.
Qed.
End Carries.

(** ** Hanging *)
Lemma read_cluster_in_hangs lo t a next : forall cs, snd (read_cluster_in lo t a cs next) = None ->
  exists xs, cs = xs ++ lit "-" /\ Forall (fun c => c <> "-"%char) xs.
Proof.
  induction cs as [|c cs IH]; cbn [read_cluster_in]; [discriminate|].
  destruct (ceqb_spec c "-") as [->|Hc].
  { destruct cs as [|c' cs']; [intros _; exists []; auto|].
    destruct (read_found _ a (c' :: cs') next). discriminate. }
  assert (IH' : snd (read_cluster_in lo t a cs next) = None -> exists xs, c :: cs = xs ++ lit "-" /\ Forall (fun c => c <> "-"%char) xs).
  { intros H. destruct (IH H) as (xs & -> & Hx). exists (c :: xs). auto. }
  destruct (if lo then as_long t a (c :: cs) next else None) as [[ev u]|]; [discriminate|].
  destruct (short_find t 0 c) as [[i h]|].
  - destruct (short_takes h).
    + destruct (read_cluster_in lo t a cs next) as [ev r]. exact IH'.
    + destruct cs; [destruct next|]; discriminate.
    + discriminate.
  - destruct (read_cluster_in lo t a cs next) as [ev r]. exact IH'.
Qed.
Lemma read_args_in_hangs lo px t : forall args, snd (read_args_in lo px t args) = Hangs -> exists a, In a args /\ dash_tailed a.
Proof.
  induction args as [|a rest IH IH'] using args_ind; cbn [read_args_in]; [discriminate|]. intros H.
  assert (Rest : snd (read_args_in lo px t rest) = Hangs -> exists a0, In a0 (a :: rest) /\ dash_tailed a0).
  { intros E. destruct (IH E) as (x & Hx & Hd). exists x. split; [right|]; auto. }
  destruct (is_positional a) eqn:Ep.
  - destruct px; [discriminate|]. unfold add_positional in H. cbn [snd] in H.
    destruct (snd (read_args_in lo false t rest)); [discriminate|auto].
  - destruct (str_eqb a (lit "--")) eqn:Edd; [discriminate|].
    pose proof (read_cluster_in_hangs lo t a (hd_error rest) (tl a)) as Hc.
    destruct (read_cluster_in lo t a (tl a) (hd_error rest)) as [ev [[|]|]]; cbn [snd] in Hc.
    + destruct rest as [|v rest']; [discriminate|]. destruct (IH' v rest' eq_refl H) as (x & Hx & Hd). exists x. split; [right; right|]; auto.
    + apply Rest, H.
    + destruct (Hc eq_refl) as (xs & E & Hx). exists a. split; [left; auto|].
      apply is_positional_false in Ep as (c & r & ->). cbn [tl] in E. destruct xs as [|x xs].
      * injection E as -> ->. discriminate Edd.
      * injection E as -> ->. inversion_clear Hx. exists x, xs. auto.
Qed.

(** ** Safety *)
Section Safe.
Context {B : Type}.
Context (scan : hdr -> B -> option (option str -> res (B * Z))).
Context (check : hdr -> B -> option Z).
Context (reset : hdr -> B -> res B).
Context (Inv : hdr -> B -> Prop) (Val : str -> Prop) (Hsafe : safe_kinds scan reset Inv Val).

Lemma ideal_in_safe lo posix tab rest evs pos : Forall (inv Inv) tab -> Forall Val rest ->
  read_args_in lo posix (map e_hdr tab) rest = (evs, Finished pos) ->
  exists t errs, ideal_parse scan check reset evs pos tab = Ok (t, errs) /\ Forall (inv Inv) t /\ map e_hdr t = map e_hdr tab.
Proof.
  intros Ht Hc Hr. destruct (read_args_in_carries Val (safe_suffix _ _ _ _ Hsafe) lo posix (map e_hdr tab) rest Hc) as [H1 H2].
  pose proof (read_args_in_events_ok lo (map e_hdr tab) posix rest) as Ho. rewrite Hr in *. cbn [fst snd] in *. specialize (H2 pos eq_refl).
  unfold ideal_parse. destruct (reset_safe scan reset Inv Val Hsafe tab Ht) as (t0 & E0 & H0). rewrite E0. cbn [bind].
  pose proof (ideal_reset_hdr _ _ _ E0) as Hh.
  destruct (events_safe scan reset Inv Val Hsafe evs t0 [] H0) as (t1 & e1 & -> & H3 & H4); [rewrite Hh; auto|auto|]. cbn [bind].
  destruct (positional_safe scan reset Inv Val Hsafe t1 0 pos None H3 H2) as (t2 & e2 & -> & H5 & H6). cbn [bind].
  eexists. eexists. split; [reflexivity|]. split; auto. congruence.
Qed.

Lemma hang_in_safe lo posix jo jc jp cap fuel argv h s tab en a0 rest evs : Forall (inv Inv) tab -> Forall Val rest ->
  call cap tab en h argv a0 rest fuel -> read_args_in lo posix (map e_hdr tab) rest = (evs, Hangs) ->
  forall fuel', arg_parse_in scan check reset posix jo jc jp lo fuel' (zlen (a0 :: rest)) argv h s tab en = OutOfFuel.
Proof.
  intros Ht Hv Hc Hr fuel'.
  destruct (parse_in_hangs scan check reset posix jo jc jp lo fuel' argv h s tab en a0 rest evs (c_hdrs _ _ _ _ _ _ _ _ Hc) (c_args _ _ _ _ _ _ _ _ Hc) (c_argv _ _ _ _ _ _ _ _ Hc) Hr) as (l & Hl & ->).
  destruct (reset_safe scan reset Inv Val Hsafe tab Ht) as (t0 & E0 & H0). rewrite E0. cbn [bind]. pose proof (ideal_reset_hdr _ _ _ E0) as Hh.
  pose proof (read_args_in_events_ok lo (map e_hdr tab) posix rest) as Ho. rewrite Hr in Ho. cbn [fst] in Ho.
  destruct (read_args_in_carries Val (safe_suffix _ _ _ _ Hsafe) lo posix (map e_hdr tab) rest Hv) as [Hca _].
  rewrite Hr in Hca. cbn [fst] in Hca. rewrite Forall_forall in Ho, Hca, Hl.
  destruct (events_safe scan reset Inv Val Hsafe l t0 [] H0) as (t1 & e1 & E1 & _).
  - apply Forall_forall. intros ev He. rewrite Hh. destruct (Hl ev He) as [Hi|Hq]; [auto|]. destruct ev; cbn in *; tauto.
  - apply Forall_forall. intros ev He. destruct (Hl ev He) as [Hi|Hq]; [auto|]. destruct ev as [i v|c v]; cbn in *; [destruct Hq as [_ ->]|]; exact I.
  - pose proof (sim_events scan cap l t0 [] (arg_end_resetfn en) (reset_rep cap en (c_end _ _ _ _ _ _ _ _ Hc))) as Hs.
    rewrite E1 in Hs. destruct (run scan l t0 (arg_end_resetfn en)) as [[t2 en2]| |]; cbn in Hs; try contradiction. reflexivity.
Qed.
End Safe.

(** ** Reading without mistakes *)
Definition clean (evs : list event) : Prop := forall c v, ~ In (EvErr c v) evs.
Lemma clean_app evs evs' : clean (evs ++ evs') <-> clean evs /\ clean evs'.
Proof.
  unfold clean. setoid_rewrite in_app_iff. split.
  - intros H. split; intros c v Hi; eapply H; eauto.
  - intros [H H'] c v [Hi|Hi]; [eapply H|eapply H']; eauto.
Qed.
Lemma clean_cons i v evs : clean (EvScan i v :: evs) <-> clean evs.
Proof.
  unfold clean. split.
  - intros H c w Hi. apply (H c w). right. exact Hi.
  - intros H c w [E|Hi]; [discriminate|]. apply (H c w Hi).
Qed.
Lemma not_clean c v evs : ~ clean (EvErr c v :: evs).
Proof. intros H. apply (H c v). left. reflexivity. Qed.

(** An argument's text only shows in errors. *)
Lemma long_occurrence_text i h v a a' : clean (long_occurrence i h v a) -> long_occurrence i h v a' = long_occurrence i h v a.
Proof.
  unfold long_occurrence. destruct v as [[|c v]|]; auto. destruct (h_hasvalue h); auto. intros H. elim (not_clean _ _ _ H).
Qed.
Lemma read_found_text f a a' body next : clean (fst (read_found f a body next)) -> read_found f a' body next = read_found f a body next.
Proof.
  unfold read_found. destruct f as [i h| |]; try (intros H; elim (not_clean _ _ _ H)).
  destruct (long_takes h), (value_part body) as [v|]; try (intros H; elim (not_clean _ _ _ H); fail); cbn [fst]; intros H;
    try (rewrite (long_occurrence_text _ _ _ _ _ H); reflexivity).
  destruct next; [reflexivity|]. elim (not_clean _ _ _ H).
Qed.
Lemma read_found_is f a body next : clean (fst (read_found f a body next)) -> exists i h, f = Is i h.
Proof. destruct f; eauto; intros H; elim (not_clean _ _ _ H). Qed.
(** An argument that reads well as the last one reads the same before others. *)
Lemma read_found_next f a body next : clean (fst (read_found f a body None)) -> read_found f a body next = read_found f a body None.
Proof.
  unfold read_found. destruct f as [i h| |]; auto. destruct (long_takes h), (value_part body) as [v|]; auto. intros H. elim (not_clean _ _ _ H).
Qed.
Lemma as_long_next t a cs next r : as_long t a cs None = Some r -> clean (fst r) -> as_long t a cs next = Some r.
Proof.
  assert (H : forall f, Some (read_found f a cs None) = Some r -> clean (fst r) -> Some (read_found f a cs next) = Some r).
  { intros f E Hc. rewrite <- E. f_equal. apply read_found_next. replace (read_found f a cs None) with r by congruence. exact Hc. }
  unfold as_long. destruct (long_lookup true (declared t (hd0 cs)) t (name_part cs)); try apply H.
  destruct (declared t (hd0 cs)); [discriminate|apply H].
Qed.
Lemma as_long_none t a cs next next' : as_long t a cs next = None -> as_long t a cs next' = None.
Proof.
  unfold as_long. destruct (long_lookup true (declared t (hd0 cs)) t (name_part cs)); [discriminate|discriminate|].
  destruct (declared t (hd0 cs)); [auto|discriminate].
Qed.
Lemma read_cluster_in_next lo t a next : forall cs ev r, read_cluster_in lo t a cs None = (ev, r) -> clean ev ->
  read_cluster_in lo t a cs next = (ev, r).
Proof.
  induction cs as [|c cs IH]; intros ev r; cbn [read_cluster_in]; [auto|].
  destruct (ceqb c "-").
  { destruct cs as [|c' cs']; auto.
    pose proof (read_found_next (long_lookup lo false t (name_part (c' :: cs'))) a (c' :: cs') next) as Hx.
    destruct (read_found _ a (c' :: cs') None) as [ev' u] eqn:E. intros [= <- <-] H.
    cbn [fst] in Hx. rewrite Hx by exact H. reflexivity. }
  assert (El : forall ev u, (if lo then as_long t a (c :: cs) None else None) = Some (ev, u) -> clean ev ->
                 (if lo then as_long t a (c :: cs) next else None) = Some (ev, u)).
  { intros ev' u E H. destruct lo; [|discriminate]. apply as_long_next; auto. }
  assert (En : (if lo then as_long t a (c :: cs) None else None) = None -> (if lo then as_long t a (c :: cs) next else None) = None).
  { destruct lo; auto. apply as_long_none. }
  destruct (if lo then as_long t a (c :: cs) None else None) as [[ev' u]|].
  { intros [= <- <-] H. rewrite (El _ _ eq_refl H). reflexivity. }
  rewrite (En eq_refl). destruct (short_find t 0 c) as [[i h]|].
  - destruct (short_takes h).
    + destruct (read_cluster_in lo t a cs None) as [ev' r']. intros [= <- <-] H. rewrite (IH ev' r' eq_refl); [reflexivity|].
      apply clean_cons in H. exact H.
    + destruct cs; auto. intros [= <- <-] H. elim (not_clean _ _ _ H).
    + auto.
  - destruct (read_cluster_in lo t a cs None) as [ev' r']. intros [= <- <-] H. elim (not_clean _ _ _ H).
Qed.
(** A command line after which others can be put. *)
Lemma read_args_in_app lo posix t post : forall pre ev pos, read_args_in lo posix t pre = (ev, Finished pos) -> clean ev ->
  ~ In (lit "--") pre -> (posix = true -> pos = []) ->
  read_args_in lo posix t (pre ++ post) =
  (ev ++ fst (read_args_in lo posix t post), match snd (read_args_in lo posix t post) with Finished q => Finished (pos ++ q) | Hangs => Hangs end).
Proof.
  induction pre as [|a rest IH IH'] using args_ind; intros ev pos E Hcl Hd Hp.
  { cbn [read_args_in] in E. injection E as <- <-. cbn. destruct (read_args_in lo posix t post) as [? []]; reflexivity. }
  cbn [read_args_in app] in *. assert (Hd' : ~ In (lit "--") rest) by (intros Hi; apply Hd; right; exact Hi).
  destruct (is_positional a).
  { destruct posix; [injection E as _ <-; discriminate (Hp eq_refl)|].
    unfold add_positional in *. destruct (read_args_in lo false t rest) as [ev1 [pos1|]]; cbn [fst snd] in E; [|discriminate].
    injection E as <- <-. rewrite (IH ev1 pos1 eq_refl Hcl Hd' ltac:(discriminate)). cbn [fst snd].
    destruct (snd (read_args_in lo false t post)); reflexivity. }
  destruct (str_eqb a (lit "--")) eqn:Ea; [apply str_eqb_eq in Ea; elim Hd; left; auto|].
  assert (Ec : read_cluster_in lo t a (tl a) (hd_error (rest ++ post)) = read_cluster_in lo t a (tl a) (hd_error rest)).
  { destruct rest as [|v rest]; [|reflexivity]. cbn [app hd_error]. cbn [hd_error] in E.
    destruct (read_cluster_in lo t a (tl a) None) as [ev1 r] eqn:E1. apply read_cluster_in_next; auto.
    destruct r as [[]|]; cbn in E; [injection E as <- _; exact Hcl| |discriminate].
    unfold prepend in E. cbn in E. injection E as <- _. apply clean_app in Hcl. tauto. }
  rewrite Ec. destruct (read_cluster_in lo t a (tl a) (hd_error rest)) as [ev1 [[]|]] eqn:E1; [| |discriminate].
  - destruct rest as [|v rest].
    + exfalso. cbn [hd_error] in E1. clear - E1 E Hcl. injection E as <- _.
      revert ev1 Hcl E1. generalize (tl a). induction l as [|c cs IHc]; intros ev Hcl E; cbn [read_cluster_in] in E; [discriminate|].
      assert (Hf : forall f body ev, clean ev -> read_found f a body None = (ev, true) -> False).
      { intros f body ev' Hc Ef. unfold read_found in Ef. destruct f as [i h| |]; try discriminate. destruct (long_takes h), (value_part body); discriminate. }
      destruct (ceqb c "-").
      { destruct cs as [|c' cs']; [discriminate|]. destruct (read_found _ a (c' :: cs') None) as [ev' u] eqn:Ef. injection E as <- ->. eapply Hf; eauto. }
      destruct (if lo then as_long t a (c :: cs) None else None) as [[ev' u]|] eqn:El.
      { destruct lo; [|discriminate]. injection E as <- ->. apply as_long_found in El as (f & Ef). eapply Hf; eauto. }
      destruct (short_find t 0 c) as [[i h]|].
      * destruct (short_takes h); [|destruct cs; discriminate|discriminate].
        destruct (read_cluster_in lo t a cs None) as [ev' r']. injection E as <- ->. apply clean_cons in Hcl. eapply IHc; eauto.
      * destruct (read_cluster_in lo t a cs None) as [ev' r']. injection E as <- ->. elim (not_clean _ _ _ Hcl).
    + cbn [app]. unfold prepend in *. destruct (read_args_in lo posix t rest) as [ev2 oc2] eqn:E2. cbn [fst snd] in E. injection E as <- ->.
      apply clean_app in Hcl as [Hc1 Hc2]. rewrite (IH' v rest eq_refl ev2 pos E2 Hc2); auto; [|intros Hi; apply Hd'; right; exact Hi].
      cbn [fst snd]. rewrite <- app_assoc. reflexivity.
  - unfold prepend in *. destruct (read_args_in lo posix t rest) as [ev2 oc2] eqn:E2. cbn [fst snd] in E. injection E as <- ->.
    apply clean_app in Hcl as [Hc1 Hc2]. rewrite (IH ev2 pos eq_refl Hc2 Hd' Hp).
    cbn [fst snd]. rewrite <- app_assoc. reflexivity.
Qed.
