(** The command lines of CommandSpec.v are those that parse without errors. *)
From Verif Require Import Base IntModel IntSpec IntProofs FileModel FileSpec DateModel DateSpec DateProofs GetoptModel ParseModel ParseSpec GetoptProofs ParseIdeal ParseProofs ParseFacts ParseObserve ParseSafe ParseLemmas ArgModel KindsSpec KindsProofs PropFile CommandSpec.
From Coq Require Import ZArith List Ascii String Bool Lia.
Import ListNotations.
Open Scope Z_scope.

(** * Spelling *)
Section Spelling.
Context (t : list hdr).

Definition evs_of (os : list occurrence) : list event := map (fun o => EvScan (fst o) (snd o)) os.
Lemma evs_of_app a b : evs_of (a ++ b) = evs_of a ++ evs_of b.
Proof. apply map_app. Qed.
Lemma evs_of_app_inv : forall os a b, evs_of os = a ++ b -> exists o1 o2, os = o1 ++ o2 /\ evs_of o1 = a /\ evs_of o2 = b.
Proof.
  intros os a. revert os. induction a as [|x a IH]; intros os b H.
  - exists [], os. auto.
  - destruct os as [|o os]; [discriminate|]. cbn in H. injection H as <- H. destruct (IH _ _ H) as (o1 & o2 & -> & E1 & E2).
    exists (o :: o1), o2. split; auto. split; auto. cbn. f_equal; auto.
Qed.

Lemma split_name s : (~ In "="%char s /\ name_part s = s /\ value_part s = None) \/
  (exists nm v, s = nm ++ "="%char :: v /\ ~ In "="%char nm /\ name_part s = nm /\ value_part s = Some v).
Proof.
  induction s as [|c s IH]; [left; split; [intros []|auto]|]. cbn [name_part value_part].
  destruct (ceqb c "=") eqn:E.
  - apply ceqb_eq in E. subst c. right. exists [], s. split; auto.
  - apply ceqb_neq in E. destruct IH as [(H1 & H2 & H3)|(nm & v & -> & H1 & H2 & H3)].
    + left. split; [intros [?|?]; auto|]. split; [congruence|auto].
    + right. exists (c :: nm), v. split; auto. split; [intros [?|?]; auto|]. split; [congruence|auto].
Qed.

(** [used]: whether the next word is used. *)
Definition used_words (ws : list str) (next : option str) (used : bool) : Prop :=
  match ws with [] => used = false | [w] => used = true /\ next = Some w | _ => False end.

Lemma read_long_iff a body next os used :
  read_long t a body next = (evs_of os, used) <-> exists ws o, os = [o] /\ long_option t body ws o /\ used_words ws next used.
Proof.
  split.
  - unfold read_long. intros H. destruct (long_find t (name_part body)) as [[i h]|] eqn:E; [|destruct os as [|? [|? ?]]; discriminate].
    apply long_find_iff in E. destruct (split_name body) as [(H1 & H2 & H3)|(nm & v & -> & H1 & H2 & H3)]; rewrite H3 in H; rewrite H2 in E; cbv beta iota in H.
    + destruct (long_takes h) eqn:Et.
      * destruct os as [|[i0 v0] [|? ?]]; cbn in H; try discriminate. injection H as <- <- <-. exists [], (i, None). split; auto. split; [eapply lo_bare; eauto; congruence|reflexivity].
      * destruct next as [v|]; [|destruct os as [|? [|? ?]]; discriminate].
        pose proof (long_takes_req_hasvalue h Et) as Hv. unfold long_occurrence in H. rewrite Hv in H.
        destruct v as [|x v]; [destruct os; discriminate|]. destruct os as [|[i0 v0] [|? ?]]; cbn in H; try discriminate. injection H as <- <- <-.
        exists [x :: v], (i, Some (x :: v)). split; auto. split; [eapply lo_next; eauto; discriminate|split; reflexivity].
      * destruct os as [|[i0 v0] [|? ?]]; cbn in H; try discriminate. injection H as <- <- <-. exists [], (i, None). split; auto. split; [eapply lo_bare; eauto; congruence|reflexivity].
    + assert (Ht : long_takes h <> TNo) by (intros Et; rewrite Et in H; destruct os as [|? [|? ?]]; discriminate).
      assert (Hx : (long_occurrence i h (Some v) a, false) = (evs_of os, used)) by (destruct (long_takes h); [exfalso; apply Ht; reflexivity|exact H|exact H]). clear H; rename Hx into H.
      unfold long_occurrence in H.
      assert (Hv : h_hasvalue h = true -> v <> []) by (intros Hv Ev; rewrite Ev, Hv in H; destruct os as [|[? ?] ?]; cbn in H; discriminate).
      assert (H' : ([EvScan i (Some v)], false) = (evs_of os, used)) by (destruct v; [destruct (h_hasvalue h); [exfalso; apply Hv; auto|auto]|auto]).
      destruct os as [|[i0 v0] [|? ?]]; cbn in H'; try discriminate. injection H' as <- <- <-. exists [], (i, Some v). split; auto. split; [eapply lo_equals; eauto|reflexivity].
  - intros (ws & o & -> & Ho & Hu). unfold read_long. destruct Ho as [nm i h He Hs Ht|nm v i h He Hs Ht Hv|nm v i h He Hs Ht Hv]; apply long_find_iff in Hs.
    + destruct (name_part_plain nm He) as [-> ->]. rewrite Hs. cbn in Hu. subst used. destruct (long_takes h); try contradiction; reflexivity.
    + destruct (name_part_eq nm v He) as [-> ->]. rewrite Hs. cbn in Hu. subst used. destruct (long_takes h); try contradiction; unfold long_occurrence;
      (destruct v; [destruct (h_hasvalue h); [exfalso; apply Hv; auto|reflexivity]|reflexivity]).
    + destruct (name_part_plain nm He) as [-> ->]. rewrite Hs. destruct Hu as [-> ->]. rewrite Ht. unfold long_occurrence. destruct v; [contradiction|reflexivity].
Qed.

Lemma read_cluster_iff a next : forall cs os used,
  read_cluster t a cs next = (evs_of os, Some used) <-> exists ws, cluster t cs ws os /\ used_words ws next used.
Proof.
  intros cs. induction cs as [|c cs IH]; intros os used; cbn [read_cluster].
  - split; [intros [= H <-]; destruct os; [|discriminate]; exists []; split; [constructor|reflexivity]|].
    intros (ws & Hc & Hu). inversion Hc; subst. cbn in Hu. subst used. reflexivity.
  - destruct (ceqb c "-") eqn:E.
    + apply ceqb_eq in E. subst c. split.
      * intros H. destruct cs as [|c cs]; [discriminate|]. destruct (read_long t a (c :: cs) next) as [ev u] eqn:El. injection H as -> ->.
        apply read_long_iff in El as (ws & o & -> & Ho & Hu). exists ws. split; auto. apply cl_long; auto. discriminate.
      * intros (ws & Hc & Hu). inversion Hc; subst; try contradiction.
        assert (read_long t a cs next = (evs_of [o], used)) as -> by (apply read_long_iff; eauto). destruct cs; [contradiction|reflexivity].
    + apply ceqb_neq in E. split.
      * intros H. destruct (short_find t 0 c) as [[i h]|] eqn:Ef; [|destruct (read_cluster t a cs next); destruct os; discriminate].
        apply short_find_iff in Ef. destruct (short_takes h) eqn:Et.
        -- destruct (read_cluster t a cs next) as [ev r] eqn:Er. destruct os as [|[i0 v0] os]; [discriminate|]. cbn in H. injection H as <- <- -> ->.
           destruct (proj1 (IH os used) eq_refl) as (ws & Hc & Hu). exists ws. split; auto. eapply cl_switch; eauto.
        -- destruct cs as [|d cs].
           ++ destruct next as [v|]; [|destruct os as [|? [|? ?]]; discriminate]. destruct os as [|[i0 v0] [|? ?]]; cbn in H; try discriminate. injection H as <- <- <-.
              exists [v]. split; [eapply cl_next; eauto|split; reflexivity].
           ++ destruct os as [|[i0 v0] [|? ?]]; cbn in H; try discriminate. injection H as <- <- <-. exists []. split; [eapply cl_attached; eauto; congruence|reflexivity].
        -- destruct os as [|[i0 v0] [|? ?]]; cbn in H; try discriminate. injection H as <- <- <-. exists []. split; [|reflexivity].
           destruct cs; [eapply cl_bare; eauto|eapply cl_attached; eauto; congruence].
      * intros (ws & Hc & Hu). inversion Hc; subst; try contradiction;
          match goal with Hf : first_declaring _ _ _ _ |- _ => apply short_find_iff in Hf; rewrite Hf end.
        -- match goal with Ht : short_takes _ = _ |- _ => rewrite Ht end.
           assert (read_cluster t a cs next = (evs_of os0, Some used)) as -> by (apply IH; eauto). reflexivity.
        -- match goal with Ht : short_takes _ = _ |- _ => rewrite Ht end. cbn in Hu. subst used. reflexivity.
        -- cbn in Hu. subst used. destruct (short_takes h); try contradiction; (destruct cs; [contradiction|reflexivity]).
        -- match goal with Ht : short_takes _ = _ |- _ => rewrite Ht end. destruct Hu as [-> ->]. reflexivity.
Qed.

Lemma word_iff a : word a <-> is_positional a = true.
Proof.
  unfold word. destruct a as [|c [|d a]]; cbn; [split; auto; discriminate|split; auto; congruence|]. split.
  - intros H. destruct (ceqb c "-") eqn:E; auto. apply ceqb_eq in E. subst c. specialize (H _ eq_refl). discriminate.
  - intros H cs E. injection E as -> _. discriminate.
Qed.

Lemma spells_read posix args os pos : spells t posix args os pos -> read_args posix t args = (evs_of os, Finished pos).
Proof.
  induction 1 as [|rest|a rest Hp Hw|a rest os pos Hp Hw H IH|cs ws os rest os' pos Hn Hd Hc H IH]; cbn [read_args].
  - reflexivity.
  - reflexivity.
  - apply word_iff in Hw. rewrite Hw, Hp. reflexivity.
  - apply word_iff in Hw. rewrite Hw, IH, Hp. reflexivity.
  - assert (is_positional ("-"%char :: cs) = false) as -> by (destruct cs; [contradiction|reflexivity]).
    rewrite str_eqb_neq by (intros [= ->]; apply Hd; reflexivity). cbn [tl].
    assert (Hw : exists used, used_words ws (hd_error (ws ++ rest)) used /\ read_args posix t (ws ++ rest) = if used then read_args posix t (ws ++ rest) else (evs_of os', Finished pos)).
    { destruct ws as [|w [|w2 ws]].
      - exists false. split; [reflexivity|]. exact IH.
      - exists true. split; [split; reflexivity|reflexivity].
      - exfalso. clear -Hc. remember (w :: w2 :: ws) as l. revert Heql. induction Hc; intros; try discriminate; auto. inversion H0; subst; discriminate. }
    destruct Hw as (used & Hu & Er).
    assert (Ecl : read_cluster t ("-"%char :: cs) cs (hd_error (ws ++ rest)) = (evs_of os, Some used)) by (apply read_cluster_iff; eauto).
    rewrite Ecl. destruct ws as [|w [|w2 ws]]; cbn in Hu; [subst used|destruct Hu as [-> _]|contradiction].
    + cbn [app]. rewrite IH. unfold prepend. cbn [fst snd]. rewrite evs_of_app. reflexivity.
    + cbn [app]. rewrite IH. unfold prepend. cbn [fst snd]. rewrite evs_of_app. reflexivity.
Qed.

Lemma read_spells posix : forall n args os pos, (List.length args <= n)%nat -> read_args posix t args = (evs_of os, Finished pos) -> spells t posix args os pos.
Proof.
  induction n as [|n IH]; intros args os pos Hl H.
  { destruct args; [|cbn in Hl; lia]. cbn in H. injection H as H <-. destruct os; [constructor|discriminate]. }
  destruct args as [|a rest]; cbn [read_args] in H.
  { injection H as H <-. destruct os; [constructor|discriminate]. }
  cbn in Hl. destruct (is_positional a) eqn:Ep.
  { apply word_iff in Ep. destruct posix eqn:Ex.
    - injection H as H <-. destruct os; [|discriminate]. apply sp_posix; auto.
    - unfold add_positional in H. destruct (read_args false t rest) as [ev [p|]] eqn:Er; [|discriminate]. cbn in H. injection H as -> <-.
      apply sp_word; auto. apply IH; auto. lia. }
  destruct (str_eqb a (lit "--")) eqn:Ed.
  { apply str_eqb_eq in Ed. subst a. injection H as H <-. destruct os; [apply sp_dashes|discriminate]. }
  assert (Hd : a <> lit "--") by (intros ->; rewrite (proj2 (str_eqb_eq _ _) eq_refl) in Ed; discriminate).
  destruct (is_positional_false a Ep) as (c & r & ->). cbn [tl] in H.
  destruct (read_cluster t ("-"%char :: c :: r) (c :: r) (hd_error rest)) as [ev [used|]] eqn:Ec; [|discriminate].
  assert (Hc : forall o1 o2 rest', evs_of o1 = ev -> (exists ws, rest = ws ++ rest' /\ used_words ws (hd_error rest) used /\ (List.length ws <= 1)%nat) -> spells t posix rest' o2 pos ->
     (forall ws, cluster t (c :: r) ws o1 -> used_words ws (hd_error rest) used -> rest = ws ++ rest') -> spells t posix (("-"%char :: c :: r) :: rest) (o1 ++ o2) pos).
  { intros o1 o2 rest' E1 _ Hs Hw. subst ev. apply read_cluster_iff in Ec as (ws & Hcl & Hu). rewrite (Hw ws Hcl Hu). apply sp_option; auto; [discriminate|].
    intros Hx. apply Hd. injection Hx as -> ->. reflexivity. }
  destruct used.
  - destruct rest as [|w rest]; [exfalso; clear -Ec H; injection H as -> _; apply read_cluster_iff in Ec as (ws & _ & Hu); destruct ws as [|? [|? ?]]; cbn in Hu; try discriminate; try destruct Hu; try discriminate; contradiction|].
    unfold prepend in H. destruct (read_args posix t rest) as [ev2 o] eqn:Er. cbn in H. injection H as H ->. symmetry in H. apply evs_of_app_inv in H as (o1 & o2 & -> & E1 & E2).
    apply Hc with (rest' := rest); auto.
    + exists [w]. split; auto. split; [split; reflexivity|auto].
    + apply IH; [cbn in Hl; lia|]. rewrite Er, E2. reflexivity.
    + intros ws _ Hu. destruct ws as [|w' [|? ?]]; cbn in Hu; [discriminate|destruct Hu as [_ [= ->]]; reflexivity|contradiction].
  - unfold prepend in H. destruct (read_args posix t rest) as [ev2 o] eqn:Er. cbn in H. injection H as H ->. symmetry in H. apply evs_of_app_inv in H as (o1 & o2 & -> & E1 & E2).
    apply Hc with (rest' := rest); auto.
    + exists []. split; auto.
    + apply IH; [lia|]. rewrite Er, E2. reflexivity.
    + intros ws _ Hu. destruct ws as [|w' [|? ?]]; cbn in Hu; [reflexivity|destruct Hu; discriminate|contradiction].
Qed.
Lemma spells_iff posix args os pos : spells t posix args os pos <-> read_args posix t args = (evs_of os, Finished pos).
Proof. split; [apply spells_read|apply (read_spells posix (List.length args)); auto]. Qed.
Lemma occurrences_given i os : occurrences i (evs_of os) = given_to i os.
Proof. unfold occurrences, evs_of, given_to. rewrite flat_map_concat_map, map_map, <- flat_map_concat_map. reflexivity. Qed.
End Spelling.

(** * Entries of any kinds *)
Section Generic.
Context {B : Type}.
Context (scan : hdr -> B -> option (option str -> res (B * Z))).
Notation takes_all := (takes_all scan).

Lemma takes_det h b vs b1 : takes_all h b vs b1 -> forall b2, takes_all h b vs b2 -> b1 = b2.
Proof.
  induction 1 as [b|b f v b1 vs b2 Hs Hf Ht IH|b v vs b2 Hs Ht IH]; intros b3 H3.
  - inversion H3; auto.
  - inversion H3 as [|? f' ? b1' ? ? Hs' Hf' Ht'|? ? ? ? Hs' Ht']; subst; [|congruence].
    apply IH. rewrite Hs in Hs'. injection Hs' as <-. rewrite Hf in Hf'. injection Hf' as <-. auto.
  - inversion H3 as [|? f' ? b1' ? ? Hs' Hf' Ht'|? ? ? ? Hs' Ht']; subst; [congruence|]. auto.
Qed.
Lemma takes_nil_inv h b b' : takes_all h b [] b' -> b' = b.
Proof. inversion 1; auto. Qed.
Lemma takes_split h : forall vs1 b vs2 b', takes_all h b (vs1 ++ vs2) b' -> exists b1, takes_all h b vs1 b1 /\ takes_all h b1 vs2 b'.
Proof.
  induction vs1 as [|v vs1 IH]; intros b vs2 b' H; [exists b; split; [constructor|auto]|].
  cbn in H. inversion H as [|? f' ? b1' ? ? Hs' Hf' Ht'|? ? ? ? Hs' Ht']; subst.
  - destruct (IH _ _ _ Ht') as (bm & H1 & H2). exists bm. split; auto. eapply takes_cons; eauto.
  - destruct (IH _ _ _ Ht') as (bm & H1 & H2). exists bm. split; auto. apply takes_ignore; auto.
Qed.

Lemma events_intro : forall os tab, Forall (fun o => (fst o < List.length tab)%nat) os ->
  (forall i e, nth_error tab i = Some e -> exists b', takes_all (e_hdr e) (e_body e) (given_to i os) b') ->
  exists tab', ideal_events scan (evs_of os) (tab, []) = Ok (tab', []).
Proof.
  induction os as [|[i v] os IH]; intros tab Ho H; [eexists; reflexivity|].
  inversion_clear Ho as [|? ? Hi Ho']. cbn [fst] in Hi. cbn [evs_of map ideal_events fst snd].
  destruct (nth_error tab i) as [e|] eqn:Ei; [|apply nth_error_None in Ei; lia].
  cbn [ideal_event]. rewrite Ei. destruct (H i e Ei) as (b' & Hb). cbn [given_to flat_map fst snd] in Hb. rewrite Nat.eqb_refl in Hb. cbn [app] in Hb.
  change (flat_map _ os) with (given_to i os) in Hb.
  inversion Hb as [|? f ? b1 ? ? Hs Hf Ht|? ? ? ? Hs Ht]; subst.
  - rewrite Hs, Hf. cbn [bind Z.eqb]. apply IH.
    + eapply Forall_impl; [|exact Ho']. intros o. rewrite lupd_length. auto.
    + intros j e1 Hj. rewrite nth_lupd in Hj. destruct (Nat.eqb_spec i j) as [->|Hne].
      * rewrite Ei in Hj. injection Hj as <-. cbn [set_body e_hdr e_body]. eauto.
      * destruct (H j e1 Hj) as (b2 & Hb2). cbn [given_to flat_map fst snd] in Hb2. destruct (Nat.eqb_spec i j); [contradiction|]. eauto.
  - rewrite Hs. cbn [bind]. apply IH; auto. intros j e1 Hj. destruct (H j e1 Hj) as (b2 & Hb2). cbn [given_to flat_map fst snd] in Hb2.
    destruct (Nat.eqb_spec i j) as [->|]; [|eauto]. assert (e1 = e) by congruence. subst e1. eauto.
Qed.

(** The entry does not take the argument, and stays as it is. *)
Definition refuses (h : hdr) (b : B) (a : str) : Prop :=
  scan h b = None \/ exists f c, scan h b = Some f /\ f (Some a) = Ok (b, c) /\ c <> 0.
Definition fits (tab : list (entry B)) (runs : list (list str)) (tab' : list (entry B)) : Prop :=
  forall k e run, nth_error tab k = Some e -> nth_error runs k = Some run ->
    (run <> [] -> no_options (e_hdr e) /\ scan (e_hdr e) (e_body e) <> None) /\
    exists b', nth_error tab' k = Some (set_body b' e) /\ takes_all (e_hdr e) (e_body e) (map Some run) b' /\
      (no_options (e_hdr e) -> forall a, hd_error (List.concat (skipn (S k) runs)) = Some a -> refuses (e_hdr e) b' a).

(** Scan functions that leave the entry alone when they report an error, and do not vanish. *)
Definition steady (h : hdr) (b : B) : Prop :=
  forall f v b' c, scan h b = Some f -> f v = Ok (b', c) -> (c <> 0 -> b' = b) /\ scan h b' <> None.

Context (P : hdr -> B -> Prop).
Hypothesis P_steady : forall h b, P h b -> steady h b.
Hypothesis P_step : forall h b f v b', P h b -> scan h b = Some f -> f v = Ok (b', 0) -> P h b'.

Lemma takes_P h b vs b' : takes_all h b vs b' -> P h b -> P h b'.
Proof. induction 1; auto. intros Hp. apply IHtakes_all. eapply P_step; eauto. Qed.
Lemma set_body_same (e : entry B) : set_body (e_body e) e = e.
Proof. destruct e; reflexivity. Qed.

Lemma feed_elim h i : forall args b rej b' l r, P h b -> feed scan h i b args rej = Ok (b', l, r) ->
  exists run, args = run ++ l /\ takes_all h b (map Some run) b' /\ (run <> [] -> scan h b <> None) /\ (forall a, hd_error l = Some a -> refuses h b' a).
Proof.
  induction args as [|a args IH]; intros b rej b' l r Hb H; cbn [feed] in H.
  - injection H as <- <- _. exists []. split; auto. split; [constructor|]. split; [contradiction|discriminate].
  - destruct (scan h b) as [f|] eqn:Es.
    + apply bind_ok in H as ([b1 c] & Hf & H). destruct (Z.eqb_spec c 0).
      * subst c. apply IH in H as (run & -> & H & _ & Hr); [|eapply P_step; eauto]. exists (a :: run). split; auto.
        split; [eapply takes_cons; eauto|]. split; [discriminate|auto].
      * injection H as <- <- _. destruct (P_steady _ _ Hb _ _ _ _ Es Hf) as [Hst _]. rewrite (Hst n) in *. exists []. split; auto. split; [constructor|]. split; [contradiction|].
        intros a0 [= <-]. right. exists f, c. auto.
    + injection H as <- <- _. exists []. split; auto. split; [constructor|]. split; [contradiction|]. intros a0 [= <-]. left. auto.
Qed.
Lemma positional_elim : forall (tab : list (entry B)) i args rej tab', Forall (fun e => P (e_hdr e) (e_body e)) tab ->
  ideal_positional scan i tab args rej = Ok (tab', []) ->
  exists runs, args = List.concat runs /\ List.length runs = List.length tab /\ fits tab runs tab'.
Proof.
  induction tab as [|e tab IH]; intros i args rej tab' Ht H; cbn [ideal_positional] in H.
  { destruct args; [|destruct rej; discriminate]. exists []. split; auto. split; auto. intros [|?]; discriminate. }
  destruct args as [|a args].
  { injection H as <-. exists (repeat [] (S (List.length tab))).
    assert (Hn : forall n, List.concat (repeat (@nil str) n) = []) by (induction n; cbn; auto).
    split; [rewrite Hn; auto|]. split; [apply repeat_length|].
    intros k e0 run Hk Hr. apply nth_error_In, repeat_spec in Hr. subst run. split; [contradiction|]. exists (e_body e0).
    split; [rewrite Hk, set_body_same; auto|]. split; [constructor|]. intros _ a Ha. exfalso.
    assert (Hs : forall n m, List.concat (skipn m (repeat (@nil str) n)) = []) by (induction n; intros [|m]; cbn; auto).
    rewrite Hs in Ha. discriminate. }
  inversion_clear Ht as [|? ? He Ht']. destruct (positional_hdr (e_hdr e)) eqn:Ep.
  - apply bind_ok in H as ([[b l] r] & Hf & H). apply bind_ok in H as ([t er] & Hp & H). injection H as <- ->.
    apply feed_elim in Hf as (run & El & Hrun & Hsc & Href); auto.
    destruct (IH _ _ _ _ Ht' Hp) as (runs & -> & Hlen & Hk). exists (run :: runs). rewrite El. split; auto. split; [cbn; auto|].
    intros [|k] e0 run0; cbn [nth_error].
    + intros [= <-] [= <-]. split; [intros Hx; split; [apply positional_hdr_iff; auto|auto]|]. exists b. split; auto.
    + intros H1 H2. exact (Hk k e0 run0 H1 H2).
  - apply bind_ok in H as ([t er] & Hp & H). injection H as <- ->.
    destruct (IH _ _ _ _ Ht' Hp) as (runs & El & Hlen & Hk). exists ([] :: runs). split; auto. split; [cbn; auto|].
    intros [|k] e0 run0; cbn [nth_error].
    + intros [= <-] [= <-]. split; [contradiction|]. exists (e_body e). split; [rewrite set_body_same; auto|]. split; [constructor|].
      intros Hno. apply positional_hdr_iff in Hno. congruence.
    + intros H1 H2. exact (Hk k e0 run0 H1 H2).
Qed.

Lemma feed_intro h i : forall run b rej b' l, P h b -> takes_all h b (map Some run) b' -> (run <> [] -> scan h b <> None) -> (forall a, hd_error l = Some a -> refuses h b' a) ->
  exists r, feed scan h i b (run ++ l) rej = Ok (b', l, r).
Proof.
  induction run as [|a run IH]; intros b rej b' l Hb Ht Hs Hr.
  - inversion Ht; subst. destruct l as [|a l]; cbn [feed app]; [eauto|]. destruct (Hr a eq_refl) as [->|(f & c & -> & Hf & Hc)]; [eauto|].
    rewrite Hf. cbn [bind]. destruct (Z.eqb_spec c 0); [contradiction|]. eauto.
  - cbn [feed app]. cbn [map] in Ht. inversion Ht as [|? f ? b1 ? ? Hsc Hf Ht'|? ? ? ? Hsc Ht']; subst; [|exfalso; apply Hs; [discriminate|auto]].
    rewrite Hsc, Hf. cbn [bind Z.eqb]. apply IH; auto; [eapply P_step; eauto|]. intros _. exact (proj2 (P_steady _ _ Hb _ _ _ _ Hsc Hf)).
Qed.
(** [got k e]: what entry [k] becomes. *)
Lemma positional_intro : forall (tab : list (entry B)) i rej runs (got : nat -> entry B -> B), Forall (fun e => P (e_hdr e) (e_body e)) tab -> List.length runs = List.length tab ->
  (forall k e run, nth_error tab k = Some e -> nth_error runs k = Some run ->
    (run <> [] -> no_options (e_hdr e) /\ scan (e_hdr e) (e_body e) <> None) /\
    takes_all (e_hdr e) (e_body e) (map Some run) (got k e) /\
    (no_options (e_hdr e) -> forall a, hd_error (List.concat (skipn (S k) runs)) = Some a -> refuses (e_hdr e) (got k e) a)) ->
  exists tab', ideal_positional scan i tab (List.concat runs) rej = Ok (tab', []) /\ List.length tab' = List.length tab /\
    forall k e, nth_error tab k = Some e -> nth_error tab' k = Some (set_body (got k e) e).
Proof.
  induction tab as [|e tab IH]; intros i rej runs got Ht Hlen H.
  { destruct runs; [|discriminate]. exists []. split; auto. split; auto. intros [|?]; discriminate. }
  destruct runs as [|run runs]; [discriminate|]. injection Hlen as Hlen. inversion_clear Ht as [|? ? He Ht'].
  destruct (H 0%nat e run eq_refl eq_refl) as (H1 & H2 & H3). cbn [skipn] in H3.
  pose proof (fun i rej => IH i rej runs (fun k => got (S k)) Ht' Hlen (fun k e run Hk Hr => H (S k) e run Hk Hr)) as IH'.
  cbn [ideal_positional List.concat]. destruct (run ++ List.concat runs) as [|a args] eqn:Ea.
  - apply app_eq_nil in Ea as [-> Ec]. exists (e :: tab). split; auto. split; auto.
    assert (Hnil : forall k r, nth_error runs k = Some r -> r = []).
    { clear -Ec. induction runs as [|r runs IH]; intros [|k] r0 Hr; try discriminate; cbn in Ec; apply app_eq_nil in Ec as [-> Ec]; cbn in Hr; [congruence|eapply IH; eauto]. }
    intros [|k] e0 Hk; cbn [nth_error] in *.
    + injection Hk as <-. apply takes_nil_inv in H2. rewrite H2, set_body_same. auto.
    + destruct (nth_error runs k) as [r|] eqn:Er; [|apply nth_error_None in Er; assert (k < List.length tab)%nat by (apply nth_error_Some; congruence); lia].
      destruct (H (S k) e0 r Hk Er) as (_ & H2' & _). rewrite (Hnil k r Er) in H2'. apply takes_nil_inv in H2'. rewrite H2', set_body_same. auto.
  - rewrite <- Ea. clear a args Ea. destruct (positional_hdr (e_hdr e)) eqn:Ep.
    + apply positional_hdr_iff in Ep. destruct (feed_intro (e_hdr e) i run (e_body e) rej (got 0%nat e) (List.concat runs)) as (r & Ef); auto.
      { intros Hx. apply H1 in Hx. tauto. }
      rewrite Ef. cbn [bind]. destruct (IH' (S i) r) as (t & Hq & Hl & Hk). rewrite Hq. cbn [bind]. eexists. split; [reflexivity|]. split; [cbn; auto|].
      intros [|k] e0 Hk0; cbn [nth_error] in *; [injection Hk0 as <-; auto|apply Hk; auto].
    + assert (run = []) as -> by (destruct run; auto; exfalso; destruct (H1 ltac:(discriminate)) as [Hno _]; apply positional_hdr_iff in Hno; congruence).
      cbn [app]. destruct (IH' (S i) rej) as (t & -> & Hl & Hk). cbn [bind]. eexists. split; [reflexivity|]. split; [cbn; auto|].
      intros [|k] e0 Hk0; cbn [nth_error] in *; [injection Hk0 as <-|apply Hk; auto]. apply takes_nil_inv in H2. rewrite H2, set_body_same. auto.
Qed.
End Generic.

(** * The library's kinds of entries *)
Section Kinds.
Context {D : Type}.
Context (strtod : str -> D * nat).
Context (rexmatch : str -> Z -> str -> res bool).
Context (sp : seps).
Hypothesis strtod_ok : forall s, (snd (strtod s) <= List.length s)%nat.
Notation lm := Long64.
Notation scan := (kscan strtod rexmatch lm sp).
Notation safe_value := (safe_value lm).
Notation Inv := (Inv rexmatch).
Notation denotes := (denotes strtod rexmatch lm sp).
Notation stored := (stored strtod rexmatch lm sp).
Notation takes_all := (takes_all scan).
Notation acceptable := (acceptable strtod rexmatch lm sp).
Notation satisfied := (satisfied strtod rexmatch lm sp).
Notation could_take := (could_take strtod rexmatch lm sp).

Lemma scan_count h (b : body D) : scan h b = None <-> kcount b = None.
Proof. destruct b; cbn; split; discriminate || auto. Qed.

(** Whatever the value: an error leaves the entry alone, success keeps it in order. *)
Lemma scan_any ints h (b : body D) f v b' c : Inv ints h b -> scan h b = Some f -> f v = Ok (b', c) -> (c <> 0 -> b' = b) /\ Inv ints h b'.
Proof.
  intros (Hb & Hm & Hi) Hs Hf. destruct b as [k|p|p|p|p|p|p|]; cbn [kscan bounded matchable is_int] in *; try discriminate; injection Hs as <-.
  - unfold arg_lit_scanfn in Hf. destruct (Z.ltb_spec k (h_maxcount h)); injection Hf as <- <-; (split; [congruence|]); split; cbn; auto; lia.
  - pose proof (arg_int_scanfn_ok lm (h_maxcount h) p v ltac:(lia) ltac:(tauto)) as H.
    destruct (arg_int_scanfn lm (h_maxcount h) p v) as [[p' e]|u|]; cbn [lift bind] in Hf; try discriminate. injection Hf as <- <-.
    destruct H as (H1 & H2 & H3 & H4). split; [intros He; rewrite H3; auto|]. split; cbn; auto.
  - unfold arg_dbl_scanfn in Hf. destruct (Z.eqb_spec (dbl_count p) (h_maxcount h)); [injection Hf as <- <-; split; [auto|split; auto]|].
    destruct v as [s|]; [|injection Hf as <- <-; split; [congruence|]; split; cbn; auto; lia].
    destruct (strtod s) as [val n0]. destruct (Nat.ltb_spec (List.length s) n0); [discriminate|]. destruct (skipn n0 s); [|injection Hf as <- <-; split; [auto|split; auto]].
    rewrite aset_ok' in Hf by lia. injection Hf as <- <-. split; [congruence|]. split; cbn; auto. rewrite zlen_lupd. lia.
  - unfold arg_str_scanfn in Hf. destruct (Z.eqb_spec (str_count p) (h_maxcount h)); [injection Hf as <- <-; split; [auto|split; auto]|].
    destruct v as [s|]; [|injection Hf as <- <-; split; [congruence|]; split; cbn; auto; lia].
    rewrite aset_ok' in Hf by lia. injection Hf as <- <-. split; [congruence|]. split; cbn; auto. rewrite zlen_lupd. lia.
  - pose proof (C20_file_scan sp (h_maxcount h) p) as H20. unfold arg_file_scanfn in Hf, H20. destruct (Z.eqb_spec (file_count p) (h_maxcount h)); [injection Hf as <- <-; split; [auto|split; auto]|].
    destruct v as [s|]; [|injection Hf as <- <-; split; [congruence|]; split; cbn; auto; lia].
    destruct (H20 s) as (bn & ex & _ & _ & _ & _ & _ & _ & E); try tauto; [lia|]. rewrite E in Hf. injection Hf as <- <-. split; [congruence|]. split; cbn; auto. rewrite !zlen_lupd. lia.
  - unfold arg_date_scanfn in Hf. destruct (Z.eqb_spec (date_count p) (h_maxcount h)); [injection Hf as <- <-; split; [auto|split; auto]|].
    destruct v as [s|]; [|injection Hf as <- <-; split; [congruence|]; split; cbn; auto; lia].
    destruct (aget_ok (date_tmval p) (date_count p)) as (t & Et & En); [lia|]. rewrite Et in Hf. cbn [bind] in Hf.
    destruct (arg_strptime s (date_format p) t) as [[t' [[|x r]|]]| |]; cbn [bind lift] in Hf; try discriminate; try (injection Hf as <- <-; split; [auto|split; auto]; fail).
    rewrite aset_ok' in Hf by lia. injection Hf as <- <-. split; [congruence|]. split; cbn; auto. rewrite zlen_lupd. lia.
  - unfold arg_rex_scanfn in Hf. destruct (Z.eqb_spec (rex_count p) (h_maxcount h)); [injection Hf as <- <-; split; [auto|split; auto]|].
    destruct v as [s|]; [|injection Hf as <- <-; split; [congruence|]; split; cbn; auto; lia].
    destruct (rexmatch (rex_pattern p) (rex_flags p) s) as [[|]| |]; cbn [bind lift] in Hf; try discriminate; try (injection Hf as <- <-; split; [auto|split; auto]; fail).
    rewrite aset_ok' in Hf by lia. injection Hf as <- <-. split; [congruence|]. split; cbn; auto. rewrite zlen_lupd. lia.
Qed.
Lemma Inv_steady ints h b : Inv ints h b -> steady scan h b.
Proof.
  intros Hb f v b' c Hs Hf. destruct (scan_any ints h b f v b' c Hb Hs Hf) as [H1 _]. split; auto.
  rewrite scan_count. destruct b; cbn in Hs; try discriminate; injection Hs as <-; cbn in Hf; try (apply bind_ok in Hf as ([p' c'] & _ & Hf); injection Hf as <- _; discriminate).
  destruct (arg_lit_scanfn _ _) in Hf. injection Hf as <- _. discriminate.
Qed.
Lemma Inv_step ints h b f v b' : Inv ints h b -> scan h b = Some f -> f v = Ok (b', 0) -> Inv ints h b'.
Proof. intros. eapply scan_any; eauto. Qed.

(** What denotes something is accepted. *)
Lemma scan_complete ints h (b : body D) f v n : Inv ints h b -> (forall s, v = Some s -> safe_value ints s) -> scan h b = Some f -> kcount b = Some n -> n < h_maxcount h ->
  (forall s, v = Some s -> match b with KLit _ => True | _ => exists v0 x, nth_error (slots b) (Z.to_nat n) = Some v0 /\ denotes b v0 s x end) ->
  exists b', f v = Ok (b', 0).
Proof.
  intros (Hb & Hm & Hi) Hv Hs Hk Hlt Hd. destruct b as [k|p|p|p|p|p|p|]; cbn [kscan bounded matchable is_int kcount slots] in *; try discriminate; injection Hs as <-; injection Hk as <-.
  - unfold arg_lit_scanfn. destruct (Z.ltb_spec k (h_maxcount h)); [eauto|lia].
  - destruct v as [s|].
    + destruct (Hd s eq_refl) as (v0 & x & _ & z & _ & Hz). destruct (Hz eq_refl) as [H1 H2].
      rewrite (int_scan_accepts (h_maxcount h) p s z); [cbn; eauto|lia|tauto| |auto|auto].
      exact (proj2 (Hv s eq_refl) (Hi eq_refl) [] s eq_refl).
    + unfold arg_int_scanfn. destruct (Z.eqb_spec (int_count p) (h_maxcount h)); [lia|]. cbn. eauto.
  - unfold arg_dbl_scanfn. destruct (Z.eqb_spec (dbl_count p) (h_maxcount h)); [lia|]. destruct v as [s|]; [|cbn; eauto].
    destruct (Hd s eq_refl) as (v0 & x & _ & d & -> & _). rewrite Nat.ltb_irrefl, skipn_all, aset_ok' by lia. cbn. eauto.
  - unfold arg_str_scanfn. destruct (Z.eqb_spec (str_count p) (h_maxcount h)); [lia|]. destruct v as [s|]; [|cbn; eauto].
    rewrite aset_ok' by lia. cbn. eauto.
  - destruct v as [s|].
    + destruct (C20_file_scan sp (h_maxcount h) p s) as (bn & ex & _ & _ & _ & _ & _ & _ & E); try tauto; try lia. rewrite E. cbn. eauto.
    + unfold arg_file_scanfn. destruct (Z.eqb_spec (file_count p) (h_maxcount h)); [lia|]. cbn. eauto.
  - unfold arg_date_scanfn. destruct (Z.eqb_spec (date_count p) (h_maxcount h)); [lia|]. destruct v as [s|]; [|cbn; eauto].
    destruct (Hd s eq_refl) as (v0 & x & Hn & t & t' & -> & Hr & _).
    destruct (aget_ok (date_tmval p) (date_count p)) as (t0 & Et & En); [lia|]. rewrite Et. cbn [bind].
    rewrite (map_nth_error (@VDate D) _ _ En) in Hn. injection Hn as ->.
    apply arg_strptime_iff in Hr; [|exact (proj1 (Hv s eq_refl))]. rewrite Hr. cbn [bind]. rewrite aset_ok' by lia. cbn. eauto.
  - unfold arg_rex_scanfn. destruct (Z.eqb_spec (rex_count p) (h_maxcount h)); [lia|]. destruct v as [s|]; [|cbn; eauto].
    destruct (Hd s eq_refl) as (v0 & x & _ & -> & _). cbn [bind]. rewrite aset_ok' by lia. cbn. eauto.
Qed.

Lemma takes_intro ints h : forall vs (b : body D) n, Inv ints h b -> (forall s, In (Some s) vs -> safe_value ints s) -> kcount b = Some n -> n + zlen vs <= h_maxcount h ->
  (forall j s, nth_error vs j = Some (Some s) -> match b with KLit _ => True | _ => exists v0 x, nth_error (slots b) (Z.to_nat n + j) = Some v0 /\ denotes b v0 s x end) ->
  exists b', takes_all h b vs b'.
Proof.
  induction vs as [|v vs IH]; intros b n Hb Hv Hn Hm Hd; [exists b; constructor|]. rewrite zlen_cons in Hm. pose proof (zlen_nonneg vs).
  destruct (scan h b) as [f|] eqn:Es; [|apply scan_count in Es; congruence].
  assert (Hv' : forall s, v = Some s -> safe_value ints s) by (intros s ->; apply Hv; left; auto).
  destruct (scan_complete ints h b f v n Hb Hv' Es Hn ltac:(lia)) as (b1 & Hf).
  { intros s ->. specialize (Hd 0%nat s eq_refl). rewrite Nat.add_0_r in Hd. exact Hd. }
  destruct (scan_accept strtod rexmatch lm sp strtod_ok ints h b f v b1 n Hb Hv' Es Hf Hn) as [Hk Hsl].
  destruct (scan_inv strtod rexmatch lm sp strtod_ok ints h b f v Hb Hv' Es) as (b1' & c & Hf' & Hb1 & Hor). rewrite Hf in Hf'. injection Hf' as <- <-.
  destruct Hor as [(_ & n' & Hn' & Hn1 & Hlt)|[? _]]; [|contradiction]. rewrite Hn in Hn'. injection Hn' as <-.
  assert (Hn0 : 0 <= n) by (destruct Hb as [Hb _]; destruct b; cbn in Hb, Hn; try discriminate; injection Hn as <-; lia).
  destruct (IH b1 (n + 1) Hb1 ltac:(intros s Hi; apply Hv; right; auto) Hn1 ltac:(lia)) as (b' & Hb').
  { intros j s Hj. specialize (Hd (S j) s Hj). replace (Z.to_nat (n + 1) + j)%nat with (Z.to_nat n + S j)%nat by lia.
    assert (Hold : nth_error (slots b1) (Z.to_nat n + S j) = nth_error (slots b) (Z.to_nat n + S j)).
    { destruct v as [s'|]; [|rewrite Hsl; auto]. destruct b; try (rewrite Hsl; auto); destruct Hsl as (v0 & x & _ & _ & ->);
        rewrite nth_lupd; destruct (Nat.eqb_spec (Z.to_nat n) (Z.to_nat n + S j)); auto; lia. }
    rewrite Hold. destruct b1; auto; destruct b; cbn in Hk; try contradiction;
    destruct Hd as (v0 & x & E1 & E2); exists v0, x; (split; [exact E1|]); eapply denotes_kind; eauto; cbn; auto. }
  exists b'. eapply takes_cons; eauto.
Qed.

(** A freshly reset entry takes exactly the acceptable sequences of at most maxcount. *)
Lemma entry_takes ints (e : entry (body D)) b0 vs : Inv ints (e_hdr e) (e_body e) -> kcount (e_body e) <> None -> kreset (e_hdr e) (e_body e) = Ok b0 ->
  (forall s, In (Some s) vs -> safe_value ints s) ->
  ((exists b', takes_all (e_hdr e) b0 vs b') <-> zlen vs <= h_maxcount (e_hdr e) /\ acceptable e vs).
Proof.
  intros He Hc Hr Hv. destruct (reset_inv rexmatch ints _ _ He) as (b0' & E & Hb0 & _ & H0). rewrite Hr in E. injection E as <-. specialize (H0 Hc).
  destruct (reset_slots rexmatch ints _ _ _ He Hr) as [Hs Hk]. split.
  - intros (b' & Ht). destruct (takes_stored strtod rexmatch lm sp strtod_ok ints _ _ _ _ Ht 0 Hb0 Hv H0) as (I1 & I2 & I3 & I4 & I5 & I6).
    split. { destruct I1 as [I1 _]. cbn in I3. destruct b'; cbn in I1, I3; try discriminate; injection I3 as I3; lia. }
    exists (slots b'). unfold KindsSpec.stored. rewrite Hs in *. split; [destruct (e_body e), b0; cbn in Hk; try contradiction; auto|].
    intros k. specialize (I6 k). cbn [Z.to_nat Nat.add] in I6. destruct (nth_error vs k) as [[s|]|]; auto.
    destruct (e_body e), b0; cbn in Hk; try contradiction; auto; destruct I6 as (v0 & x & E1 & E2 & E3); exists v0, x; (split; [exact E1|]); (split; [exact E2|]); eapply denotes_kind; eauto; cbn; auto; intuition congruence.
  - intros [Hm (l & Hl1 & Hl2)]. apply takes_intro with (ints := ints) (n := 0); auto. intros j s Hj. specialize (Hl2 j). rewrite Hj in Hl2.
    cbn [Z.to_nat Nat.add]. rewrite Hs.
    destruct (e_body e), b0; cbn in Hk; try contradiction; auto; destruct Hl2 as (v0 & x & E1 & E2 & E3); exists v0, x; (split; [exact E1|]); eapply denotes_kind; eauto; cbn; auto.
Qed.

Lemma takes_rem h (b : body D) vs b' : takes_all h b vs b' -> kcount b = None -> b' = b.
Proof. induction 1 as [|b f v b1 vs b2 Hs Hf Ht IH|b v vs b2 Hs Ht IH]; intros Hn; auto. apply (scan_count h) in Hn. congruence. Qed.
Lemma takes_any_rem h (b : body D) vs : kcount b = None -> takes_all h b vs b.
Proof. intros Hn. induction vs; [constructor|]. apply takes_ignore; auto. apply scan_count; auto. Qed.

(** Refusing an argument is not being able to take it. *)
Lemma refuses_iff ints (e : entry (body D)) b0 given b a : Inv ints (e_hdr e) (e_body e) -> kreset (e_hdr e) (e_body e) = Ok b0 ->
  (forall s, In (Some s) given -> safe_value ints s) -> safe_value ints a -> takes_all (e_hdr e) b0 given b ->
  (refuses scan (e_hdr e) b a <-> ~ could_take e given a).
Proof.
  intros He Hr Hg Ha Ht. destruct (reset_inv rexmatch ints _ _ He) as (b0' & E & Hb0 & HN & H0). rewrite Hr in E. injection E as <-.
  assert (Hb : Inv ints (e_hdr e) b) by (eapply (takes_P scan (Inv ints)); eauto; intros; eapply Inv_step; eauto).
  destruct (kcount (e_body e)) as [n|] eqn:Ek.
  - specialize (H0 ltac:(congruence)).
    destruct (takes_stored strtod rexmatch lm sp strtod_ok ints _ _ _ _ Ht 0 Hb0 Hg H0) as (_ & _ & Hc & _).
    destruct (scan (e_hdr e) b) as [f|] eqn:Es; [|apply scan_count in Es; congruence].
    assert (Hg' : forall s, In (Some s) (given ++ [Some a]) -> safe_value ints s).
    { intros s Hi. apply in_app_iff in Hi as [Hi|[[= <-]|[]]]; auto. }
    assert (Hz : zlen (given ++ [Some a]) = zlen given + 1) by (rewrite zlen_app; reflexivity).
    pose proof (entry_takes ints e b0 (given ++ [Some a]) He ltac:(congruence) Hr Hg') as Hit.
    destruct (scan_inv strtod rexmatch lm sp strtod_ok ints _ _ f (Some a) Hb ltac:(intros s [= <-]; auto) Es) as (b' & c & Hf & _ & Hor). split.
    + intros [Hn|(f' & c' & Es' & Hf' & Hc')]; [congruence|]. assert (f' = f) by congruence. subst f'. intros (_ & C2 & C3).
      destruct (proj2 Hit ltac:(split; [lia|auto])) as (b2 & Ht2). apply takes_split in Ht2 as (bm & T1 & T2).
      rewrite (takes_det scan _ _ _ _ T1 _ Ht) in T2. inversion T2 as [|? f2 ? b1 ? ? Hs2 Hf2 _|? ? ? ? Hs2 _]; subst; congruence.
    + intros Hnc. right. exists f, c. split; auto. destruct Hor as [(-> & _)|[Hne ->]]; [|auto]. exfalso. apply Hnc.
      destruct (proj1 Hit) as [Hm Hacc].
      { exists b'. eapply takes_app; [exact Ht|]. eapply takes_cons; eauto. constructor. }
      split; [congruence|]. split; [lia|auto].
  - specialize (HN eq_refl). rewrite (takes_rem _ _ _ _ Ht HN). split.
    + intros _ (Hn & _). congruence.
    + intros _. left. apply scan_count. auto.
Qed.

Lemma reset_each : forall (tab t0 : list (entry (body D))), ideal_reset kreset tab = Ok t0 -> List.length t0 = List.length tab /\
  forall i e, nth_error tab i = Some e -> exists b, nth_error t0 i = Some (set_body b e) /\ kreset (e_hdr e) (e_body e) = Ok b.
Proof.
  induction tab as [|e tab IH]; intros t0 E0; cbn in E0; [injection E0 as <-; split; auto; intros [|i]; discriminate|].
  apply bind_ok in E0 as (b & Eb & E0). apply bind_ok in E0 as (t & Et & E0). injection E0 as <-. destruct (IH t Et) as [Hl H]. split; [cbn; auto|].
  intros [|i] e0 Hi; cbn in *; [injection Hi as <-; eauto|auto].
Qed.
Lemma check_iff : forall (tab : list (entry (body D))) i, ideal_check kcheck i tab = [] <-> Forall (fun e => forall n, kcount (e_body e) = Some n -> h_mincount (e_hdr e) <= n) tab.
Proof.
  assert (Hone : forall (e : entry (body D)) i, match kcheck (e_hdr e) (e_body e) with Some c => if c =? 0 then [] else [mk_err (PEntry i) c None] | None => [] end = [] <->
    forall n, kcount (e_body e) = Some n -> h_mincount (e_hdr e) <= n).
  { intros e i. assert (Hc : forall m c, (if checkfn m c =? 0 then [] else [mk_err (PEntry i) (checkfn m c) None]) = [] <-> forall n, Some c = Some n -> m <= n).
    { intros m c. unfold checkfn. destruct (Z.ltb_spec c m); cbn; split; try discriminate; auto; [intros Hn; specialize (Hn c eq_refl); lia|intros _ n [= <-]; auto]. }
    destruct (e_body e); cbn [kcheck kcount]; try apply Hc. split; [discriminate|auto]. }
  induction tab as [|e tab IH]; intros i; cbn [ideal_check]; [split; auto|]. split.
  - intros H. apply app_eq_nil in H as [H1 H2]. constructor; [apply (Hone e i); auto|apply (IH (S i)); auto].
  - intros H. inversion_clear H as [|? ? H1 H2]. rewrite (proj2 (Hone e i) H1), (proj2 (IH (S i)) H2). auto.
Qed.

Section Parse.
Context (ints : bool) (tab : list (entry (body D))) (os : list occurrence) (pos : list str).
Hypothesis Htab : Forall (inv (Inv ints)) tab.
Hypothesis Hos : Forall (fun o => (fst o < List.length tab)%nat /\ forall s, snd o = Some s -> safe_value ints s) os.
Hypothesis Hpos : Forall (safe_value ints) pos.
Notation shared := (shared strtod rexmatch lm sp).

Lemma given_safe i s : In (Some s) (given_to i os) -> safe_value ints s.
Proof.
  unfold given_to. intros Hin. apply in_flat_map in Hin as (o & Ho & Hin). rewrite Forall_forall in Hos. apply Hos in Ho as [_ Ho].
  destruct (Nat.eqb (fst o) i); [|contradiction]. destruct Hin as [Hin|[]]. auto.
Qed.
Lemma run_safe runs i run : pos = List.concat runs -> nth_error runs i = Some run -> forall s, In (Some s) (given_to i os ++ map Some run) -> safe_value ints s.
Proof.
  intros -> Hr s Hin. apply in_app_iff in Hin as [Hin|Hin]; [eapply given_safe; eauto|].
  apply in_map_iff in Hin as (x & [= ->] & Hin). rewrite Forall_forall in Hpos. apply Hpos. apply in_concat. exists run. split; auto. eapply nth_error_In; eauto.
Qed.
Lemma next_safe runs i a : pos = List.concat runs -> hd_error (List.concat (skipn i runs)) = Some a -> safe_value ints a.
Proof.
  intros -> Ha. rewrite Forall_forall in Hpos. apply Hpos. rewrite <- (firstn_skipn i runs), concat_app. apply in_app_iff. right.
  destruct (List.concat (skipn i runs)); [discriminate|]. injection Ha as ->. left. auto.
Qed.
Lemma entry_inv i e : nth_error tab i = Some e -> Inv ints (e_hdr e) (e_body e).
Proof. intros Hi. rewrite Forall_forall in Htab. apply (Htab e). eapply nth_error_In; eauto. Qed.

(** A parse without errors is one of the command lines of the specification. *)
Lemma ideal_elim tab' : ideal_parse scan kcheck kreset (evs_of os) pos tab = Ok (tab', []) -> exists runs, shared tab os pos runs.
Proof.
  intros Ei. unfold ideal_parse in Ei. apply bind_ok in Ei as (t0 & E0 & Ei). apply bind_ok in Ei as ([t1 e1] & Ee & Ei). apply bind_ok in Ei as ([t2 e2] & Ep & Ei).
  cbn [fst snd] in *. destruct e1; [|discriminate]. destruct e2; [|discriminate]. injection Ei as <- Ei. cbn [app] in Ei. apply check_iff in Ei.
  destruct (reset_each tab t0 E0) as [L0 R0].
  assert (Hsafe := kinds_safe strtod rexmatch lm sp strtod_ok ints).
  destruct (reset_safe scan kreset _ _ Hsafe tab Htab) as (t0' & E0' & H0). rewrite E0 in E0'. injection E0' as <-.
  destruct (events_safe scan kreset _ _ Hsafe (evs_of os) t0 [] H0) as (t1' & e1' & Ee' & H1 & H1h).
  { unfold evs_of. apply Forall_forall. intros ev Hev. apply in_map_iff in Hev as (o & <- & Ho). cbn. rewrite map_length, L0. rewrite Forall_forall in Hos. apply Hos; auto. }
  { unfold evs_of. apply Forall_forall. intros ev Hev. apply in_map_iff in Hev as (o & <- & Ho). cbn. rewrite Forall_forall in Hos. destruct (snd o) eqn:E; auto. apply (proj2 (Hos o Ho)); auto. }
  rewrite Ee in Ee'. injection Ee' as <- _.
  destruct (positional_elim scan (Inv ints) (Inv_steady ints) (Inv_step ints) t1 0 pos None t2 H1 Ep) as (runs & Hpr & Hlen & Hfit).
  assert (L1 : List.length t1 = List.length tab) by (rewrite <- L0, <- (map_length e_hdr t1), <- (map_length e_hdr t0), H1h; auto).
  exists runs. split; auto. split; [lia|]. intros i e run Hi Hrun given.
  destruct (R0 i e Hi) as (b0 & Hi0 & Eb0). destruct (events_given scan _ t0 t1 Ee i _ Hi0) as (b1 & Hi1 & T1). rewrite occurrences_given in T1.
  destruct (Hfit i _ run Hi1 Hrun) as (Hno & b2 & Hi2 & T2 & Href). cbn in T1, T2, Hno, Href, Hi2.
  pose proof (takes_app scan _ _ _ _ _ _ T1 T2) as T. fold given in T. pose proof (entry_inv i e Hi) as He. pose proof (run_safe runs i run Hpr Hrun) as Hg. fold given in Hg.
  destruct (reset_inv rexmatch ints _ _ He) as (b0' & E & Hb0 & HN & HS). rewrite Eb0 in E. injection E as <-.
  split; [|split].
  - intros Hne. destruct (Hno Hne) as [Hn1 Hn2]. split; auto. intros Hk. apply Hn2. apply scan_count. rewrite (takes_rem _ _ _ _ T1 (HN Hk)). auto.
  - intros Hk. specialize (HS Hk). destruct (takes_stored strtod rexmatch lm sp strtod_ok ints _ _ _ _ T 0 Hb0 Hg HS) as (_ & _ & Hc & _).
    destruct (proj1 (entry_takes ints e b0 given He Hk Eb0 Hg)) as [Hm Ha]; [eauto|]. split; auto. split; auto.
    rewrite Forall_forall in Ei. apply nth_error_In in Hi2. specialize (Ei _ Hi2). cbn in Ei. apply Ei. rewrite Hc. f_equal.
  - intros Hn a Ha. apply (refuses_iff ints e b0 given b2 a); auto. eapply next_safe; eauto.
Qed.

(** And every such command line is parsed without errors; the values are stored. *)
Lemma ideal_intro runs : shared tab os pos runs ->
  exists tab', ideal_parse scan kcheck kreset (evs_of os) pos tab = Ok (tab', []) /\
  forall i e run, nth_error tab i = Some e -> nth_error runs i = Some run ->
    let given := given_to i os ++ map Some run in
    exists e', nth_error tab' i = Some e' /\ e_hdr e' = e_hdr e /\
      (kcount (e_body e) <> None -> kcount (e_body e') = Some (zlen given) /\ stored (e_body e) (slots_reset (e_body e)) given (slots (e_body e'))).
Proof.
  intros (Hpr & Hlen & Hsh).
  assert (Hsafe := kinds_safe strtod rexmatch lm sp strtod_ok ints).
  destruct (reset_safe scan kreset _ _ Hsafe tab Htab) as (t0 & E0 & H0). destruct (reset_each tab t0 E0) as [L0 R0].
  assert (Hrun : forall i e, nth_error tab i = Some e -> exists run, nth_error runs i = Some run).
  { intros i e Hi. destruct (nth_error runs i) as [run|] eqn:E; eauto. apply nth_error_None in E. assert (i < List.length tab)%nat by (apply nth_error_Some; congruence). lia. }
  assert (HT : forall i e run, nth_error tab i = Some e -> nth_error runs i = Some run -> exists b0 b1 b2, nth_error t0 i = Some (set_body b0 e) /\
     kreset (e_hdr e) (e_body e) = Ok b0 /\ takes_all (e_hdr e) b0 (given_to i os) b1 /\ takes_all (e_hdr e) b1 (map Some run) b2).
  { intros i e run Hi Hr. destruct (R0 i e Hi) as (b0 & Hi0 & Eb0). destruct (Hsh i e run Hi Hr) as (S1 & S2 & _).
    pose proof (entry_inv i e Hi) as He. destruct (reset_inv rexmatch ints _ _ He) as (b0' & E & Hb0 & HN & HS). rewrite Eb0 in E. injection E as <-.
    destruct (kcount (e_body e)) as [n|] eqn:Ek.
    - destruct S2 as [Hm Ha]; [congruence|]. destruct (proj2 (entry_takes ints e b0 (given_to i os ++ map Some run) He ltac:(congruence) Eb0 (run_safe runs i run Hpr Hr))) as (b2 & T); [split; auto; lia|].
      apply takes_split in T as (b1 & T1 & T2). exists b0, b1, b2. auto.
    - exists b0, b0, b0. split; auto. split; auto. split; apply takes_any_rem; auto. }
  destruct (events_intro scan os t0) as (t1 & Ee).
  { eapply Forall_impl; [|exact Hos]. intros o [Ho _]. rewrite L0. auto. }
  { intros i e0 Hi0. destruct (nth_error tab i) as [e|] eqn:Hi; [|apply nth_error_None in Hi; assert (i < List.length t0)%nat by (apply nth_error_Some; congruence); lia].
    destruct (Hrun i e Hi) as (run & Hr). destruct (HT i e run Hi Hr) as (b0 & b1 & b2 & Hb & _ & T1 & _). rewrite Hi0 in Hb. injection Hb as ->. cbn. eauto. }
  destruct (events_safe scan kreset _ _ Hsafe (evs_of os) t0 [] H0) as (t1' & e1' & Ee' & H1 & H1h).
  { unfold evs_of. apply Forall_forall. intros ev Hev. apply in_map_iff in Hev as (o & <- & Ho). cbn. rewrite map_length, L0. rewrite Forall_forall in Hos. apply Hos; auto. }
  { unfold evs_of. apply Forall_forall. intros ev Hev. apply in_map_iff in Hev as (o & <- & Ho). cbn. rewrite Forall_forall in Hos. destruct (snd o) eqn:E; auto. apply (proj2 (Hos o Ho)); auto. }
  rewrite Ee in Ee'. injection Ee' as <- _.
  assert (L1 : List.length t1 = List.length tab) by (rewrite <- L0, <- (map_length e_hdr t1), <- (map_length e_hdr t0), H1h; auto).
  assert (HT1 : forall i e run, nth_error tab i = Some e -> nth_error runs i = Some run -> exists b0 b1 b2, nth_error t1 i = Some (set_body b1 e) /\
     kreset (e_hdr e) (e_body e) = Ok b0 /\ takes_all (e_hdr e) b0 (given_to i os) b1 /\ takes_all (e_hdr e) b1 (map Some run) b2).
  { intros i e run Hi Hr. destruct (HT i e run Hi Hr) as (b0 & b1 & b2 & Hi0 & Eb & T1 & T2). exists b0, b1, b2.
    destruct (events_given scan _ t0 t1 Ee i _ Hi0) as (b1' & Hi1 & T1'). rewrite occurrences_given in T1'. cbn in T1'. rewrite (takes_det scan _ _ _ _ T1' _ T1) in Hi1. auto. }
  (* the final bodies, by choice over the finite table *)
  assert (Hgot : exists got : nat -> entry (body D) -> body D, forall i e run, nth_error tab i = Some e -> nth_error runs i = Some run ->
    exists b0 b1, nth_error t1 i = Some (set_body b1 e) /\ kreset (e_hdr e) (e_body e) = Ok b0 /\
     takes_all (e_hdr e) b0 (given_to i os) b1 /\ takes_all (e_hdr e) b1 (map Some run) (got i (set_body b1 e))).
  { assert (Hl : exists l : list (body D), forall i e run, nth_error tab i = Some e -> nth_error runs i = Some run ->
      exists b0 b1 b2, nth_error l i = Some b2 /\ nth_error t1 i = Some (set_body b1 e) /\ kreset (e_hdr e) (e_body e) = Ok b0 /\
      takes_all (e_hdr e) b0 (given_to i os) b1 /\ takes_all (e_hdr e) b1 (map Some run) b2).
    { assert (Hn : forall n, (n <= List.length tab)%nat -> exists l : list (body D), List.length l = n /\ forall i e run, (i < n)%nat -> nth_error tab i = Some e -> nth_error runs i = Some run ->
        exists b0 b1 b2, nth_error l i = Some b2 /\ nth_error t1 i = Some (set_body b1 e) /\ kreset (e_hdr e) (e_body e) = Ok b0 /\
        takes_all (e_hdr e) b0 (given_to i os) b1 /\ takes_all (e_hdr e) b1 (map Some run) b2).
      { induction n as [|n IH]; intros Hn; [exists []; split; auto; intros; lia|].
        destruct IH as (l & Hl & IH); [lia|]. destruct (nth_error tab n) as [e|] eqn:Hi; [|apply nth_error_None in Hi; lia].
        destruct (Hrun n e Hi) as (run & Hr). destruct (HT1 n e run Hi Hr) as (b0 & b1 & b2 & K1 & K2 & K3 & K4).
        exists (l ++ [b2]). split; [rewrite app_length; cbn; lia|]. intros i e' run' Hlt Hi' Hr'. destruct (Nat.eq_dec i n) as [->|Hne].
        - assert (e' = e) by congruence. assert (run' = run) by congruence. subst e' run'. exists b0, b1, b2. split; auto. rewrite nth_error_app2, Hl, Nat.sub_diag by lia. reflexivity.
        - destruct (IH i e' run' ltac:(lia) Hi' Hr') as (c0 & c1 & c2 & K & K'). exists c0, c1, c2. split; auto. rewrite nth_error_app1 by lia. auto. }
      destruct (Hn (List.length tab) (le_n _)) as (l & Hl & H). exists l. intros i e run Hi Hr. apply H; auto. apply nth_error_Some. congruence. }
    destruct Hl as (l & Hl). exists (fun i e => match nth_error l i with Some b => b | None => e_body e end). intros i e run Hi Hr.
    destruct (Hl i e run Hi Hr) as (b0 & b1 & b2 & K & K1 & K2 & K3 & K4). exists b0, b1. rewrite K. auto. }
  destruct Hgot as (got & Hgot).
  destruct (positional_intro scan (Inv ints) (Inv_steady ints) (Inv_step ints) t1 0 None runs got) as (t2 & Ep & L2 & Ht2); auto; [lia| |].
  { intros i e1 run Hi1 Hr. destruct (nth_error tab i) as [e|] eqn:Hi; [|apply nth_error_None in Hi; assert (i < List.length t1)%nat by (apply nth_error_Some; congruence); lia].
    destruct (Hgot i e run Hi Hr) as (b0 & b1 & K1 & K2 & K3 & K4). rewrite Hi1 in K1. injection K1 as ->. cbn.
    destruct (Hsh i e run Hi Hr) as (S1 & S2 & S3). pose proof (entry_inv i e Hi) as He. pose proof (run_safe runs i run Hpr Hr) as Hg.
    destruct (reset_inv rexmatch ints _ _ He) as (b0' & E & Hb0 & HN & HS). rewrite K2 in E. injection E as <-.
    split; [|split; [auto|]].
    - intros Hne. destruct (S1 Hne) as [N1 N2]. split; auto. rewrite scan_count. specialize (HS N2).
      destruct (takes_stored strtod rexmatch lm sp strtod_ok ints _ _ _ _ K3 0 Hb0 (given_safe i) HS) as (_ & _ & Hc & _). congruence.
    - intros Hn a Ha. apply (proj2 (refuses_iff ints e b0 (given_to i os ++ map Some run) (got i (set_body b1 e)) a He K2 Hg (next_safe runs (S i) a Hpr Ha) ltac:(eapply takes_app; eauto))). exact (S3 Hn a Ha). }
  assert (Hfin : forall i e run, nth_error tab i = Some e -> nth_error runs i = Some run -> let given := given_to i os ++ map Some run in
    exists e', nth_error t2 i = Some e' /\ e_hdr e' = e_hdr e /\
      (kcount (e_body e) = None -> kcount (e_body e') = None) /\
      (kcount (e_body e) <> None -> kcount (e_body e') = Some (zlen given) /\ stored (e_body e) (slots_reset (e_body e)) given (slots (e_body e')))).
  { intros i e run Hi Hr given. destruct (Hgot i e run Hi Hr) as (b0 & b1 & K1 & K2 & K3 & K4). eexists. split; [apply Ht2; exact K1|]. split; [reflexivity|].
    pose proof (takes_app scan _ _ _ _ _ _ K3 K4) as T. fold given in T. cbn in T |- *. pose proof (entry_inv i e Hi) as He. pose proof (run_safe runs i run Hpr Hr) as Hg. fold given in Hg.
    destruct (reset_inv rexmatch ints _ _ He) as (b0' & E & Hb0 & HN & HS). rewrite K2 in E. injection E as <-. split.
    - intros Hk. rewrite (takes_rem _ _ _ _ T (HN Hk)). auto.
    - intros Hk. specialize (HS Hk). destruct (reset_slots rexmatch ints _ _ _ He K2) as [Hs0 Hk0].
      destruct (takes_stored strtod rexmatch lm sp strtod_ok ints _ _ _ _ T 0 Hb0 Hg HS) as (_ & Sk & Sc & Sl & _ & Sj).
      split; [rewrite Sc; f_equal; lia|]. rewrite <- Hs0. split.
      + destruct (e_body e), b0; cbn in Hk0; try contradiction; auto.
      + intros k. specialize (Sj k). cbn [Z.to_nat Nat.add] in Sj. destruct (nth_error given k) as [[s|]|]; auto.
        destruct (e_body e), b0; cbn in Hk0; try contradiction; auto; destruct Sj as (v0 & x & E1 & E2 & E3); exists v0, x; (split; [exact E1|]); (split; [exact E2|]); eapply denotes_kind; eauto; cbn; auto; intuition congruence. }
  exists t2. split.
  - unfold ideal_parse. rewrite E0. cbn [bind]. rewrite Ee. cbn [bind]. rewrite Hpr, Ep. cbn [bind app]. f_equal. f_equal. apply check_iff.
    apply Forall_forall. intros e2 Hin n Hn. apply In_nth_error in Hin as (i & Hi2).
    destruct (nth_error tab i) as [e|] eqn:Hi; [|apply nth_error_None in Hi; assert (i < List.length t2)%nat by (apply nth_error_Some; congruence); lia].
    destruct (Hrun i e Hi) as (run & Hr). destruct (Hfin i e run Hi Hr) as (e' & F1 & F2 & F3 & F4). assert (e' = e2) by congruence. subst e'. rewrite F2.
    destruct (kcount (e_body e)) as [m|] eqn:Ek; [|rewrite F3 in Hn; [discriminate|auto]].
    destruct F4 as [F4 _]; [congruence|]. destruct (Hsh i e run Hi Hr) as (_ & S2 & _). destruct S2 as [S2 _]; [congruence|]. rewrite F4 in Hn. injection Hn as <-. lia.
  - intros i e run Hi Hr given. destruct (Hfin i e run Hi Hr) as (e' & F1 & F2 & _ & F4). eauto.
Qed.
End Parse.
End Kinds.
