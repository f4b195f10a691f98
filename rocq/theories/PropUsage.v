(** C66: the syntax line can be followed. *)
From Verif Require Import Base IntModel FileModel DateModel GetoptModel ParseModel ParseSpec GetoptProofs ParseIdeal ParseProofs ParseFacts ParseObserve ParseLemmas ArgModel KindsSpec PropKinds CommandSpec CommandProofs PropCommand PrintSpec UsageSpec.
From Coq Require Import ZArith List Ascii String Bool Lia.
Import ListNotations.
Open Scope Z_scope.

(** ** Words *)
Lemma words_app s2 : s2 = [] \/ (exists x, s2 = " "%char :: x) -> forall s1 cur, words_from cur (s1 ++ s2) = words_from cur s1 ++ words s2.
Proof.
  intros H2. induction s1 as [|c s1 IH]; intros cur; cbn [app words_from].
  - destruct H2 as [->|(x & ->)]; [cbn; rewrite app_nil_r; reflexivity|]. unfold words. cbn. reflexivity.
  - destruct (ceqb c " "); [rewrite IH, app_assoc; reflexivity|apply IH].
Qed.
Lemma words_word w : forall cur, ~ In " "%char w -> words_from cur w = flush (cur ++ w).
Proof.
  induction w as [|c w IH]; intros cur H; cbn [words_from]; [rewrite app_nil_r; reflexivity|].
  destruct (ceqb_spec c " ") as [->|Hc]; [destruct H; left; reflexivity|]. rewrite IH by (intros Hi; apply H; right; exact Hi). rewrite <- app_assoc. reflexivity.
Qed.
Lemma words_blank s : words (lit " " ++ s) = words s. Proof. reflexivity. Qed.
Lemma words_one w : one_word w -> words w = [w].
Proof. intros [H1 H2]. unfold words. rewrite words_word by auto. cbn. destruct w; [congruence|reflexivity]. Qed.
Definition starts_blank (s : str) : Prop := s = [] \/ exists x, s = " "%char :: x.
Lemma words_parts {A} (f : A -> str) l : (forall x, starts_blank (f x)) -> words (flat_map f l) = flat_map (fun x => words (f x)) l /\ starts_blank (flat_map f l).
Proof.
  intros Hf. induction l as [|x l [IH1 IH2]]; cbn [flat_map]; [split; [reflexivity|left; reflexivity]|]. split.
  - unfold words at 1. rewrite (words_app _ IH2). rewrite IH1. reflexivity.
  - destruct (Hf x) as [->|(y & ->)]; [exact IH2|right; eexists; reflexivity].
Qed.

(** ** Names *)
Lemma names_aux_hd : forall s cur, names_aux s cur <> [] /\ hd [] (names_aux s cur) = cur ++ hd [] (PrintSpec.names s).
Proof.
  induction s as [|c s IH]; intros cur; cbn [names_aux PrintSpec.names].
  - split; [discriminate|]. cbn. rewrite app_nil_r. reflexivity.
  - destruct (ceqb c ","); [split; [discriminate|]; cbn; rewrite app_nil_r; reflexivity|]. destruct (IH (cur ++ [c])) as [H1 H2]. split; auto. rewrite H2, <- app_assoc.
    destruct (PrintSpec.names s); reflexivity.
Qed.
Lemma first_name h lo : good_hdr h -> h_longopts h = Some lo -> In (hd [] (PrintSpec.names lo)) (hdr_names h) /\ hd [] (PrintSpec.names lo) <> [].
Proof.
  intros [_ Hg] El. unfold good_longopts in Hg. rewrite El in Hg. destruct Hg as (_ & H1 & H2). unfold hdr_names. rewrite El. unfold ParseSpec.names.
  destruct lo as [|c lo]; [congruence|]. destruct (names_aux_hd (c :: lo) []) as [Hn Hh]. cbn [app] in Hh. rewrite <- Hh. split.
  - destruct (names_aux (c :: lo) []); [congruence|left; reflexivity].
  - rewrite Hh. cbn [PrintSpec.names]. cbn in H2. destruct (ceqb_spec c ","); [congruence|]. destruct (PrintSpec.names lo); discriminate.
Qed.

(** ** What is typed is read as it is meant *)
Section Reading.
Context (t : list hdr) (Ht : Forall good_hdr t).
Definition fits (i : nat) (u : use) : Prop := nth_error t i = Some (fst u) /\ tag_ok t i (fst u) /\ shape_ok (fst u) (snd u) /\ (~ no_options (fst u) -> h_hasoptvalue (fst u) = false).
Definition is_option (h : hdr) : bool := isome (h_shortopts h) || isome (h_longopts h).

Fixpoint occ (f : hdr -> bool) (k : nat) (l : list use) : list occurrence :=
  match l with [] => [] | u :: l => (if f (fst u) then map (fun v => (k, v)) (snd u) else []) ++ occ f (S k) l end.
Definition text (v : option str) : str := match v with Some s => s | None => [] end.
Definition run_of (u : use) : list str := if is_option (fst u) then [] else map text (snd u).

Lemma fits_good i u : fits i u -> good_hdr (fst u).
Proof. intros (H & _). rewrite Forall_forall in Ht. apply Ht. apply nth_error_In in H. exact H. Qed.

Lemma part_words h v : words (part h v) = words (brief (h_shortopts h) (h_longopts h) v false).
Proof. unfold part. destruct (brief _ _ _ _); reflexivity. Qed.
(** The words of one use of an option that is no switch. *)
Lemma option_words i u v : fits i u -> is_switch (fst u) = false -> is_option (fst u) = true -> In v (snd u) ->
  exists cs ws, words (part (fst u) v) = ("-"%char :: cs) :: ws /\ cs <> [] /\ cs <> lit "-" /\ CommandSpec.cluster t cs ws [(i, v)].
Proof.
  intros F Hs Ho Hv. pose proof (fits_good i u F) as G. destruct F as (Hn & Htag & Hsh & Hov). destruct u as [h vs]. cbn [fst snd] in *.
  unfold shape_ok in Hsh. rewrite Hs in Hsh. fold (is_option h) in Hsh. rewrite Ho in Hsh.
  assert (Hno : ~ no_options h) by (intros [E1 E2]; unfold is_option in Ho; rewrite E1, E2 in Ho; discriminate). specialize (Hov Hno).
  rewrite part_words. unfold tag_ok in Htag. unfold brief. destruct (h_shortopts h) as [so|] eqn:Es.
  - destruct Htag as (c & so' & -> & Hc & Hb & Hd). unfold is_switch in Hs. rewrite Es in Hs. cbn in Hs. apply negb_false_iff in Hs. rewrite Hs in Hsh.
    rewrite Forall_forall in Hsh. destruct (Hsh v Hv) as (s & -> & Hw & Hb').
    exists [c], [s]. split.
    + cbn [value_text app lit list_ascii_of_string firstn]. unfold words. cbn [words_from].
      change (ceqb "-" " ") with false. cbn iota. destruct (ceqb_spec c " ") as [E|_]; [congruence|]. change (ceqb " " " ") with true. cbn iota. cbn [app flush].
      f_equal. apply words_one. split; auto.
    + split; [discriminate|]. split; [intros [=]; congruence|]. apply cl_next with h; auto. unfold short_takes. rewrite Hs, Hov. reflexivity.
  - destruct (h_longopts h) as [lo|] eqn:El; [|unfold is_option in Ho; rewrite Es, El in Ho; discriminate].
    destruct Htag as (T1 & T2 & T3). destruct (first_name h lo G El) as [N1 N2]. set (nm := hd [] (PrintSpec.names lo)) in *.
    assert (Hsel : selects t nm i h) by (apply sel_exact; auto).
    destruct (h_hasvalue h) eqn:Ev; rewrite Forall_forall in Hsh; specialize (Hsh v Hv).
    + destruct Hsh as (s & -> & Hw & Hb). exists ("-"%char :: nm ++ "="%char :: s), []. split.
      * cbn [value_text]. change (lit "--" ++ nm ++ lit "=" ++ s) with ("-"%char :: "-"%char :: nm ++ "="%char :: s). apply words_one.
        split; [discriminate|]. intros [H|[H|H]]; try discriminate. apply in_app_iff in H as [H|[H|H]]; try discriminate; auto.
      * split; [discriminate|]. split; [intros [=]; destruct nm; discriminate|]. apply cl_long; [destruct nm; discriminate|]. apply lo_equals with h; auto.
        unfold long_takes. rewrite Hov, Ev. discriminate.
    + subst v. exists ("-"%char :: nm), []. split.
      * rewrite app_nil_r. change (lit "--" ++ nm) with ("-"%char :: "-"%char :: nm). apply words_one. split; [discriminate|].
        intros [H|[H|H]]; try discriminate; auto.
      * split; [discriminate|]. split; [intros [=]; congruence|]. apply cl_long; auto. apply lo_bare with h; auto. unfold long_takes. rewrite Hov, Ev. discriminate.
Qed.
Definition others (l : list use) : str := flat_map (fun u => if is_switch (fst u) then [] else flat_map (part (fst u)) (snd u)) l.
Lemma part_blank h v : starts_blank (part h v).
Proof. unfold part. destruct (brief _ _ _ _); [left; reflexivity|right; eexists; reflexivity]. Qed.
Lemma others_words l : words (others l) = flat_map (fun u => if is_switch (fst u) then [] else flat_map (fun v => words (part (fst u) v)) (snd u)) l /\ starts_blank (others l).
Proof.
  unfold others. destruct (words_parts (fun u : use => if is_switch (fst u) then [] else flat_map (part (fst u)) (snd u)) l) as [E B].
  - intros u. destruct (is_switch (fst u)); [left; reflexivity|]. apply (words_parts (part (fst u)) (snd u)). apply part_blank.
  - split; auto. etransitivity; [exact E|]. apply flat_map_ext. intros u. destruct (is_switch (fst u)); [reflexivity|]. apply (words_parts (part (fst u)) (snd u)). apply part_blank.
Qed.
Lemma others_spelled : forall l k, (forall j u, nth_error l j = Some u -> fits (k + j)%nat u) ->
  spells t false (words (others l)) (occ (fun h => is_option h && negb (is_switch h)) k l) (flat_map run_of l).
Proof.
  intros l k F. rewrite (proj1 (others_words l)). revert k F. induction l as [|u l IH]; intros k F; cbn [flat_map occ]; [constructor|].
  pose proof (F 0%nat u eq_refl) as Fu. rewrite Nat.add_0_r in Fu. specialize (IH (S k) (fun j u' H => eq_ind _ (fun n => fits n u') (F (S j) u' H) _ (Nat.add_succ_r k j))).
  destruct (is_switch (fst u)) eqn:Es.
  { assert (Eo : is_option (fst u) = true) by (unfold is_switch, is_option in *; destruct (h_shortopts (fst u)); [reflexivity|discriminate]).
    unfold run_of. rewrite Eo. cbn [andb negb app]. exact IH. }
  destruct (is_option (fst u)) eqn:Eo; cbn [andb negb].
  - unfold run_of at 1. rewrite Eo. cbn [app].
    assert (Hall : forall vs, (forall v, In v vs -> In v (snd u)) ->
      spells t false (flat_map (fun v => words (part (fst u) v)) vs ++ flat_map (fun u => if is_switch (fst u) then [] else flat_map (fun v => words (part (fst u) v)) (snd u)) l)
        (map (fun v => (k, v)) vs ++ occ (fun h => is_option h && negb (is_switch h)) (S k) l) (flat_map run_of l)).
    { induction vs as [|v vs IHv]; intros Hv; cbn [flat_map map app]; [exact IH|].
      destruct (option_words k u v Fu Es Eo (Hv v (or_introl eq_refl))) as (cs & ws & Ew & H1 & H2 & H3). rewrite Ew, <- app_assoc. cbn [app].
      change ((k, v) :: map (fun v => (k, v)) vs ++ occ (fun h => is_option h && negb (is_switch h)) (S k) l) with ([(k, v)] ++ (map (fun v => (k, v)) vs ++ occ (fun h => is_option h && negb (is_switch h)) (S k) l)).
      apply sp_option; auto. apply IHv. intros v' Hv'. apply Hv. right. exact Hv'. }
    apply Hall. auto.
  - unfold run_of at 1. rewrite Eo. cbn [app].
    destruct Fu as (_ & _ & Hsh & _). unfold shape_ok in Hsh. rewrite Es in Hsh. fold (is_option (fst u)) in Hsh. rewrite Eo in Hsh.
    assert (Ebrief : forall v, In v (snd u) -> words (part (fst u) v) = [text v] /\ word (text v)).
    { intros v Hv. rewrite Forall_forall in Hsh. destruct (Hsh v Hv) as (s & -> & Hw & Hd). rewrite part_words. unfold brief. unfold is_option in Eo.
      destruct (h_shortopts (fst u)), (h_longopts (fst u)); try discriminate. cbn [value_text text]. destruct s as [|c s]; [destruct Hw; congruence|].
      split; [apply words_one; auto|]. intros cs [= ->]. cbn in Hd. congruence. }
    clear Hsh. induction (snd u) as [|v vs IHv]; cbn [flat_map map app]; [exact IH|].
    destruct (Ebrief v (or_introl eq_refl)) as [Ew Hw]. rewrite Ew. cbn [app]. constructor; auto. apply IHv. intros v' Hv'. apply Ebrief. right. exact Hv'.
Qed.

(** The letters of the switches. *)
Lemma letters_spelled (g : hdr -> bool) : forall l k, (forall j u, nth_error l j = Some u -> fits (k + j)%nat u) ->
  let ls := given_letters (filter (fun u => g (fst u)) (filter (fun u => is_switch (fst u)) l)) in
  ~ In "-"%char ls /\ ~ In " "%char ls /\
  forall cs ws os, CommandSpec.cluster t cs ws os -> CommandSpec.cluster t (ls ++ cs) ws (occ (fun h => is_switch h && g h) k l ++ os).
Proof.
  induction l as [|u l IH]; intros k F; cbn [filter occ]; [repeat split; auto; intros H; destruct H|].
  pose proof (F 0%nat u eq_refl) as Fu. rewrite Nat.add_0_r in Fu. specialize (IH (S k) (fun j u' H => eq_ind _ (fun n => fits n u') (F (S j) u' H) _ (Nat.add_succ_r k j))).
  destruct (is_switch (fst u)) eqn:Es; cbn [andb app]; [|exact IH]. cbn [filter]. destruct (g (fst u)) eqn:Eg; cbn [app]; [|exact IH].
  unfold given_letters in *. cbn [filter]. destruct Fu as (_ & Htag & Hsh & Hov). unfold shape_ok in Hsh. rewrite Es in Hsh. destruct Hsh as [->| ->]; cbn [map app]; [exact IH|].
  unfold letters, letter in *. cbn [flat_map]. unfold is_switch in Es. unfold tag_ok in Htag. destruct (h_shortopts (fst u)) as [so|] eqn:Eso; [|discriminate].
  destruct Htag as (c & so' & -> & H1 & H2 & Hd). cbn in Es. apply negb_true_iff in Es. cbn [firstn app]. destruct IH as (I1 & I2 & I3). split; [|split].
  - intros [H|H]; auto.
  - intros [H|H]; auto.
  - intros cs ws os Hc. apply cl_switch with (fst u); auto. unfold short_takes. rewrite Es, Hov; [reflexivity|]. intros [H _]. congruence.
Qed.
Definition meant (l : list use) : list occurrence :=
  (occ (fun h => is_switch h && (0 <? h_mincount h)) 0 l ++ occ (fun h => is_switch h && (h_mincount h <=? 0)) 0 l) ++
  occ (fun h => is_option h && negb (is_switch h)) 0 l.
Lemma typed_spelled l : (forall j u, nth_error l j = Some u -> fits j u) -> spells t false (words (typed l)) (meant l) (flat_map run_of l).
Proof.
  intros F. destruct (letters_spelled (fun h => 0 <? h_mincount h) l 0 F) as (D1 & B1 & C1). destruct (letters_spelled (fun h => h_mincount h <=? 0) l 0 F) as (D2 & B2 & C2).
  unfold typed, meant. fold (others l).
  set (l1 := given_letters (filter (fun u => 0 <? h_mincount (fst u)) _)) in *. set (l2 := given_letters (filter (fun u => h_mincount (fst u) <=? 0) _)) in *.
  specialize (C1 _ _ _ (C2 _ _ _ (cl_end t))). rewrite !app_nil_r in C1. set (o1 := occ _ 0 l ++ occ _ 0 l) in *.
  pose proof (others_spelled l 0 F) as Ho. destruct (l1 ++ l2) as [|c ls] eqn:E.
  - inversion C1 as [E1| | | | |]. cbn [app]. exact Ho.
  - assert (Hn : one_word ("-"%char :: c :: ls)).
    { split; [discriminate|]. intros [H|H]; [discriminate|]. rewrite <- E in H. apply in_app_iff in H as [H|H]; auto. }
    assert (Ew : words ((lit " -" ++ c :: ls) ++ others l) = ("-"%char :: c :: ls) :: words (others l)).
    { unfold words at 1. rewrite (words_app _ (proj2 (others_words l))). f_equal. change (words_from [] (lit " -" ++ c :: ls)) with (words ("-"%char :: c :: ls)). rewrite words_one by auto. reflexivity. }
    rewrite Ew. change (("-"%char :: c :: ls) :: words (others l)) with (("-"%char :: c :: ls) :: [] ++ words (others l)). apply sp_option; auto; [discriminate|].
    intros H. assert (Hd : In "-"%char (c :: ls)) by (rewrite H; left; reflexivity). rewrite <- E in Hd. apply in_app_iff in Hd as [Hd|Hd]; auto.
Qed.
Lemma given_app i a b : given_to i (a ++ b) = given_to i a ++ given_to i b.
Proof. unfold given_to. apply flat_map_app. Qed.
Lemma given_map i k vs : given_to i (map (fun v => (k, v)) vs) = if Nat.eqb k i then vs else [].
Proof.
  unfold given_to. induction vs as [|v vs IH]; cbn [map flat_map]; [destruct (Nat.eqb k i); reflexivity|]. cbn [fst snd]. rewrite IH. destruct (Nat.eqb k i); reflexivity.
Qed.
Lemma given_occ f i : forall l k, given_to i (occ f k l) = if (k <=? i)%nat then match nth_error l (i - k) with Some u => if f (fst u) then snd u else [] | None => [] end else [].
Proof.
  induction l as [|u l IH]; intros k; cbn [occ].
  - destruct (k <=? i)%nat; [destruct (i - k)%nat|]; reflexivity.
  - rewrite given_app, IH. destruct (Nat.leb_spec (S k) i), (Nat.leb_spec k i); try lia.
    + replace (i - k)%nat with (S (i - S k)) by lia. cbn [nth_error]. destruct (f (fst u)); [|reflexivity]. rewrite given_map. destruct (Nat.eqb_spec k i); [lia|]. reflexivity.
    + replace (i - k)%nat with 0%nat by lia. cbn [nth_error]. rewrite app_nil_r. destruct (f (fst u)); [|reflexivity]. rewrite given_map. destruct (Nat.eqb_spec k i); [reflexivity|lia].
    + rewrite app_nil_r. destruct (f (fst u)); [|reflexivity]. rewrite given_map. destruct (Nat.eqb_spec k i); [lia|reflexivity].
Qed.
Lemma given_meant l i u : nth_error l i = Some u -> given_to i (meant l) = if is_option (fst u) then snd u else [].
Proof.
  intros H. unfold meant. rewrite !given_app, !given_occ. cbn [Nat.leb]. rewrite Nat.sub_0_r, H. destruct (is_switch (fst u)) eqn:Es; cbn [andb negb app].
  - assert (Eo : is_option (fst u) = true) by (unfold is_switch, is_option in *; destruct (h_shortopts (fst u)); [reflexivity|discriminate]). rewrite Eo. cbn [andb].
    destruct (Z.ltb_spec 0 (h_mincount (fst u))), (Z.leb_spec (h_mincount (fst u)) 0); try lia; cbn [app]; rewrite ?app_nil_r; reflexivity.
  - rewrite andb_true_r. reflexivity.
Qed.
End Reading.

Section Usage.
Context {D : Type}.
Context (strtod : str -> D * nat).
Context (rexmatch : str -> Z -> str -> res bool).
Context (sp : seps).
Notation lm := Long64.
Notation parse := (karg_parse strtod rexmatch lm sp).
Notation safe_value := (safe_value lm).
Notation stored := (stored strtod rexmatch lm sp).
Notation reached := (reached strtod rexmatch lm sp).
Notation satisfied := (satisfied strtod rexmatch lm sp).
Hypothesis Hd : strtod_contract strtod.

(** Entry [i] can be used as wanted. Remarks are left out, also those with a data type, which the line shows. *)
Definition usable (tab : list (entry (body D))) (i : nat) (e : entry (body D)) (vs : list (option str)) : Prop :=
  tag_ok (map e_hdr tab) i (e_hdr e) /\ shape_ok (e_hdr e) vs /\ satisfied e vs /\
  (~ no_options (e_hdr e) -> h_hasoptvalue (e_hdr e) = false) /\ (kcount (e_body e) = None -> vs = []).
(** Who types required and optional parts of the syntax line, with good values, is understood: no error is reported and each
    entry gets what was typed for it. Of the entries without options, only the last that is used may be used less often than
    the line allows. *)
Theorem C66_line_followed :
  forall ints cap tab uses rest jo jc jp fuel argv h s en a0,
  reached ints tab -> List.length uses = List.length tab ->
  (forall i e vs, nth_error tab i = Some e -> nth_error uses i = Some vs -> usable tab i e vs) ->
  (forall i j e vs e' vs', (i < j)%nat -> nth_error tab i = Some e -> nth_error uses i = Some vs -> nth_error tab j = Some e' -> nth_error uses j = Some vs' ->
    no_options (e_hdr e) -> no_options (e_hdr e') -> vs' <> [] -> zlen vs = h_maxcount (e_hdr e)) ->
  rest = words (typed (combine (map e_hdr tab) uses)) -> Forall (safe_value ints) rest -> call cap tab en h argv a0 rest fuel ->
  exists h' s' tab' en', parse false jo jc jp fuel (zlen (a0 :: rest)) argv h s tab en = Ok (h', s', tab', en') /\ end_count en' = 0 /\
  forall i e vs, nth_error tab i = Some e -> nth_error uses i = Some vs -> kcount (e_body e) <> None ->
    exists e', nth_error tab' i = Some e' /\ kcount (e_body e') = Some (zlen vs) /\ stored (e_body e) (slots_reset (e_body e)) vs (slots (e_body e')).
Proof.
  intros ints cap tab uses rest jo jc jp fuel argv h s en a0 Hre Hlen Hus Hfull Er Hsafe Hc.
  set (l := combine (map e_hdr tab) uses) in *.
  assert (Hl : forall i u, nth_error l i = Some u <-> exists e vs, nth_error tab i = Some e /\ nth_error uses i = Some vs /\ u = (e_hdr e, vs)).
  { unfold l. clear - Hlen. revert uses Hlen. induction tab as [|e tab IH]; intros [|vs uses] Hlen i u; try discriminate.
    - split; [destruct i; discriminate|]. intros (e & vs & H & _). destruct i; discriminate.
    - destruct i as [|i]; cbn [map combine nth_error].
      + split; [intros [= <-]; eauto 6|]. intros (e' & vs' & [= <-] & [= <-] & ->). reflexivity.
      + apply IH. cbn in Hlen. lia. }
  assert (F : forall j u, nth_error l j = Some u -> fits (map e_hdr tab) j u).
  { intros j u Hj. apply Hl in Hj as (e & vs & He & Hv & ->). destruct (Hus j e vs He Hv) as (U1 & U2 & U3 & U4 & U5). unfold fits. cbn [fst snd].
    rewrite nth_error_map, He. auto. }
  pose proof (typed_spelled _ (c_hdrs _ _ _ _ _ _ _ _ Hc) l F) as Hsp. rewrite <- Er in Hsp.
  assert (Hgiven : forall i e vs, nth_error tab i = Some e -> nth_error uses i = Some vs -> given_to i (meant l) ++ map Some (run_of (e_hdr e, vs)) = vs).
  { intros i e vs He Hv. rewrite (given_meant l i (e_hdr e, vs)) by (apply Hl; eauto 6). unfold run_of. cbn [fst snd]. destruct (is_option (e_hdr e)) eqn:Eo; [apply app_nil_r|].
    destruct (Hus i e vs He Hv) as (_ & U2 & _). unfold shape_ok in U2. assert (Es : is_switch (e_hdr e) = false).
    { unfold is_switch, is_option in *. destruct (h_shortopts (e_hdr e)); [discriminate|reflexivity]. }
    rewrite Es in U2. fold (is_option (e_hdr e)) in U2. rewrite Eo in U2. cbn [app]. clear - U2. induction U2 as [|v vs (x & -> & _) _ IH]; [reflexivity|]. cbn [map text]. rewrite IH. reflexivity. }
  assert (Hopt : forall e : entry (body D), is_option (e_hdr e) = false <-> no_options (e_hdr e)).
  { intros e. unfold is_option, no_options. destruct (h_shortopts (e_hdr e)), (h_longopts (e_hdr e)); split; intros H; try discriminate; try (destruct H; discriminate); auto. }
  set (runs := map run_of l).
  assert (Hruns : forall i e, nth_error tab i = Some e -> exists vs, nth_error uses i = Some vs /\ nth_error runs i = Some (run_of (e_hdr e, vs))).
  { intros i e He. destruct (nth_error uses i) as [vs|] eqn:Ev; [|apply nth_error_None in Ev; assert (i < List.length tab)%nat by (apply nth_error_Some; congruence); lia].
    exists vs. split; auto. unfold runs. rewrite nth_error_map. change (@nth_error use l i) with (@nth_error (hdr * list (option str)) l i). rewrite (proj2 (Hl i (e_hdr e, vs))) by eauto 6. reflexivity. }
  assert (Hsh : shared strtod rexmatch lm sp tab (meant l) (flat_map run_of l) runs).
  { split; [unfold runs; apply flat_map_concat_map|]. split; [transitivity (List.length l); [apply map_length|]; unfold l; rewrite combine_length, map_length, Hlen; apply Nat.min_id|].
    intros i e run He Hr. destruct (Hruns i e He) as (vs & Hv & Hr'). rewrite Hr' in Hr. injection Hr as <-. cbv zeta. rewrite (Hgiven i e vs He Hv).
    destruct (Hus i e vs He Hv) as (U1 & U2 & U3 & U4 & U5). split; [|split; [exact U3|]].
    - intros Hne. unfold run_of in Hne. cbn [fst snd] in Hne. destruct (is_option (e_hdr e)) eqn:Eo; [congruence|]. split; [apply Hopt; auto|]. intros Hk. apply Hne. rewrite (U5 Hk). reflexivity.
    - intros Hno a Ha (Hk & Hlt & _).
      assert (Hex : exists j r, (i < j)%nat /\ nth_error runs j = Some r /\ r <> []).
      { clear - Ha. assert (G : forall (rs : list (list str)), hd_error (List.concat rs) = Some a -> exists j r, nth_error rs j = Some r /\ r <> []).
        { induction rs as [|r rs IH]; [discriminate|]. destruct r as [|x r]; [|intros _; exists 0%nat, (x :: r); split; [reflexivity|discriminate]].
          intros H. destruct (IH H) as (j & r & Hj & Hr). exists (S j), r. auto. }
        destruct (G _ Ha) as (j & r & Hj & Hr). assert (N : forall n (rs : list (list str)), nth_error (skipn n rs) j = nth_error rs (n + j)) by (induction n as [|n IHn]; intros [|x rs]; cbn; auto; destruct j; reflexivity). rewrite N in Hj. exists (S i + j)%nat, r. split; [lia|]. auto. }
      destruct Hex as (j & r & Hij & Hj & Hr). unfold runs in Hj. rewrite nth_error_map in Hj. change (@nth_error use l j) with (@nth_error (hdr * list (option str)) l j) in Hj. destruct (nth_error l j) as [u|] eqn:Eu; [|discriminate]. injection Hj as <-.
      apply Hl in Eu as (e' & vs' & He' & Hv' & ->). unfold run_of in Hr. cbn [fst snd] in Hr. destruct (is_option (e_hdr e')) eqn:Eo; [congruence|].
      rewrite (Hfull i j e vs e' vs' Hij He Hv He' Hv' Hno (proj1 (Hopt e') Eo)) in Hlt; [lia|]. intros ->. apply Hr. reflexivity. }
  destruct (C59_accepted_values strtod rexmatch sp Hd ints false cap tab rest jo jc jp fuel argv h s en a0 _ _ _ Hre Hc Hsafe Hsp Hsh) as (h' & s' & tab' & en' & Hp & Hz & Hval).
  exists h', s', tab', en'. split; auto. split; auto. intros i e vs He Hv Hk. destruct (Hruns i e He) as (vs' & Hv' & Hr). rewrite Hv in Hv'. injection Hv' as <-.
  destruct (Hval i e _ He Hr) as (e' & He' & _ & Hst). rewrite (Hgiven i e vs He Hv) in Hst. destruct (Hst Hk) as [S1 S2]. eauto.
Qed.
End Usage.

(** The required parts of the line, with values for the data types, are such a line: what arg_print_syntax writes ([syntax_line],
    C40) for the required entries if their counts are exact, with values where the data types are. *)
Definition exactly (h : hdr) : hdr :=
  {| h_hasvalue := h_hasvalue h; h_hasoptvalue := h_hasoptvalue h; h_shortopts := h_shortopts h; h_longopts := h_longopts h; h_datatype := h_datatype h; h_glossary := h_glossary h;
     h_mincount := h_mincount h; h_maxcount := h_mincount h |}.
Theorem C66_required_parts : forall hs (value : hdr -> option str), Forall (fun h => h_shortopts h <> Some []) hs -> (forall h, value (exactly h) = value h) ->
  typed (map (fun h => (h, repeat (value h) (Z.to_nat (h_mincount h)))) hs) =
  syntax_line (fun h => brief (h_shortopts h) (h_longopts h) (value h) false) (map exactly (filter (fun h => 0 <? h_mincount h) hs)).
Proof.
  intros hs value Hne Hval. unfold typed, syntax_line. f_equal.
  - assert (E1 : given_letters (filter (fun u => 0 <? h_mincount (fst u)) (filter (fun u => is_switch (fst u)) (map (fun h => (h, repeat (value h) (Z.to_nat (h_mincount h)))) hs))) =
      letters (filter is_switch (map exactly (filter (fun h => 0 <? h_mincount h) hs)))).
    { clear Hval. induction Hne as [|h hs Hh _ IH]; [reflexivity|]. cbn [map filter fst]. destruct (is_switch h) eqn:Es; cbn [filter fst].
      - destruct (Z.ltb_spec 0 (h_mincount h)) as [Hm|Hm]; [|exact IH]. cbn [map filter]. change (is_switch (exactly h)) with (is_switch h). rewrite Es.
        unfold given_letters in *. cbn [filter snd]. destruct (Z.to_nat (h_mincount h)) as [|n] eqn:En; [lia|]. cbn [repeat map fst]. unfold letters in *. cbn [flat_map]. rewrite IH. reflexivity.
      - destruct (0 <? h_mincount h); [|exact IH]. cbn [map filter]. change (is_switch (exactly h)) with (is_switch h). rewrite Es. exact IH. }
    assert (E2 : given_letters (filter (fun u => h_mincount (fst u) <=? 0) (filter (fun u => is_switch (fst u)) (map (fun h => (h, repeat (value h) (Z.to_nat (h_mincount h)))) hs))) = []).
    { clear. induction hs as [|h hs IH]; [reflexivity|]. cbn [map filter fst]. destruct (is_switch h); [|exact IH]. cbn [filter fst]. destruct (Z.leb_spec (h_mincount h) 0) as [Hm|]; [|exact IH].
      unfold given_letters in *. cbn [filter snd]. replace (Z.to_nat (h_mincount h)) with 0%nat by lia. cbn [repeat]. exact IH. }
    rewrite E1, E2, app_nil_r. unfold PrintSpec.cluster.
    assert (Er : forall l, filter (fun h => 0 <? h_mincount h) (filter is_switch (map exactly (filter (fun h => 0 <? h_mincount h) l))) = filter is_switch (map exactly (filter (fun h => 0 <? h_mincount h) l)) /\
      filter (fun h => h_mincount h <=? 0) (filter is_switch (map exactly (filter (fun h => 0 <? h_mincount h) l))) = []).
    { clear. induction l as [|h l [IH1 IH2]]; [auto|]. cbn [filter]. destruct (Z.ltb_spec 0 (h_mincount h)) as [Hm|Hm]; [|auto]. cbn [map filter]. change (is_switch (exactly h)) with (is_switch h).
      destruct (is_switch h); [|auto]. cbn [filter]. change (h_mincount (exactly h)) with (h_mincount h). rewrite (proj2 (Z.ltb_lt _ _) Hm), (proj2 (Z.leb_gt _ _) Hm), IH1. auto. }
    destruct (Er hs) as [-> ->]. destruct (filter is_switch (map exactly (filter (fun h => 0 <? h_mincount h) hs))) as [|x l] eqn:El; [reflexivity|].
    assert (Hx : In x (filter is_switch (map exactly (filter (fun h => 0 <? h_mincount h) hs)))) by (rewrite El; left; reflexivity).
    apply filter_In in Hx as [Hx Hs]. apply in_map_iff in Hx as (h & <- & Hx). apply filter_In in Hx as [Hx _]. rewrite Forall_forall in Hne. specialize (Hne h Hx).
    assert (Ec : exists c, letter (exactly h) = [c]).
    { unfold letter, is_switch in *. cbn [h_shortopts exactly] in *. destruct (h_shortopts h) as [[|c so]|]; [destruct Hne; reflexivity|exists c; reflexivity|discriminate]. }
    destruct Ec as (c & Ec). unfold letters. cbn [flat_map]. rewrite Ec. reflexivity.
  - induction hs as [|h hs IH]; [reflexivity|]. inversion_clear Hne as [|? ? Hh Hne']. cbn [map flat_map filter fst snd]. rewrite IH by auto.
    destruct (Z.ltb_spec 0 (h_mincount h)) as [Hm|Hm].
    + cbn [map flat_map]. change (is_switch (exactly h)) with (is_switch h). destruct (is_switch h); [reflexivity|]. f_equal. rewrite Hval. cbn [exactly h_shortopts h_longopts h_mincount h_maxcount].
      assert (Er : forall n v, flat_map (part h) (repeat v n) = times n (part h v)) by (induction n as [|n IHn]; intros v; [reflexivity|]; cbn [repeat flat_map times]; rewrite IHn; reflexivity).
      rewrite Er. unfold part. destruct (brief _ _ _ _) as [|c b].
      * induction (Z.to_nat (h_mincount h)); [reflexivity|]. cbn [times app]. assumption.
      * unfold PrintSpec.occurrences. rewrite Z.eqb_refl, app_nil_r. reflexivity.
    + replace (Z.to_nat (h_mincount h)) with 0%nat by lia. cbn [repeat flat_map]. destruct (is_switch h); reflexivity.
Qed.

(** ** Examples *)
From Verif Require ExTable.
Local Open Scope string_scope.
Local Open Scope list_scope.
Local Open Scope Z_scope.
Notation o := ExTable.o.
(** " -q[v] -o <file> [-o <file>] --name=<n> <src> [<src>]" *)
Definition ex_tab : list (entry (body Z)) :=
  [arg_litn (o "v") None 0 1 None; arg_litn (o "q") None 1 1 None; arg_strn (o "o") (o "out") (o "<file>") 1 2 None; arg_strn None (o "name,nick") (o "<n>") 1 1 None;
   arg_strn None None (o "<src>") 1 2 None; arg_rem None (o "that is all")].
Definition ex_uses : list (list (option str)) := [[None]; [None]; [o "f"; o "-g"]; [o "x"]; [o "a"]; []].
Definition ex_words : list string := ["-qv"; "-o"; "f"; "-o"; "-g"; "--name=x"; "a"].
Example C66_case_line : syntax_line (fun h => brief (h_shortopts h) (h_longopts h) (h_datatype h) (h_hasoptvalue h)) (map e_hdr ex_tab) =
  lit " -q[v] -o <file> [-o <file>] --name=<n> <src> [<src>]" /\ words (typed (combine (map e_hdr ex_tab) ex_uses)) = map lit ex_words.
Proof. split; reflexivity. Qed.
Definition mk_call (tab : list (entry (body Z))) (l : list string) := call 4 tab (ExTable.en 4) (ExTable.heap0 ("p" :: l)) 1 (lit "p") (map lit l) (S (total (map lit l)) + 0).
Lemma mk_call_ok (tab : list (entry (body Z))) l : forallb ExTable.good_hdrb (map e_hdr tab) = true -> ExTable.strs_cstr (map lit l) = true -> mk_call tab l.
Proof. intros H1 H2. destruct (ExTable.call_ok "p" l 4 0 ltac:(lia) H2) as [K1 _ K3 K4 K5]. constructor; auto. apply ExTable.good_hdrs_ok. exact H1. Qed.
Definition run (tab : list (entry (body Z))) (l : list string) :=
  ExTable.parse false ExTable.jo ExTable.jc ExTable.jp (S (total (map lit l)) + 0) (zlen (lit "p" :: map lit l)) 1 (ExTable.heap0 ("p" :: l)) ExTable.s0 tab (ExTable.en 4).
Lemma ex_reached : reached ExTable.strtod ExTable.rexmatch Long64 unix_seps true ex_tab.
Proof. apply reached_new. repeat constructor; cbn; try discriminate; auto; try lia. Qed.
Ltac one_slot := eexists; eexists; split; [reflexivity|]; split; reflexivity.
Lemma ex_usable : forall i e vs, nth_error ex_tab i = Some e -> nth_error ex_uses i = Some vs -> usable ExTable.strtod ExTable.rexmatch unix_seps ex_tab i e vs.
Proof.
  intros [|[|[|[|[|[|i]]]]]] e vs; cbn [nth_error ex_tab ex_uses]; try discriminate; try (destruct i; discriminate); intros [= <-] [= <-].
  - split; [exists "v"%char, []; split; [reflexivity|]; split; [discriminate|]; split; [discriminate|]; apply short_find_iff; reflexivity|].
    split; [right; reflexivity|]. split; [|split; [reflexivity|discriminate]]. intros _. split; [vm_compute; split; discriminate|]. exists []. split; [reflexivity|]. intros [|[|k]]; reflexivity.
  - split; [exists "q"%char, []; split; [reflexivity|]; split; [discriminate|]; split; [discriminate|]; apply short_find_iff; reflexivity|].
    split; [right; reflexivity|]. split; [|split; [reflexivity|discriminate]]. intros _. split; [vm_compute; split; discriminate|]. exists []. split; [reflexivity|]. intros [|[|k]]; reflexivity.
  - split; [exists "o"%char, []; split; [reflexivity|]; split; [discriminate|]; split; [discriminate|]; apply short_find_iff; reflexivity|].
    split; [repeat constructor; eexists; (split; [reflexivity|]); (split; [discriminate|]); cbn; intuition discriminate|]. split; [|split; [reflexivity|discriminate]]. intros _.
    split; [vm_compute; split; discriminate|]. exists [VText (lit "f"); VText (lit "-g")]. split; [exact I|]. intros [|[|k]]; [one_slot|one_slot|destruct k; reflexivity].
  - split; [split; [cbn; intuition discriminate|]; split; [cbn; intuition discriminate|]; intros [|[|[|j]]] h' Hj E; try lia; injection E as <-; cbn; intuition discriminate|].
    split; [repeat constructor; eexists; (split; [reflexivity|]); (split; [discriminate|]); cbn; intuition discriminate|]. split; [|split; [reflexivity|discriminate]]. intros _.
    split; [vm_compute; split; discriminate|]. exists [VText (lit "x")]. split; [exact I|]. intros [|k]; [one_slot|destruct k; reflexivity].
  - split; [exact I|]. split; [repeat constructor; eexists; (split; [reflexivity|]); (split; [split; [discriminate|cbn; intuition discriminate]|discriminate])|].
    split; [|split; [reflexivity|discriminate]]. intros _. split; [vm_compute; split; discriminate|]. exists [VText (lit "a"); VText []]. split; [exact I|].
    intros [|k]; [one_slot|destruct k as [|[|k]]; reflexivity].
  - split; [exact I|]. split; [constructor|]. split; [intros H; destruct (H eq_refl)|]. split; reflexivity.
Qed.
Example C66_case : exists h' s' tab' en', run ex_tab ex_words = Ok (h', s', tab', en') /\ end_count en' = 0 /\ exists e, nth_error tab' 2 = Some e /\ kcount (e_body e) = Some 2.
Proof.
  destruct (C66_line_followed ExTable.strtod ExTable.rexmatch unix_seps ex_contract true 4 ex_tab ex_uses (map lit ex_words) ExTable.jo ExTable.jc ExTable.jp (S (total (map lit ex_words)) + 0) 1
    (ExTable.heap0 ("p" :: ex_words)) ExTable.s0 (ExTable.en 4) (lit "p") ex_reached eq_refl ex_usable) as (h' & s' & tab' & en' & Hp & Hz & Hv).
  - intros i j e vs e' vs' Hij He Hv He' Hv' H1 H2 H3. exfalso.
    destruct i as [|[|[|[|[|[|i]]]]]]; cbn in He; try (injection He as <-; destruct H1; discriminate).
    + injection He as <-. destruct j as [|[|[|[|[|[|j]]]]]]; try lia; cbn in Hv'; [injection Hv' as <-; congruence|destruct j; discriminate].
    + injection He as <-. destruct j as [|[|[|[|[|[|j]]]]]]; try lia. cbn in Hv'. destruct j; discriminate.
    + destruct i; discriminate.
  - reflexivity.
  - apply safe_values; vm_compute; reflexivity.
  - apply mk_call_ok; reflexivity.
  - exists h', s', tab', en'. split; [exact Hp|]. split; [exact Hz|]. destruct (Hv 2%nat _ _ eq_refl eq_refl ltac:(discriminate)) as (e & H1 & H2 & _). eauto.
Qed.

(** The conditions are needed.
    1. The line [ <src> [<src>] <dst>] suggests that two arguments are enough: source and destination. But the first entry takes
    both, and the second is reported missing. *)
Definition cp_tab : list (entry (body Z)) := [arg_strn None None (o "<src>") 1 2 None; arg_strn None None (o "<dst>") 1 1 None].
Definition errors (r : res (heap * gst * list (entry (body Z)) * arg_end)) : option Z := match r with Ok (_, _, _, e) => Some (end_count e) | _ => None end.
Theorem C66_optional_before_required_refuted : exists tab uses l,
  reached ExTable.strtod ExTable.rexmatch Long64 unix_seps true tab /\ mk_call tab l /\
  (forall i e vs, nth_error tab i = Some e -> nth_error uses i = Some vs -> usable ExTable.strtod ExTable.rexmatch unix_seps tab i e vs) /\
  words (typed (combine (map e_hdr tab) uses)) = map lit l /\ errors (run tab l) = Some 1.
Proof.
  exists cp_tab, [[o "a"]; [o "b"]], ["a"; "b"]. split; [apply reached_new; repeat constructor; cbn; try discriminate; auto; try lia|]. split; [apply mk_call_ok; reflexivity|].
  split; [|split; [reflexivity|vm_compute; reflexivity]].
  intros [|[|i]] e vs; cbn [nth_error cp_tab]; try discriminate; try (destruct i; discriminate); intros [= <-] [= <-].
  - split; [exact I|]. split; [repeat constructor; eexists; (split; [reflexivity|]); (split; [split; [discriminate|cbn; intuition discriminate]|discriminate])|].
    split; [|split; [reflexivity|discriminate]]. intros _. split; [vm_compute; split; discriminate|]. exists [VText (lit "a"); VText []]. split; [exact I|].
    intros [|k]; [one_slot|destruct k as [|[|k]]; reflexivity].
  - split; [exact I|]. split; [repeat constructor; eexists; (split; [reflexivity|]); (split; [split; [discriminate|cbn; intuition discriminate]|discriminate])|].
    split; [|split; [reflexivity|discriminate]]. intros _. split; [vm_compute; split; discriminate|]. exists [VText (lit "b")]. split; [exact I|].
    intros [|k]; [one_slot|destruct k as [|[|k]]; reflexivity].
Qed.
(** 2. A switch that is required twice is shown once. *)
Definition twice_tab : list (entry (body Z)) := [arg_litn (o "v") None 2 2 None].
Example C66_required_twice : syntax_line (fun h => brief (h_shortopts h) (h_longopts h) (h_datatype h) (h_hasoptvalue h)) (map e_hdr twice_tab) = lit " -v" /\
  errors (run twice_tab ["-v"]) = Some 1 /\ errors (run twice_tab ["-vv"]) = Some 0.
Proof. split; [reflexivity|]. split; vm_compute; reflexivity. Qed.
(** 3. An optional value is shown behind a blank, but has to be attached. *)
Definition optional_tab : list (entry (body Z)) := [with_optvalue (arg_strn (o "c") None (o "<color>") 1 1 None)].
Example C66_optional_value : syntax_line (fun h => brief (h_shortopts h) (h_longopts h) (h_datatype h) (h_hasoptvalue h)) (map e_hdr optional_tab) = lit " -c [<color>]" /\
  errors (run optional_tab ["-c"; "red"]) = Some 1 /\ errors (run optional_tab ["-cred"]) = Some 0.
Proof. split; [reflexivity|]. split; vm_compute; reflexivity. Qed.
(** 4. A remark that has a text for the column of the options is shown as if it were required. *)
Definition remark_tab : list (entry (body Z)) := [arg_litn (o "v") None 0 1 None; arg_rem (o "note:") (o "see the manual")].
Example C66_remark : syntax_line (fun h => brief (h_shortopts h) (h_longopts h) (h_datatype h) (h_hasoptvalue h)) (map e_hdr remark_tab) = lit " [-v] note:" /\
  errors (run remark_tab ["note:"]) = Some 1 /\ errors (run remark_tab []) = Some 0.
Proof. split; [reflexivity|]. split; vm_compute; reflexivity. Qed.

Print Assumptions C66_line_followed.
Print Assumptions C66_required_parts.
Print Assumptions C66_optional_before_required_refuted.
