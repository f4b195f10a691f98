(** C02, C03, C12, C16, C48 and C50: parsing with tables of the library's own kinds of entries.

    Parameters, as in ArgModel.v: [strtod] with its contract, the regular expression matcher, the width
    of long, the file separators. [reached ints tab]: the table was made by the constructors (with
    maximum counts that are not negative and patterns on which matching gives an answer, see C26), and
    may since have been parsed with and given default values; [ints] must be true if it has integer
    entries. [safe_value ints s]: [s] is a C string and, if there are integer entries, no suffix of it is
    one of the texts of C18. *)
From Verif Require Import Base IntModel IntSpec IntProofs FileModel FileSpec DateModel DateSpec GetoptModel ParseModel ParseSpec GetoptProofs ParseIdeal ParseProofs ParseFacts ParseObserve ParseSafe ParseLemmas ArgModel KindsSpec KindsProofs.
From Verif Require PropParse PropDate ExTable.
From Coq Require Import ZArith List Ascii String Bool Lia.
Import ListNotations.
Open Scope Z_scope.

Section Kinds.
Context {D : Type}.
Context (strtod : str -> D * nat).
Context (rexmatch : str -> Z -> str -> res bool).
Context (lm : long_model) (sp : seps).
Notation scan := (kscan strtod rexmatch lm sp).
Notation parse := (karg_parse strtod rexmatch lm sp).
Notation safe_value := (safe_value lm).
Notation stored := (stored strtod rexmatch lm sp).

(** The contract of strtod: it consumes at most the string. *)
Definition strtod_contract : Prop := forall s, (snd (strtod s) <= List.length s)%nat.

Definition made (ints : bool) (e : entry (body D)) : Prop :=
  built e /\ matchable rexmatch (e_body e) /\ (is_int (e_body e) = true -> ints = true).
Inductive reached (ints : bool) : list (entry (body D)) -> Prop :=
| reached_new tab : Forall (made ints) tab -> reached ints tab
| reached_preset tab tab' : reached ints tab -> Forall2 preset tab tab' -> reached ints tab'
| reached_parse posix cap tab rest jo jc jp fuel argv h s en a0 h' s' tab' en' : reached ints tab ->
    call cap tab en h argv a0 rest fuel -> Forall (safe_value ints) rest ->
    parse posix jo jc jp fuel (zlen (a0 :: rest)) argv h s tab en = Ok (h', s', tab', en') -> reached ints tab'
| reached_parse_none posix cap tab jo jc jp fuel argv h s en h' s' tab' en' : reached ints tab -> wf_end cap en ->
    parse posix jo jc jp fuel 0 argv h s tab en = Ok (h', s', tab', en') -> reached ints tab'.

Section Contract.
Hypothesis Hd : strtod_contract.
Notation ready ints := (Forall (inv (Inv rexmatch ints))).

Lemma parse_ok_safe ints posix cap tab rest jo jc jp fuel argv h s en a0 h' s' tab' en' :
  ready ints tab -> call cap tab en h argv a0 rest fuel -> Forall (safe_value ints) rest ->
  parse posix jo jc jp fuel (zlen (a0 :: rest)) argv h s tab en = Ok (h', s', tab', en') ->
  exists evs pos errs, read_args posix (map e_hdr tab) rest = (evs, Finished pos) /\
    ideal_parse scan kcheck kreset evs pos tab = Ok (tab', errs) /\
    end_count en' = Z.min cap (zlen errs) /\ recorded en' = shown cap errs /\ ready ints tab' /\ map e_hdr tab' = map e_hdr tab.
Proof.
  intros Ht Hc Hv Hp. destruct (finished_of_ok scan kcheck kreset posix cap tab jo jc jp fuel argv h s en a0 rest (tab', end_count en', recorded en') Hc) as (evs & pos & Hr).
  { unfold karg_parse in Hp. rewrite Hp. reflexivity. }
  destruct (ideal_safe scan kcheck kreset _ _ (kinds_safe strtod rexmatch lm sp Hd ints) posix tab rest evs pos Ht Hv Hr) as (t & errs & Ei & Hi & Hh).
  pose proof (one_pass scan kcheck kreset posix cap jo jc jp fuel argv h s tab en a0 rest evs pos Hc Hr) as Ho.
  unfold karg_parse in Hp. rewrite Hp, Ei in Ho. cbn in Ho. injection Ho as -> E1 E2. exists evs, pos, errs. auto 10.
Qed.
Lemma parse_none_safe ints posix cap tab jo jc jp fuel argv h s en : ready ints tab -> wf_end cap en ->
  exists h' s' tab' en', parse posix jo jc jp fuel 0 argv h s tab en = Ok (h', s', tab', en') /\ ready ints tab' /\
    map e_hdr tab' = map e_hdr tab /\ exists errs, ideal_parse_empty kcheck kreset tab = Ok (tab', errs) /\
    end_count en' = Z.min cap (zlen errs) /\ recorded en' = shown cap errs.
Proof.
  intros Ht He. destruct (ideal_empty_safe scan kcheck kreset _ _ (kinds_safe strtod rexmatch lm sp Hd ints) tab Ht) as (t & errs & Ei & Hi & Hh).
  pose proof (observe_empty scan kcheck kreset posix jo jc jp cap fuel argv h s tab en He) as Ho. rewrite Ei in Ho. unfold karg_parse.
  destruct (arg_parse scan kcheck kreset posix jo jc jp fuel 0 argv h s tab en) as [[[[h' s'] t'] en']| |]; try discriminate.
  cbn in Ho. injection Ho as -> E1 E2. exists h', s', t, en'. eauto 10.
Qed.
Lemma preset_inv ints (e e' : entry (body D)) : preset e e' -> inv (Inv rexmatch ints) e -> inv (Inv rexmatch ints) e'.
Proof.
  unfold inv, Inv. destruct e as [h b], e' as [h' b']. intros (E & Ek & Hp) (H1 & H2 & H3). cbn in *. subst h'.
  destruct b as [c|p|p|p|p|p|p|], b' as [c'|p'|p'|p'|p'|p'|p'|]; try contradiction; cbn [bounded matchable is_int kcount] in *; try (injection Ek as Ek); (split; [|split]); auto;
    try rewrite Ek; try (rewrite Hp; exact H1); try (intuition congruence); try exact H1.
  destruct Hp as (-> & -> & _). exact H2.
Qed.
Lemma reached_ready ints (tab : list (entry (body D))) : reached ints tab -> ready ints tab.
Proof.
  induction 1 as [tab H|tab tab' _ IH Hp|posix cap tab rest jo jc jp fuel argv h s en a0 h' s' tab' en' _ IH Hc Hv Hp|posix cap tab jo jc jp fuel argv h s en h' s' tab' en' _ IH He Hp].
  - eapply Forall_impl; [|exact H]. intros e (H1 & H2 & H3). split; auto. apply built_bounded; auto.
  - revert IH. induction Hp; intros Ht; constructor; inversion_clear Ht; auto. eapply preset_inv; eauto.
  - destruct (parse_ok_safe ints posix cap tab rest jo jc jp fuel argv h s en a0 h' s' tab' en' IH Hc Hv Hp) as (_ & _ & _ & _ & _ & _ & _ & Hr & _). auto.
  - destruct (parse_none_safe ints posix cap tab jo jc jp fuel argv h s en IH He) as (h2 & s2 & t2 & en2 & E & Hr & _). rewrite Hp in E. injection E as _ _ <- _. auto.
Qed.

(** C02. Parsing never does anything undefined, and leaves every entry in order: the count is between 0
    and maxcount, and no store went out of bounds. (A command line with a cluster ending in a dash may
    keep the parser busy for ever, see C12.) *)
Theorem C02_parse_is_safe :
  forall ints posix cap tab rest jo jc jp fuel argv h s en a0,
  reached ints tab -> call cap tab en h argv a0 rest fuel -> Forall (safe_value ints) rest ->
  match parse posix jo jc jp fuel (zlen (a0 :: rest)) argv h s tab en with
  | Ok (_, _, tab', _) => map e_hdr tab' = map e_hdr tab /\ Forall (fun e => bounded (e_hdr e) (e_body e)) tab'
  | UB _ => False
  | OutOfFuel => exists a, In a rest /\ dash_tailed a
  end.
Proof.
  intros ints posix cap tab rest jo jc jp fuel argv h s en a0 Ht Hc Hv. apply reached_ready in Ht.
  destruct (parse posix jo jc jp fuel (zlen (a0 :: rest)) argv h s tab en) as [[[[h' s'] tab'] en']|u|] eqn:Hp.
  - destruct (parse_ok_safe _ _ _ _ _ _ _ _ _ _ _ _ _ _ _ _ _ _ Ht Hc Hv Hp) as (_ & _ & _ & _ & _ & _ & _ & Hr & Hh). split; auto.
    eapply Forall_impl; [|exact Hr]. intros e H. exact (proj1 H).
  - destruct (read_args posix (map e_hdr tab) rest) as [evs [pos|]] eqn:Hr.
    + destruct (ideal_safe scan kcheck kreset _ _ (kinds_safe strtod rexmatch lm sp Hd ints) posix tab rest evs pos Ht Hv Hr) as (t & errs & Ei & _).
      pose proof (one_pass scan kcheck kreset posix cap jo jc jp fuel argv h s tab en a0 rest evs pos Hc Hr) as Ho. unfold karg_parse in Hp. rewrite Hp, Ei in Ho. discriminate.
    + pose proof (hang_safe scan kcheck kreset _ _ (kinds_safe strtod rexmatch lm sp Hd ints) posix jo jc jp cap fuel argv h s tab en a0 rest evs Ht Hv Hc Hr fuel) as H.
      unfold karg_parse in Hp. rewrite Hp in H. discriminate.
  - destruct (read_args posix (map e_hdr tab) rest) as [evs [pos|]] eqn:Hr.
    + exfalso. destruct (ideal_safe scan kcheck kreset _ _ (kinds_safe strtod rexmatch lm sp Hd ints) posix tab rest evs pos Ht Hv Hr) as (t & errs & Ei & _).
      pose proof (one_pass scan kcheck kreset posix cap jo jc jp fuel argv h s tab en a0 rest evs pos Hc Hr) as Ho. unfold karg_parse in Hp. rewrite Hp, Ei in Ho. discriminate.
    + apply (read_args_hangs posix (map e_hdr tab) rest). rewrite Hr. reflexivity.
Qed.
Theorem C02_parse_is_safe_no_arguments :
  forall ints posix cap tab jo jc jp fuel argv h s en, reached ints tab -> wf_end cap en ->
  exists h' s' tab' en', parse posix jo jc jp fuel 0 argv h s tab en = Ok (h', s', tab', en') /\
    map e_hdr tab' = map e_hdr tab /\ Forall (fun e => bounded (e_hdr e) (e_body e)) tab'.
Proof.
  intros ints posix cap tab jo jc jp fuel argv h s en Ht He. apply reached_ready in Ht.
  destruct (parse_none_safe ints posix cap tab jo jc jp fuel argv h s en Ht He) as (h' & s' & tab' & en' & E & Hr & Hh & _).
  exists h', s', tab', en'. split; auto. split; auto. eapply Forall_impl; [|exact Hr]. intros e H. exact (proj1 H).
Qed.

(** C03. *)
Definition constraint_met (e : entry (body D)) : Prop :=
  forall n, kcount (e_body e) = Some n -> h_mincount (e_hdr e) <= n <= h_maxcount (e_hdr e).
Lemma check_empty : forall tab i ints, ready ints tab -> ideal_check kcheck i tab = [] -> Forall constraint_met tab.
Proof.
  induction tab as [|e tab IH]; intros i ints Ht H; constructor; inversion_clear Ht as [|? ? (Hb & _) Ht']; cbn [ideal_check] in H; apply app_eq_nil in H as [H1 H2]; [|eapply IH; eauto].
  intros n Hn. destruct (e_body e); cbn in *; try discriminate; injection Hn as <-; unfold checkfn, arg_int_checkfn in H1;
    match type of H1 with context [?a <? ?b] => destruct (Z.ltb_spec a b); [discriminate|lia] end.
Qed.
Lemma zero_errors cap (errs : list err) : 1 <= cap -> Z.min cap (zlen errs) = 0 -> errs = [].
Proof. destruct errs as [|e l]; auto. rewrite zlen_cons. pose proof (zlen_nonneg l). lia. Qed.
Theorem C03_zero_means_constraints_met :
  forall ints posix cap tab rest jo jc jp fuel argv h s en a0 h' s' tab' en',
  reached ints tab -> call cap tab en h argv a0 rest fuel -> Forall (safe_value ints) rest ->
  parse posix jo jc jp fuel (zlen (a0 :: rest)) argv h s tab en = Ok (h', s', tab', en') -> end_count en' = 0 ->
  Forall constraint_met tab' /\ recorded en' = [].
Proof.
  intros ints posix cap tab rest jo jc jp fuel argv h s en a0 h' s' tab' en' Ht Hc Hv Hp Hz. apply reached_ready in Ht.
  destruct (parse_ok_safe _ _ _ _ _ _ _ _ _ _ _ _ _ _ _ _ _ _ Ht Hc Hv Hp) as (evs & pos & errs & _ & Ei & E1 & E2 & Hr & _).
  pose proof (proj1 (c_end _ _ _ _ _ _ _ _ Hc)) as Hcap. rewrite Hz in E1. symmetry in E1. apply zero_errors in E1; auto. subst errs.
  split; [|rewrite E2; unfold shown; change (zlen (@nil err)) with 0; destruct (Z.leb_spec 0 cap); [auto|lia]].
  unfold ideal_parse in Ei. apply bind_ok in Ei as (t0 & _ & Ei). apply bind_ok in Ei as ([t1 e1] & _ & Ei). apply bind_ok in Ei as ([t2 e2] & _ & Ei).
  cbn [fst snd] in Ei. destruct (e1 ++ e2) eqn:E; [|discriminate]. injection Ei as -> Ei. eapply check_empty; eauto.
Qed.
Theorem C03_zero_means_constraints_met_no_arguments :
  forall ints posix cap tab jo jc jp fuel argv h s en h' s' tab' en', reached ints tab -> wf_end cap en ->
  parse posix jo jc jp fuel 0 argv h s tab en = Ok (h', s', tab', en') -> end_count en' = 0 ->
  Forall constraint_met tab' /\ recorded en' = [].
Proof.
  intros ints posix cap tab jo jc jp fuel argv h s en h' s' tab' en' Ht He Hp Hz. apply reached_ready in Ht.
  destruct (parse_none_safe ints posix cap tab jo jc jp fuel argv h s en Ht He) as (h2 & s2 & t2 & en2 & E & Hr & Hh & errs & Ei & E1 & E2).
  rewrite Hp in E. injection E as <- <- <- <-. rewrite Hz in E1. symmetry in E1. apply zero_errors in E1; [|exact (proj1 He)]. subst errs.
  pose proof (proj1 He). split; [|rewrite E2; unfold shown; change (zlen (@nil err)) with 0; destruct (Z.leb_spec 0 cap); [auto|lia]].
  unfold ideal_parse_empty in Ei. apply bind_ok in Ei as (t0 & _ & Ei). injection Ei as -> Ei. eapply check_empty; eauto.
Qed.

(** C12, for these tables. *)
Theorem C12_library_kinds_terminate :
  forall ints posix cap tab rest jo jc jp fuel argv h s en a0,
  reached ints tab -> call cap tab en h argv a0 rest fuel -> Forall (safe_value ints) rest -> (forall a, In a rest -> ~ dash_tailed a) ->
  exists h' s' tab' en', parse posix jo jc jp fuel (zlen (a0 :: rest)) argv h s tab en = Ok (h', s', tab', en').
Proof.
  intros ints posix cap tab rest jo jc jp fuel argv h s en a0 Ht Hc Hv Hda.
  pose proof (C02_parse_is_safe ints posix cap tab rest jo jc jp fuel argv h s en a0 Ht Hc Hv) as H.
  destruct (parse posix jo jc jp fuel (zlen (a0 :: rest)) argv h s tab en) as [[[[h' s'] tab'] en']|u|]; [eauto|contradiction|].
  exfalso. destruct H as (a & Ha & Hx). eapply Hda; eauto.
Qed.

(** C50. After a parse that returns 0: the positional arguments were shared out in order ([runs]), and
    every entry has counted exactly its occurrences on the command line and holds their values in order,
    the k-th in slot k; slots not given a value are as before. *)
Theorem C50_values_in_order :
  forall ints posix cap tab rest jo jc jp fuel argv h s en a0 h' s' tab' en' evs pos,
  reached ints tab -> call cap tab en h argv a0 rest fuel -> Forall (safe_value ints) rest ->
  parse posix jo jc jp fuel (zlen (a0 :: rest)) argv h s tab en = Ok (h', s', tab', en') -> end_count en' = 0 ->
  read_args posix (map e_hdr tab) rest = (evs, Finished pos) ->
  exists runs : list (list str), pos = List.concat runs /\ List.length runs = List.length tab /\
  forall i e run, nth_error tab i = Some e -> nth_error runs i = Some run ->
    (run <> [] -> no_options (e_hdr e)) /\
    exists e', nth_error tab' i = Some e' /\ e_hdr e' = e_hdr e /\
      (kcount (e_body e) <> None ->
       let given := occurrences i evs ++ map Some run in
       kcount (e_body e') = Some (zlen given) /\ stored (e_body e) (slots_reset (e_body e)) given (slots (e_body e'))).
Proof.
  intros ints posix cap tab rest jo jc jp fuel argv h s en a0 h' s' tab' en' evs pos Ht Hc Hv Hp Hz Hr. apply reached_ready in Ht.
  destruct (parse_ok_safe _ _ _ _ _ _ _ _ _ _ _ _ _ _ _ _ _ _ Ht Hc Hv Hp) as (evs' & pos' & errs & Hr' & Ei & E1 & _ & _ & _).
  rewrite Hr in Hr'. injection Hr' as <- <-.
  pose proof (proj1 (c_end _ _ _ _ _ _ _ _ Hc)) as Hcap. rewrite Hz in E1. symmetry in E1. apply zero_errors in E1; auto. subst errs.
  pose proof (kinds_safe strtod rexmatch lm sp Hd ints) as Hsafe.
  destruct (read_args_carries (safe_value ints) (safe_suffix _ _ _ _ Hsafe) _ _ _ _ _ Hv Hr) as [Hce Hcp].
  unfold ideal_parse in Ei. apply bind_ok in Ei as (t0 & E0 & Ei). apply bind_ok in Ei as ([t1 e1] & Ee & Ei). apply bind_ok in Ei as ([t2 e2] & Ep & Ei).
  cbn [fst snd] in *. destruct e1; [|discriminate]. destruct e2; [|discriminate]. injection Ei as <- _.
  assert (H1 : ready ints t1 /\ map e_hdr t1 = map e_hdr t0).
  { destruct (reset_safe scan kreset _ _ Hsafe tab Ht) as (t0' & E0' & H0). rewrite E0 in E0'. injection E0' as <-.
    pose proof (read_args_events_ok (map e_hdr tab) posix rest) as Ho. rewrite Hr in Ho. cbn [fst] in Ho.
    destruct (events_safe scan kreset _ _ Hsafe evs t0 [] H0) as (t1' & e1' & Ee' & H1 & H1h); auto.
    - rewrite (ideal_reset_hdr _ _ _ E0). auto.
    - rewrite Ee in Ee'. injection Ee' as <- _. auto. }
  destruct H1 as [H1 H1h].
  destruct (positional_given strtod rexmatch lm sp Hd ints t1 0 pos None t2 H1 Hcp Ep) as (runs & -> & Hlen & Hk).
  assert (L0 : forall i e, nth_error tab i = Some e -> exists b, nth_error t0 i = Some (set_body b e) /\ kreset (e_hdr e) (e_body e) = Ok b).
  { clear -E0. revert t0 E0. induction tab as [|e tab IH]; intros t0 E0 i e0 Hi; [destruct i; discriminate|].
    cbn in E0. apply bind_ok in E0 as (b & Eb & E0). apply bind_ok in E0 as (t & Et & E0). injection E0 as <-.
    destruct i; cbn in *; [injection Hi as <-; eauto|eauto]. }
  assert (Hlen' : List.length runs = List.length tab).
  { rewrite Hlen, <- (map_length e_hdr t1), <- (map_length e_hdr tab), H1h, (ideal_reset_hdr _ _ _ E0). auto. }
  exists runs. split; auto. split; auto. intros i e run Hi Hrun.
  destruct (L0 i e Hi) as (b0 & Hi0 & Eb0). destruct (events_given scan evs t0 t1 Ee i _ Hi0) as (b1 & Hi1 & T1).
  destruct (Hk i _ run Hi1 Hrun) as (Hno & b2 & Hi2 & T2). split; [exact Hno|].
  eexists. split; [exact Hi2|]. split; [reflexivity|]. intros Hcnt. set (given := occurrences i evs ++ map Some run). cbn in T1, T2 |- *.
  assert (He : inv (Inv rexmatch ints) e) by (rewrite Forall_forall in Ht; apply Ht; eapply nth_error_In; eauto).
  destruct (reset_inv rexmatch ints _ _ He) as (b0' & Eb' & Hb0 & _ & Hc0). rewrite Eb0 in Eb'. injection Eb' as <-.
  specialize (Hc0 Hcnt). destruct (reset_slots rexmatch ints _ _ _ He Eb0) as [Hs0 Hk0].
  pose proof (takes_app scan _ _ _ _ _ _ T1 T2) as T. fold given in T.
  assert (Hgiven : forall s, In (Some s) given -> safe_value ints s).
  { intros s0 Hin. apply in_app_iff in Hin as [Hin|Hin].
    - unfold occurrences in Hin. apply in_flat_map in Hin as (ev & Hev & Hin). rewrite Forall_forall in Hce. specialize (Hce ev Hev).
      destruct ev as [j v|]; [|contradiction]. destruct (Nat.eqb j i); [|contradiction]. destruct Hin as [->|[]]. exact Hce.
    - apply in_map_iff in Hin as (x & [= ->] & Hin). rewrite Forall_forall in Hcp. apply Hcp. apply in_concat. exists run. split; auto. eapply nth_error_In; eauto. }
  destruct (takes_stored strtod rexmatch lm sp Hd ints _ _ _ _ T 0 Hb0 Hgiven Hc0) as (_ & Sk & Sc & Sl & _ & Sj).
  split; [rewrite Sc; f_equal; lia|]. rewrite <- Hs0. split.
  - destruct (e_body e), b0; cbn in Hk0; try contradiction; auto.
  - intros k. specialize (Sj k). cbn [Z.to_nat Nat.add] in Sj.
    destruct (nth_error given k) as [[v|]|]; auto; destruct (e_body e), b0; cbn in Hk0; try contradiction; auto;
    destruct Sj as (v0 & x & S1 & S2 & S3); exists v0, x; (split; [exact S1|]); (split; [exact S2|]); cbn in S3 |- *; try rewrite <- Hk0; auto; destruct Hk0 as [<- <-]; auto.
Qed.

(** C16. An occurrence without a value counts and changes no slot, for every kind of entry. *)
Theorem C16_bare_occurrence :
  forall (h : hdr) (b : body D) f n, bounded h b -> scan h b = Some f -> kcount b = Some n ->
  (n < h_maxcount h -> exists b', f None = Ok (b', 0) /\ kcount b' = Some (n + 1) /\ slots b' = slots b) /\
  (n = h_maxcount h -> f None = Ok (b, ARG_ERR_MAXCOUNT)).
Proof.
  intros h b f n Hb Hs Hn. assert (Hr : n <= h_maxcount h) by (destruct b; cbn in *; try discriminate; injection Hn as <-; lia). clear Hb.
  destruct b as [c|p|p|p|p|p|p|]; cbn [kscan kcount] in *; try discriminate; injection Hs as <-; injection Hn as Hn;
    try unfold arg_lit_scanfn; try unfold arg_int_scanfn; try unfold arg_dbl_scanfn; try unfold arg_str_scanfn; try unfold arg_file_scanfn; try unfold arg_date_scanfn; try unfold arg_rex_scanfn; rewrite Hn;
    (split; intros Hc; [|try subst n; rewrite Hc, ?Z.eqb_refl, ?Z.ltb_irrefl; try (destruct p); reflexivity]);
    try (destruct (Z.eqb_spec n (h_maxcount h)); [lia|]); try (destruct (Z.ltb_spec n (h_maxcount h)); [|lia]);
    eexists; (split; [reflexivity|]); cbn; auto.
Qed.
(** A value is only taken when attached: after the bare option the rest of the command line is read as
    if the option were not there. *)
Theorem C16_long_without_value :
  forall posix cap tab jo jc jp fuel argv h s en a0 l post evs pos nm i hd,
  Forall (good_item (map e_hdr tab)) l -> (posix = true -> positionals l = []) ->
  nm <> [] -> ~ In "="%char nm -> selects (map e_hdr tab) nm i hd -> h_hasoptvalue hd = true ->
  read_args posix (map e_hdr tab) post = (evs, Finished pos) ->
  call cap tab en h argv a0 (cmdline l ++ [lit "--" ++ nm] ++ post) fuel ->
  observe (parse posix jo jc jp fuel (zlen (a0 :: cmdline l ++ [lit "--" ++ nm] ++ post)) argv h s tab en)
  = (st <- ideal_parse scan kcheck kreset (events l ++ EvScan i None :: evs) (positionals l ++ pos) tab ;; Ok (visible cap st)).
Proof.
  intros posix cap tab jo jc jp fuel argv h s en a0 l post evs pos nm i hd Hl Hpx Hn He Hs Ho Hr Hc.
  eapply (PropParse.C09_long_option_selected scan kcheck kreset); eauto. unfold long_takes. rewrite Ho. auto.
Qed.
Theorem C16_short_without_value :
  forall posix cap tab jo jc jp fuel argv h s en a0 l post evs pos c i hd,
  Forall (good_item (map e_hdr tab)) l -> (posix = true -> positionals l = []) ->
  c <> "-"%char -> first_declaring (map e_hdr tab) c i hd -> h_hasvalue hd = true -> h_hasoptvalue hd = true ->
  read_args posix (map e_hdr tab) post = (evs, Finished pos) ->
  call cap tab en h argv a0 (cmdline l ++ [["-"%char; c]] ++ post) fuel ->
  observe (parse posix jo jc jp fuel (zlen (a0 :: cmdline l ++ [["-"%char; c]] ++ post)) argv h s tab en)
  = (st <- ideal_parse scan kcheck kreset (events l ++ EvScan i None :: evs) (positionals l ++ pos) tab ;; Ok (visible cap st)).
Proof.
  intros posix cap tab jo jc jp fuel argv h s en a0 l post evs pos c i hd Hl Hpx Hn Hs Hv Ho Hr Hc.
  eapply (PropParse.C49_short_option_dispatched scan kcheck kreset); eauto. unfold short_takes. rewrite Hv, Ho. auto.
Qed.
(** An option that was only given without values: after a parse that returns 0 all slots are as at its
    beginning (so they show the caller's defaults). *)
Theorem C16_defaults_kept :
  forall ints posix cap tab rest jo jc jp fuel argv h s en a0 h' s' tab' en' evs pos i e e',
  reached ints tab -> call cap tab en h argv a0 rest fuel -> Forall (safe_value ints) rest ->
  parse posix jo jc jp fuel (zlen (a0 :: rest)) argv h s tab en = Ok (h', s', tab', en') -> end_count en' = 0 ->
  read_args posix (map e_hdr tab) rest = (evs, Finished pos) ->
  nth_error tab i = Some e -> nth_error tab' i = Some e' -> ~ no_options (e_hdr e) -> kcount (e_body e) <> None ->
  (forall v, In v (occurrences i evs) -> v = None) ->
  kcount (e_body e') = Some (zlen (occurrences i evs)) /\ slots (e_body e') = slots_reset (e_body e).
Proof.
  intros ints posix cap tab rest jo jc jp fuel argv h s en a0 h' s' tab' en' evs pos i e e' Ht Hc Hv Hp Hz Hr Hi Hi' Hno Hk Hnone.
  destruct (C50_values_in_order ints posix cap tab rest jo jc jp fuel argv h s en a0 h' s' tab' en' evs pos Ht Hc Hv Hp Hz Hr) as (runs & _ & Hlen & H).
  destruct (nth_error runs i) as [run|] eqn:Er; [|apply nth_error_None in Er; assert (i < List.length tab)%nat by (apply nth_error_Some; congruence); lia].
  destruct (H i e run Hi Er) as (Hrun & e2 & Hi2 & _ & G). rewrite Hi' in Hi2. injection Hi2 as <-. specialize (G Hk).
  destruct run as [|x run]; [|exfalso; apply Hno, Hrun; discriminate]. cbn [map] in G. rewrite app_nil_r in G. destruct G as (G1 & G2 & G3). split; auto.
  clear - G3 Hnone. assert (Hs : forall k, nth_error (slots (e_body e')) k = nth_error (slots_reset (e_body e)) k).
  { intros k. specialize (G3 k). destruct (nth_error (occurrences i evs) k) as [v|] eqn:E; [|destruct (e_body e); auto].
    assert (v = None) by (apply Hnone; eapply nth_error_In; eauto). subst v. destruct (e_body e); auto. }
  revert Hs. generalize (slots_reset (e_body e)). generalize (slots (e_body e')). clear.
  induction l as [|x l IH]; intros [|y l'] Hs; auto; try (specialize (Hs 0%nat); discriminate).
  pose proof (Hs 0%nat) as H0. injection H0 as ->. f_equal. apply IH. intros k. exact (Hs (S k)).
Qed.
End Contract.

(** C48. [new e mn mx]: [e] was just made with mincount [mn] and maxcount [mx], any integers. *)
Inductive new : entry (body D) -> Z -> Z -> Prop :=
| new_lit so lo mn mx gl : new (arg_litn so lo mn mx gl) mn mx
| new_int j so lo dt mn mx gl : new (arg_intn j so lo dt mn mx gl) mn mx
| new_dbl j so lo dt mn mx gl : new (arg_dbln j so lo dt mn mx gl) mn mx
| new_str so lo dt mn mx gl : new (arg_strn so lo dt mn mx gl) mn mx
| new_file so lo dt mn mx gl : new (arg_filen so lo dt mn mx gl) mn mx
| new_date so lo f dt mn mx gl : new (arg_daten so lo f dt mn mx gl) mn mx
| new_rex so lo pat dt mn mx fl gl : new (arg_rexn so lo pat dt mn mx fl gl) mn mx.
Definition empty_value (v : @value D) : Prop :=
  match v with VInt _ | VDbl _ => True | VText s => s = [] | VFile n b x => n = [] /\ b = [] /\ x = [] | VDate t => t = tm_zero end.
Theorem C48_constructors :
  forall e mn mx, new e mn mx ->
  h_mincount (e_hdr e) = mn /\ h_maxcount (e_hdr e) = Z.max mn mx /\ kcount (e_body e) = Some 0 /\
  ((forall c, e_body e <> KLit c) -> zlen (slots (e_body e)) = Z.max 0 (Z.max mn mx)) /\
  Forall empty_value (slots (e_body e)).
Proof.
  assert (Hfp : forall mn mx, foolproof mn mx = Z.max mn mx) by (intros mn mx; unfold foolproof; destruct (Z.ltb_spec mx mn); lia).
  assert (Hlen : forall A (l : list A) n, List.length l = Z.to_nat n -> zlen l = Z.max 0 n) by (intros A l n H; unfold zlen; lia).
  assert (Hf : forall n, List.length (@files D (filled [] n) (filled [] n) (filled [] n)) = Z.to_nat n) by (intros n; apply files_length; apply repeat_length).
  intros e mn mx [so lo mn0 mx0 gl|j so lo dt mn0 mx0 gl|j so lo dt mn0 mx0 gl|so lo dt mn0 mx0 gl|so lo dt mn0 mx0 gl|so lo f dt mn0 mx0 gl|so lo pat dt mn0 mx0 fl gl];
    (split; [reflexivity|]); (split; [apply Hfp|]); (split; [reflexivity|]); (split; [intros Hc; rewrite <- (Hfp mn0 mx0); apply Hlen|]).
  - exfalso. exact (Hc 0 eq_refl).
  - constructor.
  - cbn. unfold fresh. rewrite !map_length, seq_length. auto.
  - apply Forall_forall. intros v Hv. apply in_map_iff in Hv as (x & <- & _). exact I.
  - cbn. unfold fresh. rewrite !map_length, seq_length. auto.
  - apply Forall_forall. intros v Hv. apply in_map_iff in Hv as (x & <- & _). exact I.
  - cbn. rewrite map_length. apply repeat_length.
  - apply Forall_forall. intros v Hv. apply in_map_iff in Hv as (x & <- & Hx). apply repeat_spec in Hx. auto.
  - apply Hf.
  - cbn. unfold filled. clear. induction (Z.to_nat (foolproof mn0 mx0)); cbn; constructor; cbn; auto.
  - cbn. rewrite map_length. apply repeat_length.
  - apply Forall_forall. intros v Hv. apply in_map_iff in Hv as (x & <- & Hx). apply repeat_spec in Hx. auto.
  - cbn. rewrite map_length. apply repeat_length.
  - apply Forall_forall. intros v Hv. apply in_map_iff in Hv as (x & <- & Hx). apply repeat_spec in Hx. auto.
Qed.

(** The constructors for at most one and for exactly one occurrence. *)
Inductive new_optional : entry (body D) -> Prop :=
| opt_lit so lo gl : new_optional (arg_lit0 so lo gl)
| opt_int j so lo dt gl : new_optional (arg_int0 j so lo dt gl)
| opt_dbl j so lo dt gl : new_optional (arg_dbl0 j so lo dt gl)
| opt_str so lo dt gl : new_optional (arg_str0 so lo dt gl)
| opt_file so lo dt gl : new_optional (arg_file0 so lo dt gl)
| opt_date so lo f dt gl : new_optional (arg_date0 so lo f dt gl)
| opt_rex so lo pat dt fl gl : new_optional (arg_rex0 so lo pat dt fl gl).
Inductive new_mandatory : entry (body D) -> Prop :=
| man_lit so lo gl : new_mandatory (arg_lit1 so lo gl)
| man_int j so lo dt gl : new_mandatory (arg_int1 j so lo dt gl)
| man_dbl j so lo dt gl : new_mandatory (arg_dbl1 j so lo dt gl)
| man_str so lo dt gl : new_mandatory (arg_str1 so lo dt gl)
| man_file so lo dt gl : new_mandatory (arg_file1 so lo dt gl)
| man_date so lo f dt gl : new_mandatory (arg_date1 so lo f dt gl)
| man_rex so lo pat dt fl gl : new_mandatory (arg_rex1 so lo pat dt fl gl).
Theorem C48_zero_or_one :
  (forall e, new_optional e -> new e 0 1 /\ h_mincount (e_hdr e) = 0 /\ h_maxcount (e_hdr e) = 1) /\
  (forall e, new_mandatory e -> new e 1 1 /\ h_mincount (e_hdr e) = 1 /\ h_maxcount (e_hdr e) = 1).
Proof. split; intros e [ ]; (split; [constructor|split; reflexivity]). Qed.

(** [described e v so lo dt gl]: [e] has the options and texts [so], [lo], [dt], [gl], and takes values if [v], never optional ones. *)
Definition described (e : entry (body D)) (v : bool) (so lo dt gl : option str) : Prop :=
  h_hasvalue (e_hdr e) = v /\ h_hasoptvalue (e_hdr e) = false /\ h_shortopts (e_hdr e) = so /\ h_longopts (e_hdr e) = lo /\
  h_datatype (e_hdr e) = dt /\ h_glossary (e_hdr e) = gl.
Definition or_else (dt : option str) (d : str) : option str := match dt with Some _ => dt | None => Some d end.
Theorem C48_described :
  forall so lo dt gl mn mx,
  described (arg_litn so lo mn mx gl) false so lo None gl /\
  (forall j, described (arg_intn j so lo dt mn mx gl) true so lo (or_else dt (lit "<int>")) gl) /\
  (forall j, described (arg_dbln j so lo dt mn mx gl) true so lo (or_else dt (lit "<double>")) gl) /\
  described (arg_strn so lo dt mn mx gl) true so lo (or_else dt (lit "<string>")) gl /\
  described (arg_filen so lo dt mn mx gl) true so lo (or_else dt (lit "<file>")) gl /\
  (forall f, described (arg_daten so lo (Some f) dt mn mx gl) true so lo (or_else dt f) gl) /\
  described (arg_daten so lo None dt mn mx gl) true so lo (or_else dt (lit "%x")) gl /\
  (forall pat fl, described (arg_rexn so lo pat dt mn mx fl gl) true so lo (or_else dt pat) gl).
Proof. intros so [lo|] [dt|] gl mn mx; repeat split. Qed.

(** A date entry made without a format reads dates as MM/DD/YY. *)
Theorem C48_default_date_format :
  forall so lo dt mn mx gl d, PropDate.valid_datetime d -> 1969 <= PropDate.d_year d <= 2068 -> 1 <= Z.max mn mx ->
  exists p, e_body (arg_daten so lo None dt mn mx gl) = @KDate D p /\
    PropDate.stores (h_maxcount (e_hdr (@arg_daten D so lo None dt mn mx gl))) p (PropDate.us_date d) (fun _ t => PropDate.carries_date d t).
Proof.
  intros so lo dt mn mx gl d Hv Hy Hm. eexists. split; [reflexivity|].
  assert (Hfp : foolproof mn mx = Z.max mn mx) by (unfold foolproof; destruct (Z.ltb_spec mx mn); lia).
  pose proof (PropDate.C22_roundtrip_two_digit_year (foolproof mn mx) {| date_format := lit "%x"; date_count := 0; date_tmval := filled tm_zero (foolproof mn mx) |} d Hv Hy) as H.
  cbn [date_count date_tmval date_format] in H. specialize (H ltac:(lia) ltac:(unfold filled, zlen; rewrite repeat_length; lia) (or_intror eq_refl)).
  destruct H as (t & t' & H1 & (H2 & _) & H3). exists t, t'. auto.
Qed.
End Kinds.

(** ** C02: the restriction on maximum counts is needed *)
(** arg_intn with mincount -2 and maxcount -1: the first value is written outside the array. *)
Definition negative_table : list (entry (body Z)) := [arg_intn (fun _ => 7) None None None (-2) (-1) None].
Theorem C02_negative_maxcount_refuted :
  exists rest, call 4 negative_table (ExTable.en 4) (ExTable.heap0 ("p" :: rest)%string) 1 (lit "p") (ExTable.args rest) 9 /\
  ExTable.parse false ExTable.jo ExTable.jc ExTable.jp 9 (zlen ("p" :: rest)%string) 1 (ExTable.heap0 ("p" :: rest)%string) ExTable.s0 negative_table (ExTable.en 4) = UB OOBWrite.
Proof.
  exists ["5"]%string. split; [|vm_compute; reflexivity].
  constructor; [|repeat constructor|apply ExTable.strs_cstr_ok; reflexivity|exists [None]; reflexivity|cbn; lia].
  unfold wf_end, ExTable.en, arg_end_new. cbn. repeat split; lia.
Qed.
(** ** C16: the flag for an optional value does not work alone *)
(** On an arg_lit it makes the short option require a value (the long one takes an optional value). *)
Definition flagged_table : list (entry (body Z)) := [with_optvalue (arg_litn (Some (lit "x")) (Some (lit "xx")) 0 3 None)].
Definition flagged_run (l : list string) :=
  observe (ExTable.parse false ExTable.jo ExTable.jc ExTable.jp 30 (zlen l) 1 (ExTable.heap0 l) ExTable.s0 flagged_table (ExTable.en 4)).
Theorem C16_flag_without_value_refuted :
  (exists t, flagged_run ["p"; "-x"]%string = Ok (t, 1, [mk_err PEnd ARG_EMISSARG (Some (lit "-x"))]) /\ map (fun e => kcount (e_body e)) t = [Some 0]) /\
  (exists t, flagged_run ["p"; "--xx"]%string = Ok (t, 0, []) /\ map (fun e => kcount (e_body e)) t = [Some 1]).
Proof. split; eexists; (split; [vm_compute; reflexivity|reflexivity]). Qed.

(** ** Examples *)
Local Open Scope string_scope.
Local Open Scope list_scope.
Local Open Scope Z_scope.
Notation args := ExTable.args.
Lemma ex_reached : reached ExTable.strtod ExTable.rexmatch Long64 unix_seps true ExTable.tab.
Proof.
  apply reached_new. repeat constructor; cbn; try discriminate; auto; try lia.
Qed.
Lemma ex_contract : strtod_contract ExTable.strtod.
Proof. intros s. cbn. lia. Qed.
(** The condition on values can be decided by trying all suffixes. *)
Fixpoint suffixes_convert (s : str) : bool :=
  match int_convert Long64 s with UB _ => false | _ => true end && match s with [] => true | _ :: s' => suffixes_convert s' end.
Lemma suffixes_convert_ok : forall (s : str), suffixes_convert s = true -> forall p q, s = p ++ q -> ~ doubly_negated_huge (LONG_MAX Long64) q.
Proof.
  induction s as [|c s IH]; intros H p q E Hq; cbn [suffixes_convert] in H; apply andb_true_iff in H as [H1 H2].
  - destruct p; [|discriminate]. cbn in E. subst q. apply int_convert_huge in Hq. rewrite Hq in H1. discriminate.
  - destruct p as [|x p]; cbn in E; [subst q; apply int_convert_huge in Hq; rewrite Hq in H1; discriminate|].
    injection E as _ E. eapply IH; eauto.
Qed.
Lemma safe_values (l : list str) : forallb suffixes_convert l = true -> ExTable.strs_cstr l = true -> Forall (safe_value Long64 true) l.
Proof.
  intros H1 H2. apply ExTable.strs_cstr_ok in H2. rewrite forallb_forall in H1. rewrite Forall_forall in *. intros s Hs. split; auto. intros _. apply suffixes_convert_ok; auto.
Qed.
Definition ex_line : list string := ["x"; "-vn"; "-12"; "--out=dir/a.c"; "-v"; "--num"; "0x1F"; "y"].
Lemma ex_safe : Forall (safe_value Long64 true) (map lit ex_line).
Proof. apply safe_values; vm_compute; reflexivity. Qed.
Lemma ex_call : call 4 ExTable.tab (ExTable.en 4) (ExTable.heap0 ("p" :: ex_line)) 1 (lit "p") (map lit ex_line) (S (total (args ("p" :: ex_line)))).
Proof. destruct (ExTable.call_ok "p" ex_line 4 0 ltac:(lia) eq_refl) as [H1 H2 H3 H4 _]. constructor; auto. Qed.
Definition ex_result := karg_parse ExTable.strtod ExTable.rexmatch Long64 unix_seps false ExTable.jo ExTable.jc ExTable.jp (S (total (args ("p" :: ex_line))))
  (zlen (lit "p" :: map lit ex_line)) 1 (ExTable.heap0 ("p" :: ex_line)) ExTable.s0 ExTable.tab (ExTable.en 4).
Lemma ex_zero : match ex_result with Ok (_, _, t, e) => end_count e = 0 /\ map (fun e => kcount (e_body e)) t = [Some 2; Some 2; Some 1; Some 2] | _ => False end.
Proof. vm_compute. auto. Qed.
Definition shows (l : list string) :=
  match ExTable.run l with Ok (_, _, t, e) => Some (map (fun x => (kcount (e_body x), slots (e_body x))) t, end_count e) | _ => None end.
(** Two -v, the integers -12 and 31, one file, two strings: C02, C03 and C50 apply. *)
Example C50_case : shows ("p" :: ex_line) =
  Some ([(Some 2, []); (Some 2, [VInt (-12); VInt 31]); (Some 1, [VFile (lit "dir/a.c") (lit "a.c") (lit ".c")]); (Some 2, [VText (lit "x"); VText (lit "y")])], 0).
Proof. vm_compute. reflexivity. Qed.
Example C03_case : exists h s t e, ex_result = Ok (h, s, t, e) /\ Forall constraint_met t /\ recorded e = [].
Proof.
  pose proof ex_zero as Z0. unfold ex_result in *.
  match type of Z0 with context [match ?r with _ => _ end] => destruct r as [[[[h s] t] e]| |] eqn:E; [|contradiction|contradiction] end.
  exists h, s, t, e. split; auto. eapply (C03_zero_means_constraints_met ExTable.strtod ExTable.rexmatch Long64 unix_seps ex_contract true); [exact ex_reached|exact ex_call|exact ex_safe|exact E|].
  exact (proj1 Z0).
Qed.
(** A missing positional string: the result is not 0, and the constraint is indeed not met. *)
Example C03_case_missing : option_map snd (shows ["p"; "-v"]) = Some 1.
Proof. vm_compute. reflexivity. Qed.
(** A third -n is one too many; the arrays are full but not overrun. *)
Example C02_case : shows ["p"; "-n1"; "-n2"; "-n3"; "x"] =
  Some ([(Some 0, []); (Some 2, [VInt 1; VInt 2]); (Some 0, [VFile [] [] []]); (Some 1, [VText (lit "x"); VText []])], 1).
Proof. vm_compute. reflexivity. Qed.
(** -n with an optional value, preset to 42. *)
Definition opt_table : list (entry (body Z)) := [with_optvalue (arg_intn (fun _ => 42) (Some (lit "n")) (Some (lit "num")) None 0 2 None); arg_strn None None None 0 2 None].
Definition opt_run (l : list string) :=
  match ExTable.parse false ExTable.jo ExTable.jc ExTable.jp 30 (zlen l) 1 (ExTable.heap0 l) ExTable.s0 opt_table (ExTable.en 4) with
  | Ok (_, _, t, e) => Some (map (fun x => (kcount (e_body x), slots (e_body x))) t, end_count e) | _ => None end.
Lemma opt_reached : reached ExTable.strtod ExTable.rexmatch Long64 unix_seps true opt_table.
Proof. apply reached_new. repeat constructor; cbn; try discriminate; auto; try lia. Qed.
Example C16_case : opt_run ["p"; "-n"; "5"; "--num"; "7"] = Some ([(Some 2, [VInt 42; VInt 42]); (Some 2, [VText (lit "5"); VText (lit "7")])], 0) /\
  opt_run ["p"; "-n5"; "--num=7"] = Some ([(Some 2, [VInt 5; VInt 7]); (Some 0, [VText []; VText []])], 0) /\
  opt_run ["p"; "-n"; "--num=7"] = Some ([(Some 2, [VInt 42; VInt 7]); (Some 0, [VText []; VText []])], 0).
Proof. vm_compute. auto. Qed.
(** A table that was parsed with is reached, too. *)
Example reached_case : exists t, reached ExTable.strtod ExTable.rexmatch Long64 unix_seps true t /\ map (fun e => kcount (e_body e)) t = [Some 2; Some 2; Some 1; Some 2].
Proof.
  pose proof ex_zero as Z0. unfold ex_result in *.
  match type of Z0 with context [match ?r with _ => _ end] => destruct r as [[[[h s] t] e]| |] eqn:E; [|contradiction|contradiction] end.
  exists t. split; [|exact (proj2 Z0)].
  eapply (reached_parse _ _ _ _ _ false 4 ExTable.tab (map lit ex_line)); [exact ex_reached|exact ex_call|exact ex_safe|exact E].
Qed.
Example C48_case : exists e, @new Z e 3 (-1) /\ h_maxcount (e_hdr e) = 3 /\ slots (e_body e) = [VText []; VText []; VText []].
Proof. exists (arg_strn None None None 3 (-1) None). split; [constructor|]. split; reflexivity. Qed.

Example C48_case_described : @described Z (arg_date1 (ExTable.o "d") (ExTable.o "date") None None (ExTable.o "when")) true (ExTable.o "d") (ExTable.o "date") (ExTable.o "%x") (ExTable.o "when").
Proof. repeat split. Qed.

Print Assumptions C02_parse_is_safe.
Print Assumptions C02_parse_is_safe_no_arguments.
Print Assumptions C03_zero_means_constraints_met.
Print Assumptions C03_zero_means_constraints_met_no_arguments.
Print Assumptions C12_library_kinds_terminate.
Print Assumptions C50_values_in_order.
Print Assumptions C16_bare_occurrence.
Print Assumptions C16_long_without_value.
Print Assumptions C16_short_without_value.
Print Assumptions C16_defaults_kept.
Print Assumptions C48_constructors.
Print Assumptions C48_zero_or_one.
Print Assumptions C48_described.
Print Assumptions C48_default_date_format.
Print Assumptions C02_negative_maxcount_refuted.
Print Assumptions C16_flag_without_value_refuted.
