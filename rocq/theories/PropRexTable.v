(** C60: tables with regular expression entries, matched by the library's own matcher.

    The theorems about tables (C02, C12, C50, C59 and others) have the matcher as a parameter that must give an answer. Here it is
    [trex], the model of the library's matcher, and what is accepted is said in terms of the language of the pattern. *)
From Verif Require Import Base IntModel IntSpec IntProofs FileModel FileSpec DateModel DateSpec GetoptModel ParseModel ParseSpec GetoptProofs ParseIdeal ParseProofs ParseFacts ParseObserve ParseSafe ParseLemmas ArgModel KindsSpec KindsProofs PropKinds CommandSpec CommandProofs PropCommand.
From Verif Require RexModel RexSpec PropRex ExTable.
From Coq Require Import ZArith List Ascii String Bool Lia.
Import ListNotations.
Open Scope Z_scope.
Notation trex := RexModel.trex.
Notation accepts := RexSpec.accepts.
Notation all_alt := RexSpec.all_alt.
Notation ignore_case := PropRex.ignore_case.

(** The pattern is a way to write [r], it compiles (C26), and no element of it matches NUL. *)
Definition usable (pat : str) (r : RexSpec.alt) : Prop :=
  RexSpec.spells r pat /\ 2 * zlen pat <= INT_MAX /\ all_alt (PropRex.compilable pat) r /\ all_alt RexSpec.nul_free r.

Section Tables.
Context {D : Type}.
Context (strtod : str -> D * nat).
Context (sp : seps).
Hypothesis Hd : strtod_contract strtod.

(** A new table whose patterns are usable. *)
Definition new_table (ints : bool) (tab : list (entry (body D))) : Prop :=
  Forall (fun e => built e /\ (forall p, e_body e = KRex p -> exists r, usable (rex_pattern p) r) /\ (is_int (e_body e) = true -> ints = true)) tab.

(** Such tables are within reach of all the theorems about tables. *)
Theorem C60_new_tables_reached : forall lm ints tab, new_table ints tab -> reached strtod trex lm sp ints tab.
Proof.
  intros lm ints tab H. apply reached_new. eapply Forall_impl; [|exact H]. intros e (H1 & H2 & H3). split; auto. split; auto.
  destruct (e_body e) as [| | | | | |p|] eqn:Eb; cbn; auto. intros s _. destruct (H2 p eq_refl) as (r & S & L & C & N). eapply PropRex.C26_verdict; eauto. eapply RexComplete.all_alt_imp; [|exact N]. apply PropRex.free_on.
Qed.
(** In particular parsing does nothing undefined. *)
Theorem C60_parse_is_safe :
  forall lm ints posix cap tab rest jo jc jp fuel argv h s en a0,
  new_table ints tab -> call cap tab en h argv a0 rest fuel -> Forall (safe_value lm ints) rest ->
  match karg_parse strtod trex lm sp posix jo jc jp fuel (zlen (a0 :: rest)) argv h s tab en with
  | Ok (_, _, tab', _) => map e_hdr tab' = map e_hdr tab /\ Forall (fun e => bounded (e_hdr e) (e_body e)) tab'
  | UB _ => False
  | OutOfFuel => exists a, In a rest /\ dash_tailed a
  end.
Proof. intros. eapply C02_parse_is_safe; eauto. apply C60_new_tables_reached. eauto. Qed.

Notation lm := Long64.
Notation parse := (karg_parse strtod trex lm sp).
Notation reached := (reached strtod trex lm sp).
Notation safe_value := (safe_value lm).

(** An option that requires a value never occurs without. *)
Lemma cluster_none t cs ws os : cluster t cs ws os -> forall i, In (i, None) os -> exists h, nth_error t i = Some h /\ (long_takes h <> TReq \/ short_takes h <> TReq).
Proof.
  induction 1 as [|c cs ws i h os Hc Hf Ht Hcl IH|c i h Hc Hf Ht|c v i h Hc Hf Ht Hv|c v i h Hc Hf Ht|body ws o Hb Ho]; intros k Hk.
  - contradiction.
  - destruct Hk as [[= <-]|Hk]; auto. exists h. split; [exact (proj1 Hf)|]. right. congruence.
  - destruct Hk as [[= <-]|[]]. exists h. split; [exact (proj1 Hf)|]. right. congruence.
  - destruct Hk as [[=]|[]].
  - destruct Hk as [[=]|[]].
  - destruct Hk as [Hk|[]]. destruct Ho as [nm i h He Hs Ht|nm v i h He Hs Ht Hv|nm v i h He Hs Ht Hv]; try discriminate. injection Hk as <-.
    exists h. split; [|auto]. destruct Hs as [H1 _ _|n _ H1 _ _ _]; auto.
Qed.
Lemma spells_none t posix args os pos : spells t posix args os pos -> forall i, In (i, None) os -> exists h, nth_error t i = Some h /\ (long_takes h <> TReq \/ short_takes h <> TReq).
Proof.
  induction 1 as [| | |a rest os pos Hp Hw Hs IH|cs ws os rest os' pos H1 H2 Hc Hs IH]; intros i Hi; try contradiction; auto.
  apply in_app_iff in Hi as [Hi|Hi]; auto. eapply cluster_none; eauto.
Qed.


(** After a parse that returns 0 all values of an arg_rex entry that requires values are in the language of its pattern. *)
Theorem C60_values_in_language :
  forall ints posix cap tab rest jo jc jp fuel argv h s en a0 h' s' tab' en' i e p r,
  reached ints tab -> call cap tab en h argv a0 rest fuel -> Forall (safe_value ints) rest ->
  parse posix jo jc jp fuel (zlen (a0 :: rest)) argv h s tab en = Ok (h', s', tab', en') -> end_count en' = 0 ->
  nth_error tab i = Some e -> e_body e = KRex p -> h_hasvalue (e_hdr e) = true -> h_hasoptvalue (e_hdr e) = false ->
  RexSpec.spells r (rex_pattern p) -> 2 * zlen (rex_pattern p) <= INT_MAX -> all_alt (PropRex.faithful (rex_flags p)) r ->
  exists e' n, nth_error tab' i = Some e' /\ kcount (e_body e') = Some n /\ h_mincount (e_hdr e) <= n <= h_maxcount (e_hdr e) /\
  forall k, 0 <= k < n -> exists v, nth_error (slots (e_body e')) (Z.to_nat k) = Some (VText v) /\ accepts (ignore_case (rex_flags p)) v r.
Proof.
  intros ints posix cap tab rest jo jc jp fuel argv h s en a0 h' s' tab' en' i e p r Ht Hc Hv Hp Hz Hi He Hhv Hov Hr Hl Hf.
  destruct (proj1 (C59_accepted_iff strtod trex sp Hd ints posix cap tab rest jo jc jp fuel argv h s en a0 Ht Hc Hv)) as (os & pos & runs & Hs & Hsh); [eauto 8|].
  destruct (C59_accepted_values strtod trex sp Hd ints posix cap tab rest jo jc jp fuel argv h s en a0 os pos runs Ht Hc Hv Hs Hsh) as (h2 & s2 & t2 & en2 & E & _ & H).
  rewrite Hp in E. injection E as <- <- <- <-. destruct Hsh as (_ & Hlen & Hsh).
  destruct (nth_error runs i) as [run|] eqn:Er; [|apply nth_error_None in Er; assert (i < List.length tab)%nat by (apply nth_error_Some; congruence); lia].
  destruct (H i e run Hi Er) as (e' & Hi' & Hh & Hst). destruct Hst as [Hk [_ Hst]]; [rewrite He; discriminate|].
  destruct (Hsh i e run Hi Er) as (_ & Hsat & _). destruct Hsat as [Hm _]; [rewrite He; discriminate|].
  set (given := given_to i os ++ map Some run) in *.
  assert (Hnn : ~ In None given).
  { intros Hn. apply in_app_iff in Hn as [Hn|Hn].
    - unfold given_to in Hn. apply in_flat_map in Hn as ([j v] & Hin & Hn). cbn [fst snd] in Hn. destruct (Nat.eqb_spec j i) as [->|]; [|contradiction]. destruct Hn as [->|[]].
      destruct (spells_none _ _ _ _ _ Hs i Hin) as (hd & Hhd & Hno). rewrite nth_error_map, Hi in Hhd. injection Hhd as <-.
      unfold long_takes, short_takes in Hno. rewrite Hhv, Hov in Hno. destruct Hno as [Hno|Hno]; apply Hno; reflexivity.
    - apply in_map_iff in Hn as (x & [=] & _). }
  exists e', (zlen given). split; auto. split; auto. split; auto. intros k Hkr. specialize (Hst (Z.to_nat k)).
  destruct (nth_error given (Z.to_nat k)) as [[v|]|] eqn:Ek.
  - rewrite He in Hst. destruct Hst as (v0 & w & _ & Hw & Hden). cbn [denotes] in Hden. destruct Hden as [Hmt ->]. exists v. split; [exact Hw|].
    exact (PropRex.C24_sound _ _ _ _ Hr Hl Hf Hmt).
  - exfalso. apply Hnn. eapply nth_error_In; eauto.
  - exfalso. apply nth_error_None in Ek. unfold zlen in Hkr. lia.
Qed.

(** What an arg_rex entry accepts, for orderly patterns: what C59 says about such entries, in terms of the language. *)
Fixpoint overlay (given : list (option str)) (l : list (@value D)) : list (@value D) :=
  match given, l with
  | Some s :: given', _ :: l' => VText s :: overlay given' l'
  | None :: given', v :: l' => v :: overlay given' l'
  | _, _ => l
  end.
Lemma overlay_nth : forall given l k, (List.length given <= List.length l)%nat ->
  match nth_error given k with
  | Some (Some s) => (exists v0, nth_error l k = Some v0) /\ nth_error (overlay given l) k = Some (VText s)
  | _ => nth_error (overlay given l) k = nth_error l k
  end.
Proof.
  induction given as [|g given IH]; intros l k L; [destruct k; reflexivity|]. destruct l as [|v l]; [cbn in L; lia|]. cbn [List.length] in L.
  destruct k as [|k]; [destruct g; cbn; eauto|]. specialize (IH l k ltac:(lia)). destruct g; cbn [nth_error overlay]; exact IH.
Qed.
Lemma rex_slots ints tab i e p : reached ints tab -> nth_error tab i = Some e -> e_body e = KRex p -> zlen (slots (e_body e)) = h_maxcount (e_hdr e).
Proof.
  intros Ht Hi He. pose proof (reached_ready strtod trex lm sp Hd ints tab Ht) as Hr. rewrite Forall_forall in Hr.
  destruct (Hr e (nth_error_In _ _ Hi)) as (Hb & _). rewrite He in Hb |- *. cbn in *. unfold zlen in *. rewrite map_length. tauto.
Qed.
Theorem C60_acceptable_iff :
  forall ints tab i e p r given,
  reached ints tab -> nth_error tab i = Some e -> e_body e = KRex p -> usable (rex_pattern p) r -> all_alt (PropRex.faithful (rex_flags p)) r ->
  (forall s, In (Some s) given -> all_alt (RexSpec.roomy s) r /\ RexSpec.orderly (ignore_case (rex_flags p)) s r) -> zlen given <= h_maxcount (e_hdr e) ->
  (acceptable strtod trex lm sp e given <-> forall s, In (Some s) given -> accepts (ignore_case (rex_flags p)) s r).
Proof.
  intros ints tab i e p r given Ht Hi He (S & L & C & N) Hf Ho Hz. pose proof (rex_slots _ _ _ _ _ Ht Hi He) as Hsl. unfold acceptable. split.
  - intros (l & _ & Hst) s Hin. apply In_nth_error in Hin as (k & Hk). specialize (Hst k). rewrite Hk, He in Hst. destruct Hst as (v0 & v & _ & _ & Hm & _).
    exact (PropRex.C24_sound _ _ _ _ S L Hf Hm).
  - intros Ha. exists (overlay given (slots (e_body e))). split; [rewrite He; exact I|]. intros k.
    pose proof (overlay_nth given (slots (e_body e)) k ltac:(unfold zlen in *; lia)) as Hk. rewrite He in Hk |- *. cbn [slots_reset].
    destruct (nth_error given k) as [[s|]|] eqn:Eg; [|exact Hk|exact Hk]. destruct Hk as ((v0 & H0) & Hk). exists v0, (VText s). split; auto. split; auto. cbn [denotes]. split; auto.
    apply nth_error_In in Eg. destruct (Ho s Eg) as [R O1]. destruct (PropRex.C58_exact (rex_pattern p) r (rex_flags p) s S L C Hf N R O1) as (b & -> & Hb). f_equal. apply Hb; auto.
Qed.
Theorem C60_satisfied_iff :
  forall ints tab i e p r given,
  reached ints tab -> nth_error tab i = Some e -> e_body e = KRex p -> usable (rex_pattern p) r -> all_alt (PropRex.faithful (rex_flags p)) r ->
  (forall s, In (Some s) given -> all_alt (RexSpec.roomy s) r /\ RexSpec.orderly (ignore_case (rex_flags p)) s r) ->
  (satisfied strtod trex lm sp e given <->
   h_mincount (e_hdr e) <= zlen given <= h_maxcount (e_hdr e) /\ forall s, In (Some s) given -> accepts (ignore_case (rex_flags p)) s r).
Proof.
  intros ints tab i e p r given Ht Hi He Hu Hf Ho. unfold satisfied. split.
  - intros H. destruct H as [Hm Ha]; [rewrite He; discriminate|]. split; auto. eapply (C60_acceptable_iff ints tab i e p r given); eauto. lia.
  - intros (Hm & Ha) _. split; auto. eapply (C60_acceptable_iff ints tab i e p r given); eauto. lia.
Qed.
Theorem C60_could_take_iff :
  forall ints tab i e p r given a,
  reached ints tab -> nth_error tab i = Some e -> e_body e = KRex p -> usable (rex_pattern p) r -> all_alt (PropRex.faithful (rex_flags p)) r ->
  (forall s, In (Some s) (given ++ [Some a]) -> all_alt (RexSpec.roomy s) r /\ RexSpec.orderly (ignore_case (rex_flags p)) s r) ->
  (forall s, In (Some s) given -> accepts (ignore_case (rex_flags p)) s r) ->
  (could_take strtod trex lm sp e given a <-> zlen given < h_maxcount (e_hdr e) /\ accepts (ignore_case (rex_flags p)) a r).
Proof.
  intros ints tab i e p r given a Ht Hi He Hu Hf Ho Hg. unfold could_take.
  assert (Hz : zlen given < h_maxcount (e_hdr e) -> zlen (given ++ [Some a]) <= h_maxcount (e_hdr e)) by (intros; unfold zlen in *; rewrite app_length; cbn [List.length]; lia).
  split.
  - intros (_ & Hm & Ha). split; auto. eapply (C60_acceptable_iff ints tab i e p r (given ++ [Some a])); eauto. apply in_app_iff. right. left. reflexivity.
  - intros (Hm & Ha). split; [rewrite He; discriminate|]. split; auto. eapply (C60_acceptable_iff ints tab i e p r (given ++ [Some a])); eauto.
    intros s Hs. apply in_app_iff in Hs as [Hs|[[= <-]|[]]]; auto.
Qed.
End Tables.

(** ** Examples *)
Local Open Scope string_scope.
Local Open Scope list_scope.
Local Open Scope Z_scope.
(** -p/--phone takes telephone numbers, up to three, and one string may follow. *)
Definition pattern : str := lit "^[0-9]{2,3}(-[0-9]+)?".
Definition tab : list (entry (body Z)) := [arg_rexn (ExTable.o "p") (ExTable.o "phone") pattern None 1 3 0 None; arg_strn None None None 0 1 None].
Lemma pattern_usable : usable pattern PropRex.phone.
Proof.
  unfold usable. split; [exact PropRex.phone_text|]. split; [cbn; unfold INT_MAX; lia|]. unfold PropRex.phone, PropRex.tail_part, PropRex.digit.
  cbn [RexSpec.all_alt RexSpec.all_seq RexSpec.all_elem RexSpec.nul_free PropRex.compilable]. repeat split; try discriminate; try (cbn; lia); intros i [<-|[]]; left; cbn; lia.
Qed.
Lemma tab_new : new_table true tab.
Proof.
  repeat constructor; cbn; try discriminate; try (intros p [= <-]; exists PropRex.phone; exact pattern_usable); auto.
Qed.
Definition run (l : list string) := karg_parse ExTable.strtod trex Long64 unix_seps false ExTable.jo ExTable.jc ExTable.jp (S (total (map lit l))) (zlen l) 1 (ExTable.heap0 l) ExTable.s0 tab (ExTable.en 4).
Lemma tab_call l : ExTable.strs_cstr (map lit l) = true ->
  call 4 tab (ExTable.en 4) (ExTable.heap0 ("p" :: l)%string) 1 (lit "p") (map lit l) (S (total (map lit ("p" :: l)%string))).
Proof.
  intros H. destruct (ExTable.call_ok "p" l 4 0 ltac:(lia) H) as [K1 K2 K3 K4 K5]. constructor; auto. apply ExTable.good_hdrs_ok. reflexivity.
Qed.
Definition line : list string := ["-p123-4567"; "x"; "--phone"; "99"].
Example C60_case_accepted : match run ("p" :: line) with
  | Ok (_, _, tab', en') => end_count en' = 0 /\ map (fun e => (kcount (e_body e), slots (e_body e))) tab' =
      [(Some 2, [VText (lit "123-4567"); VText (lit "99"); VText []]); (Some 1, [VText (lit "x")])]
  | _ => False end.
Proof. vm_compute. split; reflexivity. Qed.
Example C60_case_rejected : match run ["p"; "-p123-"] with Ok (_, _, _, en') => end_count en' = 1 | _ => False end.
Proof. vm_compute. reflexivity. Qed.
Example C60_case_language : exists h' s' tab' en' e', run ("p" :: line) = Ok (h', s', tab', en') /\ nth_error tab' 0 = Some e' /\ kcount (e_body e') = Some 2 /\
  forall k, 0 <= k < 2 -> exists v, nth_error (slots (e_body e')) (Z.to_nat k) = Some (VText v) /\ accepts false v PropRex.phone.
Proof.
  pose proof C60_case_accepted as Z0. unfold run in *.
  match type of Z0 with context [match ?r with _ => _ end] => destruct r as [[[[h' s'] t'] e']| |] eqn:E; [|contradiction|contradiction] end.
  assert (Hv : Forall (safe_value Long64 true) (map lit line)) by (apply safe_values; vm_compute; reflexivity).
  destruct (C60_values_in_language ExTable.strtod unix_seps ex_contract true false 4 tab (map lit line) _ _ _ _ _ _ _ _ _ _ _ _ _ 0%nat _ _ PropRex.phone
    (C60_new_tables_reached _ _ _ _ _ tab_new) (tab_call line eq_refl) Hv E (proj1 Z0) eq_refl eq_refl eq_refl eq_refl PropRex.phone_text ltac:(cbn; unfold INT_MAX; lia) (PropRex.phone_faithful 0))
    as (x & n & H1 & H2 & _ & H3). destruct Z0 as [_ Z1]. exists h', s', t', e', x. split; auto. split; auto.
  assert (En : kcount (e_body x) = Some 2) by (destruct t' as [|y t']; [discriminate|]; cbn in H1; injection H1 as <-; cbn in Z1; congruence).
  split; auto. rewrite En in H2. injection H2 as <-. exact H3.
Qed.
Example C60_case_satisfied : forall given, (forall s, In (Some s) given -> zlen s <= 65535) ->
  (satisfied ExTable.strtod trex Long64 unix_seps (arg_rexn (ExTable.o "p") (ExTable.o "phone") pattern None 1 3 0 None) given <->
   1 <= zlen given <= 3 /\ forall s, In (Some s) given -> accepts false s PropRex.phone).
Proof.
  intros given Hs. refine (C60_satisfied_iff ExTable.strtod unix_seps ex_contract true tab 0 _ _ PropRex.phone given (C60_new_tables_reached _ _ _ _ _ tab_new) eq_refl eq_refl pattern_usable (PropRex.phone_faithful 0) _).
  intros s Hi. split; [|apply PropRex.phone_orderly]. apply Hs in Hi. unfold PropRex.phone, PropRex.tail_part, PropRex.digit. cbn [RexSpec.all_alt RexSpec.all_seq RexSpec.all_elem RexSpec.roomy]. repeat split; auto.
Qed.

Print Assumptions C60_new_tables_reached.
Print Assumptions C60_parse_is_safe.
Print Assumptions C60_values_in_language.
Print Assumptions C60_acceptable_iff.
Print Assumptions C60_satisfied_iff.
Print Assumptions C60_could_take_iff.
