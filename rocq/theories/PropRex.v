(** PropRex: regular expression arguments (C24, C25, C26, C58). [trex pattern flags text] is the matching done for one argument of
    an arg_rex entry. *)
From Coq Require Import ZArith String List Ascii Bool Lia.
From Verif Require Import Base RexModel RexSpec RexMatch RexTerm RexCompile RexForward RexComplete.
Import ListNotations.
Open Scope Z_scope.

(** Bit 0 of the flags is ARG_REX_ICASE. *)
Definition ignore_case (flags : Z) : bool := Z.testbit flags 0.
(** Patterns for which compilation does not fail: a range in a set only in patterns of at most 35 characters, lower repetition counts
    that fit *)
Definition compilable (pat : str) (e : elem) : Prop :=
  match e with Set_ _ l => (exists a b, In (IRange a b) l) -> zlen pat <= 35 | Repeat lo _ _ => lo mod 65536 < 32768 | _ => True end.
(** What the matcher gets right: counts that fit, no \b or \B, ranges that make sense without regard to case *)
Definition faithful (flags : Z) (e : elem) : Prop := small_counts e /\ no_boundary e /\ even_ranges (ignore_case flags) e.
(** The same with \b and \B, if the boundaries are taken to be where the program sees them *)
Definition nearly_faithful (flags : Z) (e : elem) : Prop := small_counts e /\ even_ranges (ignore_case flags) e.

(** An odd number of backslashes at the end *)
Definition lone_backslash (pat : str) : Prop := exists u n, pat = u ++ repeat bs (2 * n + 1) /\ ~ exists v, u = v ++ [bs].

Lemma lone_spec n : forall pat, (List.length pat <= n)%nat -> lone pat = true -> lone_backslash pat.
Proof.
  induction n as [|n IH]; intros pat L H; [destruct pat; [discriminate|cbn [List.length] in L; lia]|].
  destruct pat as [|c r]; [discriminate|]. cbn [lone] in H. cbn [List.length] in L. destruct (ceqb c bs) eqn:C.
  - apply ceqb_eq in C. subst c. destruct r as [|d r].
    + exists [], O. split; [reflexivity|]. intros (v & V). destruct v; discriminate.
    + cbn [List.length] in L. destruct (IH r ltac:(lia) H) as (u & m & -> & NU). destruct u as [|x u].
      * destruct (ceqb d bs) eqn:D.
        -- apply ceqb_eq in D. subst d. exists [], (S m). split; [|intros (v & V); destruct v; discriminate].
           replace (2 * S m + 1)%nat with (S (S (2 * m + 1))) by lia. reflexivity.
        -- apply ceqb_neq in D. exists [bs; d], m. split; [reflexivity|]. intros (v & V). destruct v as [|? [|? v]]; try discriminate.
           injection V as _ V. apply D. exact V. injection V as _ _ V. destruct v; discriminate.
      * exists (bs :: d :: x :: u), m. split; [reflexivity|]. intros (v & V). apply NU. destruct v as [|? [|? v]]; try discriminate. injection V as _ _ V. exists v. exact V.
  - destruct (IH r ltac:(lia) H) as (u & m & -> & NU). exists (c :: u), m. split; [reflexivity|]. intros (v & V).
    destruct v as [|? v]; [injection V as -> ->; rewrite (proj2 (ceqb_eq bs bs) eq_refl) in C; discriminate|]. injection V as _ V. apply NU. exists v. exact V.
Qed.
Lemma not_lone pat : ~ lone_backslash pat -> lone pat = false.
Proof. intro H. destruct (lone pat) eqn:E; [|reflexivity]. exfalso. apply H. apply (lone_spec (List.length pat)); auto. Qed.

(** ** Compiled patterns *)
Fixpoint any_elem (P : elem -> Prop) (H : forall e, P e) (e : elem) : all_elem P e
with any_seq (P : elem -> Prop) (H : forall e, P e) (s : seq) : all_seq P s
with any_alt (P : elem -> Prop) (H : forall e, P e) (a : alt) : all_alt P a.
Proof.
  - destruct e; split; try apply H; try exact I; [apply (any_elem P H)|apply (any_alt P H)].
  - destruct s; cbn [all_seq]; [apply (any_elem P H)|split; [apply (any_elem P H)|apply (any_seq P H)]].
  - destruct a; cbn [all_alt]; [apply (any_seq P H)|split; [apply (any_seq P H)|apply (any_alt P H)]].
Qed.
Lemma compiled_any r pat : spells r pat -> 2 * zlen pat <= INT_MAX -> ends True (fun _ st => compiled r st) (trex_compile pat).
Proof.
  intros S L. apply compile_fwd; auto. apply any_alt. intros []; cbn [tame]; auto.
Qed.
Lemma compiled_sure r pat : spells r pat -> 2 * zlen pat <= INT_MAX -> all_alt (compilable pat) r -> exists st, trex_compile pat = CDone tt st /\ compiled r st.
Proof.
  intros S L C. assert (H := compile_fwd False r pat S L). destruct (trex_compile pat) as [[] st| | |]; cbn [ends] in H.
  - exists st. split; [auto|]. apply H. eapply all_alt_imp; [|exact C]. intros []; cbn [compilable tame]; auto.
  - exfalso. apply H. eapply all_alt_imp; [|exact C]. intros []; cbn [compilable tame]; auto.
  - exfalso. apply H. eapply all_alt_imp; [|exact C]. intros []; cbn [compilable tame]; auto.
  - exfalso. apply H. eapply all_alt_imp; [|exact C]. intros []; cbn [compilable tame]; auto.
Qed.
(** How matching with a compiled pattern ends *)
Lemma match_ends nf r st flags text : compiled r st -> (nf = true -> all_alt (nul_free_on text) r) ->
  match trex_match (r_nodes st) (r_nsub st) flags text with Ok _ => True | UB u => nf = false /\ u = OutsideText | OutOfFuel => False end.
Proof.
  intros (R & RL & LE) NF. unfold trex_match. destruct (matchnode_runs (r_nodes st) (r_nsub st) flags text nf _ (le_n _)) as [H _].
  specialize (H 0 (NE (Group true r)) [] O O None RL).
  assert (F : fine text nf (trex_matchnode (r_nodes st) (r_nsub st) flags text (S (List.length (r_nodes st))) 0 0 None)).
  { apply H.
    - intro N. constructor; [|constructor]. cbn [all_nk all_elem]. split; [exact I|auto].
    - exact I.
    - intros _. lia.
    - cbn [sz_list fold_right sz_nk sz_elem]. lia. }
  destruct (trex_matchnode _ _ _ _ _ _ _ _) as [[j|]|u|]; cbn [bind fine] in *; auto.
Qed.

(** ** C24: what is accepted is in the language of the pattern *)
Lemma sound_with edge pat r flags text : spells r pat -> 2 * zlen pat <= INT_MAX -> all_alt (good flags text edge) r ->
  trex pat flags text = Ok true -> accepts_with (ignore_case flags) text edge r.
Proof.
  intros S L G H. unfold trex in H. assert (C := compiled_any r pat S L).
  destruct (trex_compile pat) as [[] st| | |]; try discriminate. cbn [ends] in C. destruct C as (R & _ & _).
  unfold trex_match in H. destruct (trex_matchnode _ _ _ _ _ _ _ _) as [[j|]|u|] eqn:M; cbn [bind] in H; try discriminate.
  injection H as E. apply Nat.eqb_eq in E. subst j.
  assert (G' : all_nk (good flags text edge) (NE (Group true r))) by (cbn [all_nk all_elem]; split; [repeat split; left; exact I|exact G]).
  destruct (matchnode_sound (r_nodes st) (r_nsub st) flags text edge _ 0 (NE (Group true r)) O None _ R G' M) as [_ X].
  specialize (X (le_n _)). cbn [nk_in] in X. inversion X; subst. assumption.
Qed.
Lemma faithful_good flags text e : faithful flags e -> good flags text (word_boundary text) e.
Proof. intros (A & B & C). split; [exact A|split; [left; exact B|exact C]]. Qed.
Lemma nearly_good flags text e : nearly_faithful flags e -> good flags text (seen_boundary text) e.
Proof. intros (A & C). split; [exact A|split; [right; intros s L; reflexivity|exact C]]. Qed.
Theorem C24_sound pat r flags text : spells r pat -> 2 * zlen pat <= INT_MAX -> all_alt (faithful flags) r ->
  trex pat flags text = Ok true -> accepts (ignore_case flags) text r.
Proof. intros S L G. apply sound_with; auto. eapply all_alt_imp; [|exact G]. apply faithful_good. Qed.
(** With \b and \B: the same, for the boundaries that the program sees *)
Theorem C24_sound_boundaries pat r flags text : spells r pat -> 2 * zlen pat <= INT_MAX -> all_alt (nearly_faithful flags) r ->
  trex pat flags text = Ok true -> accepts_with (ignore_case flags) text (seen_boundary text) r.
Proof. intros S L G. apply sound_with; auto. eapply all_alt_imp; [|exact G]. apply nearly_good. Qed.
(** Only patterns of the syntax give a verdict. *)
Theorem C24_syntax pat flags text b : cstr pat -> pat <> [] -> ~ lone_backslash pat -> 2 * zlen pat <= INT_MAX ->
  trex pat flags text = Ok b -> exists r, spells r pat.
Proof.
  intros C N NL L H. unfold trex in H. assert (K := compile_out pat C N (not_lone _ NL) L).
  destruct (trex_compile pat) as [[] st| | |]; try discriminate. cbn [ends] in K. destruct K as (r & S & _). exists r. exact S.
Qed.

(** ** Spelling *)
Ltac neg_in := let H := fresh in cbn [lit list_ascii_of_string In]; intro H; repeat destruct H as [H|H]; try discriminate H; contradiction.
Ltac plain := split; [reflexivity|split; [neg_in|cbn beta iota; try exact I; try neg_in; try discriminate]].
Lemma digits_text : set_text true [IRange "0" "9"] (lit "0-9").
Proof.
  change (lit "0-9") with (lit "0" ++ "-"%char :: lit "9" ++ []). apply st_range.
  - apply sc_plain; [reflexivity|neg_in|discriminate].
  - apply re_plain; [reflexivity|discriminate].
  - constructor.
Qed.
Lemma digits_atom p : atom_text p (Set_ false [IRange "0" "9"]) (lit "[0-9]").
Proof. change (lit "[0-9]") with ("["%char :: lit "0-9" ++ lit "]"). apply at_set; [discriminate|discriminate|exact digits_text]. Qed.

(** ^[0-9]{2,3}(-[0-9]+)? *)
Definition digit : elem := Set_ false [IRange "0" "9"].
Definition tail_part : elem := Group true (Just false (More (Char "-") (One (Repeat 1 None digit)))).
Definition phone : alt := Just true (More (Repeat 2 (Some 3) digit) (One (Repeat 0 (Some 1) tail_part))).
Lemma phone_text : spells phone (lit "^[0-9]{2,3}(-[0-9]+)?").
Proof.
  unfold spells, phone. change (lit "^[0-9]{2,3}(-[0-9]+)?") with ("^"%char :: (lit "[0-9]{2,3}" ++ lit "(-[0-9]+)?")). apply al_anchor.
  eapply sq_more with (q := AfterRepeat).
  - change (lit "[0-9]{2,3}") with (lit "[0-9]" ++ lit "{" ++ lit "2" ++ lit "," ++ lit "3" ++ lit "}"). apply el_repeat; [apply digits_atom|].
    apply sx_between; apply nb; try reflexivity; try discriminate; cbn; lia.
  - eapply sq_one with (q := AfterRepeat). change (lit "(-[0-9]+)?") with (("("%char :: lit "-[0-9]+" ++ lit ")") ++ lit "?"). apply el_repeat; [|apply sx_opt].
    apply at_group; [discriminate|]. apply al_just. change (lit "-[0-9]+") with (lit "-" ++ lit "[0-9]+"). eapply sq_more with (q := AfterAtom).
    + apply el_atom. apply at_char. plain.
    + eapply sq_one. change (lit "[0-9]+") with (lit "[0-9]" ++ lit "+"). apply el_repeat; [apply digits_atom|apply sx_plus].
Qed.
Lemma no_letters : even_range (IRange "0" "9").
Proof. right. right. unfold within. cbn. repeat split; try reflexivity; lia. Qed.
Ltac walk := repeat match goal with
  | |- _ /\ _ => split
  | |- True => exact I
  | |- forall h, _ = Some h -> _ => let E := fresh in intros ? E; try discriminate E; injection E as <-; lia
  | |- _ = true -> _ => intros _ i [<-|[]]; exact no_letters
  | |- _ => lia
  end.
Lemma phone_faithful flags : all_alt (faithful flags) phone.
Proof. unfold phone, tail_part, digit, faithful. cbn [all_alt all_seq all_elem small_counts no_boundary even_ranges]. walk. Qed.
Example C24_sound_ex : trex (lit "^[0-9]{2,3}(-[0-9]+)?") 0 (lit "123-4567") = Ok true /\ trex (lit "^[0-9]{2,3}(-[0-9]+)?") 0 (lit "1-4567") = Ok false /\
  accepts false (lit "123-4567") phone.
Proof.
  split; [reflexivity|split; [reflexivity|]]. apply (C24_sound (lit "^[0-9]{2,3}(-[0-9]+)?") phone 0).
  - exact phone_text.
  - cbn. unfold INT_MAX. lia.
  - apply phone_faithful.
  - reflexivity.
Qed.

(** Inside the text the boundaries that the program sees are one place too early; at the two ends they are right, but for an empty text and
    a text that ends in white space. *)
Theorem C24_boundaries_early text i : (0 < i)%nat -> (S i < List.length text)%nat -> (seen_boundary text i <-> word_boundary text (S i)).
Proof.
  intros I0 L. assert (N : forall k, (k < List.length text)%nat -> word_at text k = negb (space_at text k)).
  { intros k K. unfold word_at, space_at. destruct (nth_error text k) eqn:E; [reflexivity|]. apply nth_error_None in E. lia. }
  unfold seen_boundary, word_boundary. rewrite !N by lia. split.
  - intros [[H _]|[(j & _ & H & _)|[_ H]]]; [lia|lia|]. intro X. apply H. destruct (space_at text i), (space_at text (S i)); cbn in *; congruence.
  - intro H. right. right. split; [lia|]. congruence.
Qed.
Theorem C24_boundaries_at_ends text : text <> [] -> (forall c u, text = c :: u -> isspaceb c = false) -> (forall u c, text = u ++ [c] -> isspaceb c = false) ->
  seen_boundary text 0 /\ word_boundary text 0 /\ seen_boundary text (List.length text) /\ word_boundary text (List.length text).
Proof.
  intros N H1 H2. unfold seen_boundary, word_boundary, space_at, word_at. destruct text as [|c u]; [contradiction|]. cbn [nth_error]. rewrite (H1 c u eq_refl).
  split; [auto|]. split; [reflexivity|]. cbn [List.length].
  assert (X : nth_error (c :: u) (List.length u) = Some (last (c :: u) c) /\ isspaceb (last (c :: u) c) = false).
  { destruct (exists_last N) as (v & d & E). assert (F := H2 v d E). rewrite E, last_last. split; [|exact F].
    replace (List.length u) with (List.length v); [rewrite nth_error_app2, Nat.sub_diag by lia; reflexivity|].
    apply (f_equal (@List.length ascii)) in E. rewrite app_length in E. cbn in E. lia. }
  destruct X as [X F]. split.
  - right. left. exists (List.length u). split; [reflexivity|]. split; [reflexivity|]. rewrite X. exact F.
  - rewrite X, F, (proj2 (nth_error_None (c :: u) (S (List.length u)))) by (cbn; lia). discriminate.
Qed.
Example C24_boundaries_ex : seen_boundary (lit "to be") 1 /\ ~ seen_boundary (lit "to be") 3 /\ word_boundary (lit "to be") 2 /\ word_boundary (lit "to be") 3 /\
  ~ word_boundary (lit "to be") 1.
Proof.
  unfold seen_boundary, word_boundary. cbn. repeat split; try discriminate; auto.
  - right. right. split; [lia|discriminate].
  - intros [[H _]|[(j & H & H' & _)|[_ H]]]; [discriminate|lia|]. apply H. reflexivity.
Qed.

(** \b takes a place for a boundary because the letter behind it starts one. *)
Definition boundary_word : alt := Just false (More (Char "f") (More (Char "o") (More (Boundary true) (More (Char "o") (One (Char " ")))))).
Theorem C24_boundary_refuted : spells boundary_word (lit "fo\bo ") /\ trex (lit "fo\bo ") 0 (lit "foo ") = Ok true /\ ~ accepts false (lit "foo ") boundary_word.
Proof.
  split; [|split; [reflexivity|]].
  - apply al_just. change (lit "fo\bo ") with (lit "f" ++ lit "o" ++ lit "\b" ++ lit "o" ++ lit " ").
    eapply sq_more; [apply el_atom, at_char; plain|]. eapply sq_more; [apply el_atom, at_char; plain|]. eapply sq_more; [apply el_atom, at_b|].
    eapply sq_more; [apply el_atom, at_char; plain|]. eapply sq_one. apply el_atom, at_char; plain.
  - unfold accepts, accepts_with, boundary_word. intro H. inversion H as [? ? ? ? _ S1| |]; subst. inversion S1 as [|? ? ? k1 ? E1 S2]; subst.
    inversion E1; subst. inversion S2 as [|? ? ? k2 ? E2 S3]; subst. inversion E2; subst. inversion S3 as [|? ? ? k3 ? E3 S4]; subst.
    inversion E3 as [| |i WB| | | | | | |]; subst. cbv in WB. congruence.
Qed.
(** With ICASE the range [a-~] is read as A-~ or a-~ and has the brackets. *)
Definition tilde : alt := Just false (One (Set_ false [IRange "a" "~"])).
Theorem C24_icase_range_refuted : spells tilde (lit "[a-~]") /\ trex (lit "[a-~]") 1 (lit "[") = Ok true /\ ~ accepts true (lit "[") tilde.
Proof.
  split; [|split; [reflexivity|]].
  - apply al_just. eapply sq_one. apply el_atom. change (lit "[a-~]") with ("["%char :: lit "a-~" ++ lit "]"). apply at_set; [discriminate|discriminate|].
    change (lit "a-~") with (lit "a" ++ "-"%char :: lit "~" ++ []). apply st_range.
    + apply sc_plain; [reflexivity|neg_in|discriminate].
    + apply re_plain; [reflexivity|discriminate].
    + constructor.
  - unfold accepts, accepts_with, tilde. intro H. inversion H as [? ? ? ? _ S1| |]; subst. inversion S1 as [? ? ? E1|]; subst.
    inversion E1 as [| | | | | |? x ? NX IS| | |]; subst. cbn [lit list_ascii_of_string nth_error] in NX. injection NX as <-.
    destruct IS as (it & [<-|[]] & [W|(_ & [W|W])]); unfold within in W; cbn in W; lia.
Qed.
(** Repetition counts are taken modulo 2^16. *)
Definition many : alt := Just false (One (Repeat 65537 (Some 65537) (Char "a"))).
Theorem C24_count_refuted : spells many (lit "a{65537}") /\ trex (lit "a{65537}") 0 (lit "a") = Ok true /\ ~ accepts false (lit "a") many.
Proof.
  split; [|split; [vm_compute; reflexivity|]].
  - apply al_just. eapply sq_one with (q := AfterRepeat). change (lit "a{65537}") with (lit "a" ++ lit "{" ++ lit "65537" ++ lit "}"). apply el_repeat.
    + apply at_char. plain.
    + apply sx_exact. apply nb; try reflexivity; try discriminate. cbn. lia.
  - unfold accepts, accepts_with, many. intro H. inversion H as [? ? ? ? _ S1| |]; subst. inversion S1 as [? ? ? E1|]; subst.
    inversion E1 as [| | | | | | | |? ? ? n ? ? TM LO _|]; subst.
    assert (X : forall n i j, times false (lit "a") (word_boundary (lit "a")) (Char "a") n i j -> (i + n = j)%nat).
    { clear. induction n as [|n IH]; intros i j T; inversion T as [|? ? ? k ? T' E]; subst; [lia|]. apply IH in T'. inversion E; subst. lia. }
    apply X in TM. cbn [lit list_ascii_of_string List.length] in TM. lia.
Qed.

(** ** C58: orderly patterns accept exactly their language *)
Lemma exact_with edge pat r flags text : spells r pat -> 2 * zlen pat <= INT_MAX -> all_alt (compilable pat) r -> all_alt (good flags text edge) r ->
  all_alt (nul_free_on text) r -> all_alt (roomy text) r -> orderly_with (ignore_case flags) text edge r ->
  exists b, trex pat flags text = Ok b /\ (b = true <-> accepts_with (ignore_case flags) text edge r).
Proof.
  intros S L C G N M OR. destruct (compiled_sure r pat S L C) as (st & E & CC). assert (CE := match_ends true r st flags text CC (fun _ => N)).
  assert (SND := sound_with edge pat r flags text S L G). unfold trex in *. rewrite E in *.
  destruct (trex_match _ _ _ _) as [b|u|] eqn:TM; [|destruct CE; discriminate|contradiction]. exists b. split; [reflexivity|].
  split; [intros ->; auto|]. intro A. destruct CC as (R & RL & LE). unfold trex_match in TM.
  destruct (trex_matchnode _ _ _ _ _ _ _ _) as [o|u|] eqn:MN; cbn [bind] in TM; try discriminate.
  assert (AB : all_nk (able flags text edge) (NE (Group true r))).
  { cbn [all_nk all_elem]. split; [repeat split; left; exact I|]. assert (X := all_alt_and _ _ _ G (all_alt_and _ _ _ N M)).
    eapply all_alt_imp; [|exact X]. intros e (A1 & A2 & A3). exact (conj A1 (conj A2 A3)). }
  destruct (matchnode_finds (r_nodes st) (r_nsub st) flags text edge _ 0 (NE (Group true r)) [] None 0%nat None (List.length text) o RL
    ltac:(discriminate) AB OR I ltac:(lia) ltac:(constructor; exact A) MN) as (j & -> & LJ).
  assert (JL := matchnode_stays (r_nodes st) (r_nsub st) flags text _ 0 (NE (Group true r)) 0%nat None j R (able_free _ _ _ _ AB) ltac:(lia) MN).
  injection TM as <-. apply Nat.eqb_eq. lia.
Qed.
Lemma free_on text e : nul_free e -> nul_free_on text e.
Proof. destruct e; cbn [nul_free nul_free_on]; tauto. Qed.
Theorem C58_exact pat r flags text : spells r pat -> 2 * zlen pat <= INT_MAX -> all_alt (compilable pat) r -> all_alt (faithful flags) r ->
  all_alt nul_free r -> all_alt (roomy text) r -> orderly (ignore_case flags) text r ->
  exists b, trex pat flags text = Ok b /\ (b = true <-> accepts (ignore_case flags) text r).
Proof.
  intros S L C G N M OR. apply exact_with; auto; [eapply all_alt_imp; [|exact G]; apply faithful_good|eapply all_alt_imp; [|exact N]; apply free_on].
Qed.
(** With \b and \B: texts that do not end in white space, and the boundaries that the program sees *)
Theorem C58_exact_boundaries pat r flags text : spells r pat -> 2 * zlen pat <= INT_MAX -> all_alt (compilable pat) r -> all_alt (nearly_faithful flags) r ->
  all_alt (nul_free_on text) r -> all_alt (roomy text) r -> orderly_with (ignore_case flags) text (seen_boundary text) r ->
  exists b, trex pat flags text = Ok b /\ (b = true <-> accepts_with (ignore_case flags) text (seen_boundary text) r).
Proof.
  intros S L C G N M OR. apply exact_with; auto. eapply all_alt_imp; [|exact G]. apply nearly_good.
Qed.

Lemma digit_in text edge i j : elem_in false text edge digit i j -> j = S i /\ exists x, nth_error text i = Some x /\ 48 <= sc x <= 57.
Proof.
  intro H. inversion H as [| | | | | |? x ? NX IS| | |]; subst. split; auto. exists x. split; auto.
  destruct IS as (it & [<-|[]] & [W|[W _]]); [exact W|discriminate].
Qed.
Lemma digits_in text edge n i k : times false text edge digit n i k -> forall p, (i <= p < k)%nat -> exists x, nth_error text p = Some x /\ 48 <= sc x <= 57.
Proof.
  revert k. induction n as [|n IH]; intros k H p P; inversion H as [|? ? ? m ? T E]; subst; [lia|].
  apply digit_in in E. destruct E as [-> X]. destruct (Nat.eq_dec p m) as [->|D]; [exact X|]. apply (IH m T). lia.
Qed.
Lemma dash_in text edge i j : elem_in false text edge (Char "-") i j -> j = S i /\ nth_error text i = Some "-"%char.
Proof. intro H. inversion H as [? x ? NX [->|[W _]]| | | | | | | | |]; subst; [auto|discriminate]. Qed.
Lemma tail_in text edge i k : elem_in false text edge tail_part i k -> nth_error text i = Some "-"%char /\ (S i < k)%nat /\
  forall p, (S i <= p < k)%nat -> exists x, nth_error text p = Some x /\ 48 <= sc x <= 57.
Proof.
  intro H. inversion H as [| | | | | | | | |? ? ? ? A]; subst. inversion A as [? ? ? ? _ S1| |]; subst. inversion S1 as [|? ? ? m ? E1 S2]; subst.
  apply dash_in in E1. destruct E1 as [-> N]. inversion S2 as [? ? ? E2|]; subst. inversion E2 as [| | | | | | | |? ? ? n ? ? TM LO _|]; subst.
  split; [exact N|]. split; [|exact (digits_in _ _ _ _ _ TM)].
  destruct n as [|n]; [lia|]. inversion TM as [|? ? ? q ? T E]; subst. apply digit_in in E. destruct (proj1 (proj2 (in_inside _ _ _)) _ _ _ _ T) as [L _].
  destruct E as [-> _]. lia.
Qed.
Lemma phone_orderly text : orderly false text phone.
Proof.
  assert (TD : takes false text (word_boundary text) digit) by (intros i j H; apply digit_in in H; lia).
  assert (SD : settled false text (word_boundary text) digit) by (intros i j k m H1 H2 L _; apply digit_in in H1; apply digit_in in H2; lia).
  assert (CL : forall p x, nth_error text p = Some "-"%char -> nth_error text p = Some x -> 48 <= sc x <= 57 -> False).
  { intros p x H1 H2 H3. rewrite H1 in H2. injection H2 as <-. cbn in H3. lia. }
  unfold orderly, orderly_with, phone. cbn [orderly_alt orderly_seq orderly_elem head]. split; [|split].
  - repeat split; auto. left. reflexivity.
  - intros i j k m H1 H2 L R. inversion H2 as [| | | | | | | |? ? ? n ? ? TM _ _|]; subst. inversion R as [? ? ? E|]; subst.
    inversion E as [| | | | | | | |? ? ? n' ? ? TM' _ HI|]; subst. destruct n' as [|n'].
    + inversion TM'; subst. exists k. split; [lia|]. constructor. apply in_repeat with (n := O); [constructor|lia|intros h X; injection X as <-; lia].
    + exfalso. apply times_head in TM'. destruct TM' as (q & Q & _). apply tail_in in Q. destruct Q as (Q & _).
      destruct (digits_in _ _ _ _ _ TM j) as (x & X1 & X2); [|exact (CL _ _ Q X1 X2)]. split; [|lia]. apply (elem_inside _ _ _ _ _ _ H1).
  - split; [|split; [|split; [exact I|]]].
    + intros i j H. apply tail_in in H. lia.
    + intros i j k m H1 H2 L H3. apply tail_in in H1. apply tail_in in H2. apply tail_in in H3. destruct H2 as (_ & _ & D). destruct H3 as (Q & _).
      destruct (D j) as (x & X1 & X2); [lia|]. exact (CL _ _ Q X1 X2).
    + unfold tail_part. cbn [orderly_elem orderly_alt orderly_seq head]. split; [exact I|]. split; [|repeat split; auto].
      intros i j k m H1 H2 L. apply dash_in in H1. apply dash_in in H2. lia.
Qed.
(** Every text, however long up to 65535 characters, is accepted exactly if it has the form of the pattern. *)
Example C58_ex text : zlen text <= 65535 -> exists b, trex (lit "^[0-9]{2,3}(-[0-9]+)?") 0 text = Ok b /\ (b = true <-> accepts false text phone).
Proof.
  intro L. apply (C58_exact _ phone 0).
  - exact phone_text.
  - cbn. unfold INT_MAX. lia.
  - unfold phone, tail_part, digit. cbn [all_alt all_seq all_elem compilable]. repeat split; cbn; lia.
  - apply phone_faithful.
  - unfold phone, tail_part, digit. cbn [all_alt all_seq all_elem nul_free]. repeat split; try discriminate; intros i [<-|[]]; left; cbn; lia.
  - unfold phone, tail_part, digit. cbn [all_alt all_seq all_elem roomy]. repeat split; auto.
  - apply phone_orderly.
Qed.
(** \bhi\b accepts exactly the text hi, among those that do not end in white space. *)
Definition whole_word : alt := Just false (More (Boundary true) (More (Char "h") (More (Char "i") (One (Boundary true))))).
Lemma whole_word_text : spells whole_word (lit "\bhi\b").
Proof.
  apply al_just. change (lit "\bhi\b") with (lit "\b" ++ lit "h" ++ lit "i" ++ lit "\b"). repeat (eapply sq_more; [apply el_atom; constructor; try plain|]).
  eapply sq_one. apply el_atom. constructor.
Qed.
Example C58_boundaries_ex text : (forall u c, text = u ++ [c] -> isspaceb c = false) ->
  exists b, trex (lit "\bhi\b") 0 text = Ok b /\ (b = true <-> accepts_with false text (seen_boundary text) whole_word).
Proof.
  intro NS. apply (C58_exact_boundaries _ whole_word 0).
  - exact whole_word_text.
  - cbn. unfold INT_MAX. lia.
  - unfold whole_word. cbn [all_alt all_seq all_elem compilable]. repeat split.
  - unfold whole_word, nearly_faithful. cbn [all_alt all_seq all_elem small_counts even_ranges]. repeat split.
  - unfold whole_word. cbn [all_alt all_seq all_elem nul_free_on nul_free]. repeat split; auto; discriminate.
  - unfold whole_word. cbn [all_alt all_seq all_elem roomy]. repeat split.
  - unfold whole_word, orderly_with. cbn [orderly_alt orderly_seq orderly_elem]. repeat split; auto; intros i j k m H1 H2 L; exfalso;
      inversion H1; inversion H2; subst; lia.
Qed.
Example C24_boundaries_accepts_ex : trex (lit "\bhi\b") 0 (lit "hi") = Ok true /\ accepts_with false (lit "hi") (seen_boundary (lit "hi")) whole_word.
Proof.
  split; [reflexivity|]. apply (C24_sound_boundaries (lit "\bhi\b") whole_word 0); [exact whole_word_text|cbn; unfold INT_MAX; lia| |reflexivity].
  unfold whole_word, nearly_faithful. cbn [all_alt all_seq all_elem small_counts even_ranges]. repeat split.
Qed.
(** Without order, texts of the language are rejected: the repetition takes all. *)
Definition greedy_rex : alt := Just false (More (Repeat 0 None (Char "a")) (One (Char "a"))).
Theorem C58_greedy_refuted : spells greedy_rex (lit "a*a") /\ accepts false (lit "aaa") greedy_rex /\ trex (lit "a*a") 0 (lit "aaa") = Ok false.
Proof.
  split; [|split; [|vm_compute; reflexivity]].
  - apply al_just. change (lit "a*a") with (lit "a*" ++ lit "a"). eapply sq_more with (q := AfterRepeat).
    + change (lit "a*") with (lit "a" ++ lit "*"). apply el_repeat; [apply at_char; plain|apply sx_star].
    + eapply sq_one. apply el_atom, at_char. plain.
  - unfold accepts, accepts_with, greedy_rex. apply in_just; [discriminate|]. apply in_more with (j := 2%nat).
    + apply in_repeat with (n := 2%nat); [|lia|discriminate].
      apply more_times with (j := 1%nat); [apply more_times with (j := 0%nat); [constructor|]|]; econstructor; try reflexivity; left; reflexivity.
    + constructor. econstructor; [reflexivity|left; reflexivity].
Qed.
(** The group behind the repetition matches nothing at all, and so ends it at once. *)
Definition optional_group : alt := Just false (More (Repeat 0 None (Char "b")) (One (Group true (Just false (One (Repeat 0 (Some 1) (Char "a"))))))).
Theorem C58_empty_group_refuted : spells optional_group (lit "b*(a?)") /\ accepts false (lit "bbb") optional_group /\ trex (lit "b*(a?)") 0 (lit "bbb") = Ok false.
Proof.
  split; [|split; [|vm_compute; reflexivity]].
  - apply al_just. change (lit "b*(a?)") with (lit "b*" ++ lit "(a?)"). eapply sq_more with (q := AfterRepeat).
    + change (lit "b*") with (lit "b" ++ lit "*"). apply el_repeat; [apply at_char; plain|apply sx_star].
    + eapply sq_one. apply el_atom. change (lit "(a?)") with ("("%char :: lit "a?" ++ lit ")"). apply at_group; [discriminate|]. apply al_just.
      eapply sq_one with (q := AfterRepeat). change (lit "a?") with (lit "a" ++ lit "?"). apply el_repeat; [apply at_char; plain|apply sx_opt].
  - unfold accepts, accepts_with, optional_group. apply in_just; [discriminate|]. apply in_more with (j := 3%nat).
    + apply in_repeat with (n := 3%nat); [|lia|discriminate].
      repeat (eapply more_times; [|econstructor; [reflexivity|left; reflexivity]]). constructor.
    + constructor. constructor. apply in_just; [discriminate|]. constructor. apply in_repeat with (n := O); [constructor|lia|intros h X; injection X as <-; lia].
Qed.

(** ** C25: literal patterns *)

(** Characters that stand for themselves everywhere in a pattern *)
Definition ordinary (c : ascii) : Prop := isprintb c = true /\ ~ In c (lit "([$.\^|)*+?{").
(** Words with bars between them *)
Fixpoint bars (w : str) (ws : list str) : str := match ws with [] => w | v :: ws => w ++ "|"%char :: bars v ws end.
(** A word equals the text, up to case if the flag is given. *)
Definition reads (icase : bool) (w text : str) : Prop := Forall2 (same icase) w text.

Inductive literal : str -> seq -> Prop :=
| lit_one c : literal [c] (One (Char c))
| lit_more c w s : literal w s -> literal (c :: w) (More (Char c) s).
Inductive choice : str -> list str -> alt -> Prop :=
| ch_one w s : literal w s -> choice w [] (Just false s)
| ch_more w s v ws a : literal w s -> choice v ws a -> choice w (v :: ws) (Or false s a).

Lemma literal_text w : w <> [] -> Forall ordinary w -> exists s, literal w s /\ seq_text First s w.
Proof.
  intros N F. assert (X : forall w p, (p = First \/ p = AfterAtom) -> w <> [] -> Forall ordinary w -> exists s, literal w s /\ seq_text p s w).
  2:{ apply X; auto. }
  clear. induction w as [|c w IH]; intros p P N F; [congruence|]. inversion F as [|? ? [P1 P2] F']; subst.
  assert (LA : literal_at p c).
  { split; [exact P1|]. split; [intro H; apply P2; cbn [lit list_ascii_of_string In] in *; tauto|].
    destruct P as [->| ->]; [intros ->; apply P2; cbn; tauto|]. intro H; apply P2; cbn [lit list_ascii_of_string In] in *; tauto. }
  destruct w as [|d w].
  - exists (One (Char c)). split; [constructor|]. eapply sq_one. apply el_atom, at_char. exact LA.
  - destruct (IH AfterAtom) as (s & L & S); auto; [discriminate|]. exists (More (Char c) s). split; [constructor; exact L|].
    change (c :: d :: w) with ([c] ++ d :: w). eapply sq_more; [apply el_atom, at_char; exact LA|exact S].
Qed.
Lemma choice_text ws : forall w, Forall (fun w => w <> [] /\ Forall ordinary w) (w :: ws) -> exists a, choice w ws a /\ spells a (bars w ws).
Proof.
  induction ws as [|v ws IH]; intros w F; inversion F as [|? ? [N O] F']; subst; destruct (literal_text w N O) as (s & L & S).
  - exists (Just false s). split; [constructor; exact L|]. apply al_just. exact S.
  - destruct (IH v F') as (a & C & SA). exists (Or false s a). split; [constructor; auto|]. cbn [bars]. apply al_or; auto.
Qed.

Lemma literal_in ic text edge w s : literal w s -> forall i j, seq_in ic text edge s i j <->
  j = (i + List.length w)%nat /\ forall n c, nth_error w n = Some c -> exists x, nth_error text (i + n) = Some x /\ same ic c x.
Proof.
  induction 1 as [c|c w s L IH]; intros i j; split.
  - intro H. inversion H as [? ? ? E|]; subst. inversion E as [? x ? NX SM| | | | | | | | |]; subst. split; [cbn [List.length]; lia|].
    intros [|n] d N; cbn [nth_error] in N; [|destruct n; discriminate]. injection N as <-. exists x. rewrite Nat.add_0_r. auto.
  - intros [-> H]. destruct (H O c eq_refl) as (x & NX & SM). rewrite Nat.add_0_r in NX. cbn [List.length]. rewrite Nat.add_1_r. constructor. econstructor; eauto.
  - intro H. inversion H as [|? ? ? k ? E S]; subst. inversion E as [? x ? NX SM| | | | | | | | |]; subst. apply IH in S. destruct S as [-> S].
    split; [cbn [List.length]; lia|]. intros [|n] d N; cbn [nth_error] in N.
    + injection N as <-. exists x. rewrite Nat.add_0_r. auto.
    + destruct (S n d N) as (y & NY & SY). exists y. replace (i + Datatypes.S n)%nat with (Datatypes.S i + n)%nat by lia. auto.
  - intros [-> H]. destruct (H O c eq_refl) as (x & NX & SM). rewrite Nat.add_0_r in NX. apply in_more with (j := S i); [econstructor; eauto|].
    apply IH. split; [cbn [List.length]; lia|]. intros n d N. destruct (H (S n) d N) as (y & NY & SY). exists y. replace (S i + n)%nat with (i + S n)%nat by lia. auto.
Qed.
Lemma choice_in ic text edge w ws a : choice w ws a -> forall i j, alt_in ic text edge a i j <->
  exists v, In v (w :: ws) /\ j = (i + List.length v)%nat /\ forall n c, nth_error v n = Some c -> exists x, nth_error text (i + n) = Some x /\ same ic c x.
Proof.
  induction 1 as [w s L|w s v ws a L C IH]; intros i j; split.
  - intro H. inversion H; subst. exists w. split; [left; auto|]. apply (literal_in _ _ edge _ _ L). assumption.
  - intros (v & [<-|[]] & H). apply in_just; [discriminate|]. apply (literal_in _ _ edge _ _ L). exact H.
  - intro H. inversion H as [|? ? ? ? ? _ S|? ? ? ? ? S]; subst.
    + exists w. split; [left; auto|]. apply (literal_in _ _ edge _ _ L). exact S.
    + apply IH in S. destruct S as (u & I & S). exists u. split; [right; exact I|exact S].
  - intros (u & [<-|I] & H).
    + apply in_left; [discriminate|]. apply (literal_in _ _ edge _ _ L). exact H.
    + apply in_right. apply IH. exists u. auto.
Qed.
Lemma reads_nth ic w text : reads ic w text <-> List.length text = List.length w /\ forall n c, nth_error w n = Some c -> exists x, nth_error text n = Some x /\ same ic c x.
Proof.
  unfold reads. revert text. induction w as [|c w IH]; intros [|x text]; split; intro H.
  - split; [reflexivity|]. intros [|n] d N; discriminate.
  - constructor.
  - inversion H.
  - destruct H as [H _]. discriminate.
  - inversion H.
  - destruct H as [H _]. discriminate.
  - inversion H as [|? ? ? ? S F]; subst. apply IH in F. destruct F as [F1 F2]. split; [cbn [List.length]; congruence|]. intros [|n] d N; cbn [nth_error] in *.
    + injection N as <-. eauto.
    + apply F2. exact N.
  - destruct H as [H1 H2]. constructor.
    + destruct (H2 O c eq_refl) as (y & NY & SY). cbn [nth_error] in NY. injection NY as <-. exact SY.
    + apply IH. split; [cbn [List.length] in H1; congruence|]. intros n d N. exact (H2 (S n) d N).
Qed.

(** No word is, up to case, a proper beginning of a later one. *)
Fixpoint no_early (ic : bool) (w : str) (ws : list str) : Prop :=
  match ws with
  | [] => True
  | v :: ws' => (forall u a b, In u ws -> u = a ++ b -> reads ic w a -> b = []) /\ no_early ic v ws'
  end.
Lemma same_both ic c d x : same ic c x -> same ic d x -> same ic c d.
Proof. unfold same. intros [->|[E A]] [B|[E' B]]; subst; auto; right; split; auto; congruence. Qed.
Lemma choice_all (P : elem -> Prop) w ws a : choice w ws a -> (forall c, In c (concat (w :: ws)) -> P (Char c)) -> all_alt P a.
Proof.
  assert (X : forall w s, literal w s -> (forall c, In c w -> P (Char c)) -> all_seq P s).
  { induction 1 as [c|c w' s L IH]; intros H; cbn [all_seq all_elem].
    - split; [apply H; left; auto|exact I].
    - split; [split; [apply H; left; auto|exact I]|]. apply IH. intros d D. apply H. right. exact D. }
  induction 1 as [w s L|w s v ws a L C IH]; intros H; cbn [all_alt].
  - apply (X w s L). intros c I. apply H. cbn [concat]. apply in_or_app. auto.
  - split; [|apply IH; intros c I; apply H; cbn [concat] in *; apply in_or_app; auto].
    apply (X w s L). intros c I. apply H. cbn [concat]. apply in_or_app. auto.
Qed.
Lemma literal_orderly ic text edge w s next : literal w s -> orderly_seq ic text edge next s.
Proof.
  induction 1 as [c|c w s L IH]; cbn [orderly_seq orderly_elem]; auto. split; [exact I|]. split; [|exact IH].
  intros i j k m H1 H2. inversion H1; subst. inversion H2; subst. lia.
Qed.
Lemma choice_orderly ic text edge w ws a next : choice w ws a -> no_early ic w ws -> orderly_alt ic text edge next a.
Proof.
  intro C. revert next. induction C as [w s L|w s v ws a L C IH]; intros next N; cbn [orderly_alt no_early] in *.
  - apply (literal_orderly _ _ _ w). exact L.
  - destruct N as [N1 N2]. split; [apply (literal_orderly _ _ _ w); exact L|]. split; [apply IH; exact N2|].
    intros i j k _ H1 H2. apply (literal_in _ _ edge _ _ L) in H1. apply (choice_in _ _ _ _ _ _ C) in H2. destruct H1 as [-> H1]. destruct H2 as (u & IU & -> & H2).
    destruct (Nat.le_gt_cases (List.length u) (List.length w)) as [LE|GT]; [lia|]. exfalso.
    assert (B : skipn (List.length w) u = []).
    { apply (N1 u (firstn (List.length w) u)); auto; [symmetry; apply firstn_skipn|]. apply reads_nth. split; [rewrite firstn_length; lia|].
      intros n c NC. assert (n < List.length w)%nat by (apply nth_error_Some; congruence).
      destruct (nth_error u n) as [d|] eqn:ND; [|apply nth_error_None in ND; lia]. exists d. split.
      - rewrite <- ND. rewrite <- (firstn_skipn (List.length w) u) at 2. rewrite nth_error_app1; [reflexivity|]. rewrite firstn_length. lia.
      - destruct (H1 n c NC) as (x & X1 & X2). destruct (H2 n d ND) as (y & Y1 & Y2). rewrite X1 in Y1. injection Y1 as <-. exact (same_both _ _ _ _ X2 Y2). }
    apply (f_equal (@List.length ascii)) in B. rewrite skipn_length in B. cbn [List.length] in B. lia.
Qed.

Theorem C25_words w ws flags text : Forall (fun w => w <> [] /\ Forall ordinary w) (w :: ws) -> 2 * zlen (bars w ws) <= INT_MAX ->
  no_early (ignore_case flags) w ws ->
  exists b, trex (bars w ws) flags text = Ok b /\ (b = true <-> exists v, In v (w :: ws) /\ reads (ignore_case flags) v text).
Proof.
  intros F L N. destruct (choice_text ws w F) as (a & C & S).
  assert (NZ : forall c, In c (concat (w :: ws)) -> c <> NUL).
  { intros c I ->. apply in_concat in I. destruct I as (v & IV & IC). rewrite Forall_forall in F. destruct (F v IV) as [_ O]. rewrite Forall_forall in O.
    destruct (O NUL IC) as [P _]. discriminate. }
  destruct (C58_exact (bars w ws) a flags text S L) as (b & E & B).
  - apply (choice_all _ _ _ _ C). intros; exact I.
  - apply (choice_all _ _ _ _ C). intros; repeat split.
  - apply (choice_all _ _ _ _ C). exact NZ.
  - apply (choice_all _ _ _ _ C). intros; exact I.
  - exact (choice_orderly _ _ _ _ _ _ None C N).
  - exists b. split; [exact E|]. rewrite B. unfold accepts, accepts_with. rewrite (choice_in _ _ _ _ _ _ C). cbn [Nat.add].
    split; intros (v & IV & H); exists v; split; auto; apply reads_nth in H || apply reads_nth; exact H.
Qed.
(** One word: exactly its own text. *)
Theorem C25_literal w flags text : w <> [] -> Forall ordinary w -> 2 * zlen w <= INT_MAX ->
  exists b, trex w flags text = Ok b /\ (b = true <-> reads (ignore_case flags) w text).
Proof.
  intros N O L. destruct (C25_words w [] flags text) as (b & E & B); [constructor; [auto|constructor]|exact L|exact I|].
  exists b. split; [exact E|]. rewrite B. split; [intros (v & [<-|[]] & H); exact H|intro H; exists w; split; [left; reflexivity|exact H]].
Qed.
(** Without the flag this is equality. *)
Lemma reads_exact w text : reads false w text <-> text = w.
Proof.
  unfold reads. split; [|intros ->; induction w; constructor; auto; left; reflexivity].
  induction 1 as [|c x w text [->|[X _]] H IH]; [reflexivity|congruence|discriminate].
Qed.
Example C25_literal_ex : trex (lit "hello, world") 0 (lit "hello, world") = Ok true /\ trex (lit "hello, world") 1 (lit "Hello, WORLD") = Ok true /\
  trex (lit "hello, world") 0 (lit "Hello, WORLD") = Ok false /\ Forall ordinary (lit "hello, world").
Proof. repeat split; try reflexivity. repeat constructor; try neg_in. Qed.
Example C25_words_ex : trex (lit "get|go|set") 1 (lit "Go") = Ok true /\ trex (lit "get|go|set") 0 (lit "ge") = Ok false /\
  bars (lit "get") [lit "go"; lit "set"] = lit "get|go|set" /\ no_early true (lit "get") [lit "go"; lit "set"].
Proof.
  split; [reflexivity|]. split; [reflexivity|]. split; [reflexivity|].
  assert (X : forall ic c w d u a b, same ic c d -> (forall a' b', u = a' ++ b' -> reads ic w a' -> b' = []) -> d :: u = a ++ b -> reads ic (c :: w) a -> b = []).
  { intros ic c w d u a b _ H E R. inversion R; subst. injection E as -> E. apply (H _ _ E). assumption. }
  assert (Y : forall c w d u a b, tolower d <> tolower c -> d :: u = a ++ b -> reads true (c :: w) a -> b = []).
  { intros c w d u a b NS E R. inversion R as [|? y ? a' S F]; subst. injection E as -> _. exfalso. destruct S as [->|[_ S]]; congruence. }
  cbn [no_early]. repeat split; intros u a b IN E R; cbn [In] in IN.
  - destruct IN as [<-|[<-|[]]].
    + eapply X; [left; reflexivity| |exact E|exact R]. intros a' b' E' R'. eapply Y; [|exact E'|exact R']. discriminate.
    + eapply Y; [|exact E|exact R]. discriminate.
  - destruct IN as [<-|[]]. eapply Y; [|exact E|exact R]. discriminate.
Qed.
(** An earlier word that begins a later one hides it. *)
Theorem C25_prefix_refuted : In (lit "ab") [lit "a"; lit "ab"] /\ bars (lit "a") [lit "ab"] = lit "a|ab" /\ trex (lit "a|ab") 0 (lit "ab") = Ok false /\ trex (lit "ab|a") 0 (lit "ab") = Ok true.
Proof. cbn [In]. repeat split; auto. Qed.

(** ** C26: where compiling and matching read and write *)

(** Compiling ends, and touches only the pattern up to its terminator and allocated nodes. *)
Theorem C26_compile pat : cstr pat -> pat <> [] -> ~ lone_backslash pat -> 2 * zlen pat <= INT_MAX ->
  match trex_compile pat with CDone _ _ | CFail _ => True | CUB u => u = SignedOverflow | CFuel => False end.
Proof.
  intros C N NL L. assert (H := compile_out pat C N (not_lone _ NL) L). destruct (trex_compile pat); cbn [ends] in H; auto. apply H.
Qed.
(** The patterns that compile *)
Theorem C26_compiles r pat : spells r pat -> 2 * zlen pat <= INT_MAX -> all_alt (compilable pat) r -> exists st, trex_compile pat = CDone tt st.
Proof. intros S L C. destruct (compiled_sure r pat S L C) as (st & E & _). eauto. Qed.
(** Matching ends, and touches only the nodes, the text, and characters behind (or before) it. *)
Theorem C26_ends pat flags text : cstr pat -> pat <> [] -> ~ lone_backslash pat -> 2 * zlen pat <= INT_MAX ->
  match trex pat flags text with Ok _ => True | UB u => In u [NullDeref; SignedOverflow; OutsideText] | OutOfFuel => False end.
Proof.
  intros C N NL L. assert (H := compile_out pat C N (not_lone _ NL) L). unfold trex. destruct (trex_compile pat) as [[] st| |u|]; cbn [ends] in H; auto.
  - destruct H as (r & S & CC). assert (X := match_ends false r st flags text CC ltac:(discriminate)). destruct (trex_match _ _ _ _); auto. destruct X as [_ ->]. cbn. auto.
  - cbn. auto.
  - destruct H as [-> _]. cbn. auto.
Qed.
(** It stays inside the text if no element of the pattern matches a NUL character. *)
Theorem C26_inside r pat flags text : spells r pat -> 2 * zlen pat <= INT_MAX -> all_alt (nul_free_on text) r -> trex pat flags text <> UB OutsideText.
Proof.
  intros S L N. assert (H := compiled_any r pat S L). unfold trex. destruct (trex_compile pat) as [[] st| |u|]; cbn [ends] in H; try discriminate.
  - assert (X := match_ends true r st flags text H (fun _ => N)). intro E. rewrite E in X. destruct X. discriminate.
  - destruct H as [-> _]. discriminate.
Qed.
(** Then, if it also compiles, there is a verdict. *)
Theorem C26_verdict r pat flags text : spells r pat -> 2 * zlen pat <= INT_MAX -> all_alt (compilable pat) r -> all_alt (nul_free_on text) r ->
  exists b, trex pat flags text = Ok b.
Proof.
  intros S L C N. destruct (compiled_sure r pat S L C) as (st & E & CC). unfold trex. rewrite E.
  assert (X := match_ends true r st flags text CC (fun _ => N)). destruct (trex_match _ _ _ _); [eauto|destruct X; discriminate|contradiction].
Qed.
Example C26_ex text flags : exists b, trex (lit "^[0-9]{2,3}(-[0-9]+)?") flags text = Ok b.
Proof.
  apply (C26_verdict phone).
  - exact phone_text.
  - cbn. unfold INT_MAX. lia.
  - unfold phone, tail_part, digit. cbn [all_alt all_seq all_elem compilable]. repeat split; cbn; lia.
  - unfold phone, tail_part, digit. cbn [all_alt all_seq all_elem nul_free nul_free_on]. repeat split; try discriminate; intros i [<-|[]]; left; cbn; lia.
Qed.
(** The empty pattern: the node table has length 0 (line 908). *)
Theorem C26_empty_refuted : exists pat, cstr pat /\ trex_compile pat = CUB OOBWrite.
Proof. exists []. split; [intros []|reflexivity]. Qed.
Theorem C26_backslash_refuted : lone_backslash (lit "ab\") /\ trex_compile (lit "ab\") = CUB OOBRead.
Proof.
  split; [|reflexivity]. exists (lit "ab"), O. split; [reflexivity|]. intros (v & V). destruct v as [|? [|? [|? v]]]; discriminate.
Qed.
(** Any syntax error: the pattern is compiled to NULL and NULL is used. *)
Theorem C26_syntax_refuted : trex (lit "(a") 0 (lit "a") = UB NullDeref.
Proof. reflexivity. Qed.
(** A range in a long pattern is taken for an invalid one: the test of line 511 compares a node number with a character. *)
Theorem C26_range_refuted : exists pat r, spells r pat /\ zlen pat = 36 /\ all_alt (faithful 0) r /\ forall text, trex pat 0 text = UB NullDeref.
Proof.
  pose (s := fix s n := match n with O => One (Set_ false [IRange " " " "]) | S n => More (Char "a") (s n) end).
  exists (repeat "a"%char 31 ++ lit "[ - ]"), (Just false (s 31%nat)). split; [|split; [reflexivity|split]].
  - apply al_just. assert (X : forall n p, (p = First \/ p = AfterAtom) -> seq_text p (s n) (repeat "a"%char n ++ lit "[ - ]")).
    { induction n as [|n IH]; intros p P.
      - eapply sq_one. apply el_atom. change (repeat "a"%char 0 ++ lit "[ - ]") with ("["%char :: lit " - " ++ lit "]"). apply at_set; [discriminate|discriminate|].
        change (lit " - ") with (lit " " ++ "-"%char :: lit " " ++ []). apply st_range.
        + apply sc_plain; [reflexivity|neg_in|discriminate].
        + apply re_plain; [reflexivity|discriminate].
        + constructor.
      - change (repeat "a"%char (S n) ++ lit "[ - ]") with (lit "a" ++ (repeat "a"%char n ++ lit "[ - ]")).
        eapply sq_more; [|apply IH; right; reflexivity]. apply el_atom, at_char. destruct P as [->| ->]; plain. }
    apply X. auto.
  - cbn [all_alt]. assert (X : forall n, all_seq (faithful 0) (s n)).
    { induction n as [|n IH]; [|split; [repeat split; discriminate|exact IH]]. split; [|exact I]. repeat split. discriminate. }
    apply X.
  - intro text. unfold trex. assert (E : match trex_compile (repeat "a"%char 31 ++ lit "[ - ]") with CFail _ => true | _ => false end = true) by (vm_compute; reflexivity).
    destruct (trex_compile _); try discriminate. reflexivity.
Qed.
(** Numbers of ten digits, and lower counts from 32768 on, overflow int. *)
Theorem C26_count_refuted : trex_compile (lit "a{40000}") = CUB SignedOverflow /\ trex_compile (lit "a{9999999999}") = CUB SignedOverflow.
Proof. split; vm_compute; reflexivity. Qed.
(** A dot, or a negated set, matches the terminator, and the next element reads behind it; \b at the end looks behind it. *)
Theorem C26_dot_refuted : trex (lit "a.b") 0 (lit "a") = UB OutsideText /\ trex (lit "[^x]y") 0 (lit "") = UB OutsideText /\ trex (lit " \b") 0 (lit " ") = UB OutsideText.
Proof. split; [|split]; vm_compute; reflexivity. Qed.

Print Assumptions C24_sound.
Print Assumptions C24_syntax.
Print Assumptions C24_boundary_refuted.
Print Assumptions C24_sound_boundaries.
Print Assumptions C24_boundaries_early.
Print Assumptions C24_boundaries_at_ends.
Print Assumptions C58_exact_boundaries.
Print Assumptions C24_icase_range_refuted.
Print Assumptions C24_count_refuted.
Print Assumptions C58_exact.
Print Assumptions C58_greedy_refuted.
Print Assumptions C58_empty_group_refuted.
Print Assumptions C25_words.
Print Assumptions C25_literal.
Print Assumptions C25_prefix_refuted.
Print Assumptions C26_compile.
Print Assumptions C26_compiles.
Print Assumptions C26_ends.
Print Assumptions C26_inside.
Print Assumptions C26_verdict.
Print Assumptions C26_empty_refuted.
Print Assumptions C26_backslash_refuted.
Print Assumptions C26_syntax_refuted.
Print Assumptions C26_range_refuted.
Print Assumptions C26_count_refuted.
Print Assumptions C26_dot_refuted.
