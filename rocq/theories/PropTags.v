(** C67: the alternatives shown for an option are the ones that work. *)
From Verif Require Import Base IntModel FileModel GetoptModel ParseModel ParseSpec ParseIdeal ParseFacts ParseObserve ParseLemmas ArgModel CommandSpec CommandProofs PrintModel PrintSpec PrintProofs PropPrint.
From Coq Require Import ZArith List Ascii String Bool Lia.
Import ListNotations.
Open Scope Z_scope.

(** The alternatives in the text that arg_print_syntaxv and the glossaries show of an entry (C39: the text is that of
    [PrintSpec.verbose], made of these). *)
Definition alternatives (h : hdr) : list str := shorts (h_shortopts h) ++ longs (h_longopts h).

(** The two readings of a list of names differ in a final empty name only. *)
Fixpoint ends_with_comma (s : str) : bool := match s with [] => false | [c] => ceqb c "," | _ :: s => ends_with_comma s end.
Lemma names_agree : forall s cur, (cur ++ hd [] (PrintSpec.names s)) :: tl (PrintSpec.names s) = names_aux s cur ++ (if ends_with_comma s then [[]] else []).
Proof.
  assert (Hn : forall s, PrintSpec.names s <> []).
  { intros [|c s]; cbn; [discriminate|]. destruct (ceqb c ","); [discriminate|]. destruct (PrintSpec.names s); discriminate. }
  induction s as [|c s IH]; intros cur.
  - cbn. rewrite app_nil_r. reflexivity.
  - cbn [PrintSpec.names names_aux]. destruct (ceqb c ",") eqn:Ec.
    + cbn [hd tl]. rewrite app_nil_r. destruct s as [|d s].
      * cbn [ends_with_comma]. rewrite Ec. reflexivity.
      * change (ends_with_comma (c :: d :: s)) with (ends_with_comma (d :: s)). cbn [app]. f_equal. rewrite <- IH. cbn [app].
        pose proof (Hn (d :: s)). destruct (PrintSpec.names (d :: s)); [congruence|reflexivity].
    + specialize (IH (cur ++ [c])). pose proof (Hn s). destruct (PrintSpec.names s) as [|n l] eqn:E; [congruence|]. cbn [hd tl] in *. rewrite <- app_assoc in IH. cbn [app] in IH.
      rewrite IH. f_equal. destruct s as [|d s]; [cbn; rewrite Ec; reflexivity|reflexivity].
Qed.
Lemma in_names lo nm : lo <> [] -> nm <> [] -> (In nm (ParseSpec.names lo) <-> In nm (PrintSpec.names lo)).
Proof.
  intros Hl Hn. assert (E : PrintSpec.names lo = ParseSpec.names lo ++ (if ends_with_comma lo then [[]] else [])).
  { destruct lo as [|c lo]; [congruence|]. unfold ParseSpec.names. rewrite <- names_agree. cbn [app]. destruct (PrintSpec.names (c :: lo)) eqn:E; [|reflexivity].
    exfalso. cbn in E. destruct (ceqb c ","); [discriminate|]. destruct (PrintSpec.names lo); discriminate. }
  rewrite E, in_app_iff. split; auto. intros [H|H]; auto. destruct (ends_with_comma lo); [|destruct H]. destruct H as [H|[]]. congruence.
Qed.
Lemma in_longs lo nm : nm <> [] -> (In (long_tag nm) (long_tags lo) <-> In nm (PrintSpec.names lo)).
Proof.
  intros Hn. assert (Hne : PrintSpec.names lo <> []).
  { destruct lo as [|c s]; cbn; [discriminate|]. destruct (ceqb c ","); [discriminate|]. destruct (PrintSpec.names s); discriminate. }
  unfold long_tags. rewrite in_app_iff. transitivity (In nm (removelast (PrintSpec.names lo)) \/ In nm [last (PrintSpec.names lo) []]); [|rewrite <- in_app_iff, <- app_removelast_last by exact Hne; reflexivity].
  assert (Hinj : forall a b, long_tag a = long_tag b -> a = b) by (unfold long_tag; cbn; intros a b [=]; auto).
  split; (intros [H|H]; [left|right]).
  - apply in_map_iff in H as (x & E & H). apply Hinj in E. subst x. exact H.
  - destruct H as [H|[]]. left. unfold last_tag in H. destruct (last (PrintSpec.names lo) []) as [|c l]; [discriminate|]. apply Hinj in H. exact H.
  - apply in_map. exact H.
  - destruct H as [H|[]]. left. unfold last_tag. rewrite H. destruct nm; [congruence|reflexivity].
Qed.
Lemma shown_long h nm : good_hdr h -> nm <> [] -> (In nm (hdr_names h) <-> In (long_tag nm) (alternatives h)).
Proof.
  intros [_ Hg] Hn. unfold hdr_names, alternatives. rewrite in_app_iff. unfold good_longopts in Hg.
  assert (Hs : ~ In (long_tag nm) (shorts (h_shortopts h)) \/ exists c, long_tag nm = short_tag c).
  { destruct (h_shortopts h) as [so|]; [|left; intros []]. destruct nm as [|c nm]; [congruence|]. left. cbn. intros H. apply in_map_iff in H as (x & E & _). discriminate. }
  destruct Hs as [Hs|(c & E)]; [|destruct nm; [congruence|discriminate]].
  destruct (h_longopts h) as [lo|].
  - destruct Hg as (_ & Hl & _). rewrite (in_names lo nm Hl Hn), <- (in_longs lo nm Hn). cbn [longs]. intuition.
  - cbn. intuition.
Qed.
Lemma shown_short h c : declares c h = true <-> In (short_tag c) (alternatives h) /\ (c = "-"%char -> declares c h = true).
Proof.
  unfold alternatives. rewrite in_app_iff. unfold declares. split.
  - intros H. split; [|auto]. left. destruct (h_shortopts h) as [so|]; [|discriminate]. cbn. unfold mem in H. apply existsb_exists in H as (x & Hx & E). apply ceqb_eq in E. subst x.
    apply in_map. exact Hx.
  - intros [[H|H] Hd].
    + destruct (h_shortopts h) as [so|]; [|destruct H]. cbn in H. apply in_map_iff in H as (x & E & Hx). injection E as <-. apply existsb_exists. exists x. split; auto. apply ceqb_eq. reflexivity.
    + destruct (h_longopts h) as [lo|]; [|destruct H]. cbn in H. unfold long_tags in H. apply in_app_iff in H as [H|H].
      * apply in_map_iff in H as (x & E & _). unfold long_tag in E. cbn in E. injection E as <- E. apply Hd. reflexivity.
      * destruct H as [H|[]]. unfold last_tag in H. destruct (last (PrintSpec.names lo) []) as [|d l]; [discriminate|]. unfold long_tag in H. cbn in H. injection H as <- _. apply Hd. reflexivity.
Qed.

(** [usable t i h tag]: [tag] is shown of entry [i] and of no earlier entry; it is not a bare [--], and no name with an equals sign. *)
Record usable (t : list hdr) (i : nat) (h : hdr) (tag : str) : Prop := {
  u_entry : nth_error t i = Some h;
  u_shown : In tag (alternatives h);
  u_first : forall j h', (j < i)%nat -> nth_error t j = Some h' -> ~ In tag (alternatives h');
  u_text : tag <> [] /\ tag <> lit "--" /\ ~ In "="%char (skipn 2 tag) }.
(** A tag with its value, if the entry takes one. *)
Inductive tag_args (h : hdr) (tag : str) : option str -> list str -> Prop :=
| ta_switch : h_hasvalue h = false -> tag_args h tag None [tag]
| ta_value v : h_hasvalue h = true -> v <> [] -> tag_args h tag (Some v) [tag; v].

Lemma usable_cases t i h tag : Forall good_hdr t -> usable t i h tag ->
  (exists c, tag = short_tag c /\ c <> "-"%char /\ first_declaring t c i h) \/
  (exists nm, tag = long_tag nm /\ nm <> [] /\ ~ In "="%char nm /\ selects t nm i h).
Proof.
  intros Ht [Hi Hin Hsh (Hne & Hdd & Heq)]. rewrite Forall_forall in Ht. pose proof (Ht h (nth_error_In _ _ Hi)) as Hg.
  unfold alternatives in Hin. apply in_app_iff in Hin as [Hin|Hin]; [left|right].
  - destruct (h_shortopts h) as [so|] eqn:Es; [|destruct Hin]. cbn in Hin. apply in_map_iff in Hin as (c & <- & Hc).
    exists c. split; auto. split; [intros ->; apply Hdd; reflexivity|].
    split; [exact Hi|]. split; [unfold declares; rewrite Es; apply existsb_exists; exists c; split; [auto|apply ceqb_eq; reflexivity]|].
    intros j h' Hj Hj'. destruct (declares c h') eqn:Ed; auto. apply shown_short in Ed as [Ed _]. destruct (Hsh j h' Hj Hj' Ed).
  - destruct (h_longopts h) as [lo|] eqn:El; [|destruct Hin]. cbn in Hin.
    assert (Hnm : exists nm, tag = long_tag nm /\ nm <> []).
    { unfold long_tags in Hin. apply in_app_iff in Hin as [Hin|[Hin|[]]].
      - apply in_map_iff in Hin as (nm & <- & _). exists nm. split; auto. intros ->. apply Hdd. reflexivity.
      - unfold last_tag in Hin. destruct (last (PrintSpec.names lo) []) as [|c l] eqn:E; [congruence|]. exists (c :: l). split; auto. discriminate. }
    destruct Hnm as (nm & -> & Hnn). change (skipn 2 (long_tag nm)) with nm in Heq. exists nm. repeat split; auto.
    apply sel_exact; auto.
    + apply (shown_long h nm Hg Hnn). unfold alternatives. rewrite El. apply in_app_iff. right. exact Hin.
    + intros j h' Hj Hj' Hc. apply (Hsh j h' Hj Hj'). apply (shown_long h' nm); auto. apply Ht. eapply nth_error_In; eauto.
Qed.
Lemma usable_item t i h tag v g : Forall good_hdr t -> usable t i h tag -> h_hasoptvalue h = false -> tag_args h tag v g -> option_item t g [EvScan i v].
Proof.
  intros Ht Hu Hov Hg. destruct (usable_cases _ _ _ _ Ht Hu) as [(c & -> & Hc & Hf)|(nm & -> & Hn & He & Hs)].
  - destruct Hg as [Hv|v Hv Hne].
    + apply short_find_iff in Hf. apply item_alone.
      * unfold short_tag, is_positional. reflexivity.
      * intros [= ->]. auto.
      * intros next. cbn [tl short_tag read_cluster]. destruct (ceqb_spec c "-"); [contradiction|]. rewrite Hf. unfold short_takes. rewrite Hv, Hov. reflexivity.
    + apply (cluster_value t [] c i h v (Forall_nil _) Hc Hf); auto. unfold short_takes. rewrite Hv, Hov. reflexivity.
  - pose proof (long_item t nm i h Hn He Hs) as L. unfold long_takes in L. rewrite Hov in L. destruct Hg as [Hv|v Hv Hne]; rewrite Hv in L; [exact L|]. apply L. exact Hne.
Qed.

(** What is shown of an entry are its alternatives. (arg_print_syntaxv separates them by a bar and the glossaries by a comma and a
    blank; the value that follows is the concern of C39, C40 and C53.) *)
Theorem C67_alternatives_shown :
  forall h sep, good_hdr h -> cstr sep -> exists buf out,
  arg_cat_optionv syntax0 199 (h_shortopts h) (h_longopts h) None false sep = Ok buf /\ text_of buf = Ok out /\
  (h_shortopts h <> Some [] -> shows (join sep (alternatives h)) out).
Proof.
  intros h sep [Hs Hl] Hsep.
  assert (H1 : ocstr (h_shortopts h)). { unfold ocstr, good_shortopts in *. destruct (h_shortopts h) as [so|]; [|exact I]. intros Hi. apply Hs in Hi. unfold plain_short in Hi. intuition. }
  assert (H2 : ocstr (h_longopts h)). { unfold ocstr, good_longopts in *. destruct (h_longopts h) as [lo|]; [|exact I]. apply Hl. }
  destruct (C39_verbose (h_shortopts h) (h_longopts h) None false sep H1 H2 I Hsep) as (buf & out & E1 & E2 & E3). exists buf, out. split; [exact E1|]. split; [exact E2|].
  intros Hne. replace (join sep (alternatives h)) with (verbose (h_shortopts h) (h_longopts h) None false sep); [exact E3|].
  assert (J : forall a b, a <> [] -> b <> [] -> join sep (a ++ b) = join sep a ++ sep ++ join sep b).
  { induction a as [|x a IH]; intros b Ha Hb; [congruence|]. destruct a as [|y a].
    - cbn [app join]. destruct b; [congruence|reflexivity].
    - change (join sep ((x :: y :: a) ++ b)) with (x ++ sep ++ join sep ((y :: a) ++ b)). rewrite IH by (auto; discriminate).
      change (join sep (x :: y :: a)) with (x ++ sep ++ join sep (y :: a)). rewrite <- !app_assoc. reflexivity. }
  clear - Hne J. revert Hne. unfold verbose, alternatives. destruct (h_shortopts h) as [[|c so]|]; intros Hne; [elim Hne; reflexivity| |]; destruct (h_longopts h) as [lo|]; cbn [isome andb shorts longs].
  - rewrite J; [rewrite app_nil_r; reflexivity|discriminate|unfold long_tags; destruct (map long_tag _); discriminate].
  - cbn [join app]. rewrite !app_nil_r. reflexivity.
  - cbn [join app]. rewrite app_nil_r. reflexivity.
  - reflexivity.
Qed.

(** Each of them works: it is read as this entry, anywhere in a command line; with the next argument as value if the entry takes
    one. *)
Theorem C67_alternatives_work :
  forall t i h tag v g, Forall good_hdr t -> usable t i h tag -> h_hasoptvalue h = false -> tag_args h tag v g ->
  forall posix rest os pos, spells t posix rest os pos -> spells t posix (g ++ rest) ((i, v) :: os) pos.
Proof.
  intros t i h tag v g Ht Hu Hov Hg posix rest os pos Hsp. apply spells_iff. apply spells_iff in Hsp.
  rewrite (read_item posix t g _ rest (usable_item _ _ _ _ _ _ Ht Hu Hov Hg)), Hsp. reflexivity.
Qed.
(** One may be replaced by another in any command line, whatever the rest of it is. *)
Theorem C67_alternatives_interchangeable :
  forall {B} (scan : hdr -> B -> option (option str -> res (B * Z))) check reset posix t i h tag1 tag2 v g1 g2 l post, Forall good_hdr t -> h_hasoptvalue h = false ->
  usable t i h tag1 -> tag_args h tag1 v g1 -> usable t i h tag2 -> tag_args h tag2 v g2 ->
  Forall (good_item t) l -> (posix = true -> positionals l = []) -> snd (read_args posix t post) <> Hangs ->
  parsed_alike scan check reset posix t (cmdline l ++ g1 ++ post) (cmdline l ++ g2 ++ post).
Proof.
  intros B scan check reset posix t i h tag1 tag2 v g1 g2 l post Ht Hov U1 A1 U2 A2 Hl Hp Hh. eapply items_alike; eauto using usable_item.
Qed.
(** No alternative is hidden: an option that works, other than an abbreviation, is shown. *)
Theorem C67_alternatives_complete :
  forall t i h, Forall good_hdr t ->
  (forall c, first_declaring t c i h -> In (short_tag c) (alternatives h)) /\
  (forall nm, nm <> [] -> selects t nm i h -> exists nm', In (long_tag nm') (alternatives h) /\ ParseLemmas.prefix nm nm').
Proof.
  intros t i h Ht. rewrite Forall_forall in Ht. split.
  - intros c (_ & Hd & _). apply shown_short in Hd as [Hd _]. exact Hd.
  - intros nm Hn [H1 H2 _|n _ H1 H2 H3 _].
    + exists nm. split; [|exists []; rewrite app_nil_r; reflexivity]. apply (shown_long h nm); auto. apply Ht. eapply nth_error_In; eauto.
    + exists n. split; auto. apply (shown_long h n); auto; [apply Ht; eapply nth_error_In; eauto|]. destruct H3 as (r & ->). destruct nm; [congruence|discriminate].
Qed.

(** ** Examples *)
From Verif Require ExTable.
Local Open Scope string_scope.
Local Open Scope list_scope.
Local Open Scope Z_scope.
Lemma ex_usable i h tag : nth_error ExTable.hdrs i = Some h -> existsb (str_eqb tag) (alternatives h) = true ->
  forallb (fun h' => negb (existsb (str_eqb tag) (alternatives h'))) (firstn i ExTable.hdrs) = true ->
  tag <> [] -> tag <> lit "--" -> existsb (ceqb "=") (skipn 2 tag) = false -> usable ExTable.hdrs i h tag.
Proof.
  intros Hi Hin Hf H1 H2 H3. apply existsb_exists in Hin as (x & Hx & E). apply str_eqb_eq in E. subst x. constructor; auto.
  - intros j h' Hj Hj' Hc. rewrite forallb_forall in Hf.
    assert (Hj2 : In h' (firstn i ExTable.hdrs)). { apply nth_error_In with j. rewrite <- Hj'. clear - Hj. revert j Hj. generalize ExTable.hdrs. induction i; intros [|x l] [|j] Hj; cbn; auto; try lia. apply IHi. lia. }
    apply Hf in Hj2. apply negb_true_iff in Hj2. assert (K : existsb (str_eqb tag) (alternatives h') = true) by (apply existsb_exists; exists tag; split; auto; apply str_eqb_eq; reflexivity). congruence.
  - repeat split; auto. intros Hi'. assert (K : existsb (ceqb "=") (skipn 2 tag) = true) by (apply existsb_exists; exists "="%char; split; auto). congruence.
Qed.
Notation eh i := (e_hdr (nth i ExTable.tab (arg_litn None None 0 0 None))).
Example C67_case : map alternatives ExTable.hdrs = [map lit ["-v"; "--verbose"; "--version"]; map lit ["-n"; "--num"]; map lit ["-o"; "--output"]; []] /\
  spells ExTable.hdrs false (map lit ["--version"; "-n"; "3"; "x"]) [(0%nat, None); (1%nat, Some (lit "3"))] [lit "x"].
Proof.
  split; [reflexivity|].
  refine (C67_alternatives_work ExTable.hdrs 0 (eh 0%nat) (lit "--version") None [lit "--version"] ExTable.good (ex_usable 0 (eh 0%nat) (lit "--version") eq_refl eq_refl eq_refl _ _ eq_refl) eq_refl (ta_switch (eh 0%nat) _ eq_refl) false (map lit ["-n"; "3"; "x"]) _ _ _); [discriminate|discriminate|].
  refine (C67_alternatives_work ExTable.hdrs 1 (eh 1%nat) (lit "-n") (Some (lit "3")) [lit "-n"; lit "3"] ExTable.good (ex_usable 1 (eh 1%nat) (lit "-n") eq_refl eq_refl eq_refl _ _ eq_refl) eq_refl (ta_value (eh 1%nat) _ _ eq_refl _) false [lit "x"] [] _ _); [discriminate|discriminate|discriminate|].
  apply spells_iff. reflexivity.
Qed.
Notation exs := (kscan ExTable.strtod ExTable.rexmatch Long64 unix_seps).
(** In a command line with a mistake further on. *)
Example C67_case_interchangeable :
  parsed_alike exs kcheck kreset false ExTable.hdrs (map lit ["x"; "-n"; "3"; "--bad"]) (map lit ["x"; "--num"; "3"; "--bad"]).
Proof.
  refine (C67_alternatives_interchangeable exs kcheck kreset false ExTable.hdrs 1 (eh 1%nat) (lit "-n") (lit "--num") (Some (lit "3")) [lit "-n"; lit "3"] [lit "--num"; lit "3"] [Positional (lit "x")] [lit "--bad"]
    ExTable.good _ (ex_usable 1 (eh 1%nat) (lit "-n") eq_refl eq_refl eq_refl _ _ eq_refl) (ta_value (eh 1%nat) _ _ eq_refl _) (ex_usable 1 (eh 1%nat) (lit "--num") eq_refl eq_refl eq_refl _ _ eq_refl) (ta_value (eh 1%nat) _ _ eq_refl _) _ _ _); try discriminate; try reflexivity.
  repeat constructor.
Qed.
Example C67_case_shown : exists buf, arg_cat_optionv syntax0 199 (ExTable.o "v") (ExTable.o "verbose,version") None false (lit "|") = Ok buf /\ text_of buf = Ok (lit "-v|--verbose|--version").
Proof. eexists. split; vm_compute; reflexivity. Qed.
(** An abbreviation is not shown; the name that it abbreviates is. *)
Example C67_case_complete : exists h, selects ExTable.hdrs (lit "out") 2 h /\ ~ In (lit "--out") (alternatives h) /\ In (lit "--output") (alternatives h).
Proof.
  exists (e_hdr (arg_filen (D := Z) (ExTable.o "o") (ExTable.o "output") None 0 1 None)). split; [|split; cbn; intuition discriminate].
  apply sel_prefix with (lit "output"); [| reflexivity | cbn; auto | exists (lit "put"); reflexivity |].
  - intros [|[|[|[|j]]]] h'; cbn; try (intros [= <-]; cbn; intuition discriminate). destruct j; discriminate.
  - intros [|[|[|[|j]]]] h' m; cbn; try (destruct j; discriminate); intros [= <-]; cbn; intros Hm (r & E); intuition (subst; discriminate).
Qed.

(** A name with an equals sign is shown but does not work. *)
Theorem C67_equals_sign_refuted : exists t h, Forall good_hdr t /\ t = [h] /\ In (lit "--a=b") (alternatives h) /\
  forall posix os pos, ~ spells t posix [lit "--a=b"] os pos.
Proof.
  exists [e_hdr (arg_litn (D := Z) None (ExTable.o "a=b") 0 1 None)], (e_hdr (arg_litn (D := Z) None (ExTable.o "a=b") 0 1 None)).
  split; [apply ExTable.good_hdrs_ok; reflexivity|]. split; [reflexivity|]. split; [left; reflexivity|].
  intros posix os pos Hs. apply spells_iff in Hs. destruct posix; vm_compute in Hs; destruct os; discriminate.
Qed.

Print Assumptions C67_alternatives_shown.
Print Assumptions C67_alternatives_work.
Print Assumptions C67_alternatives_interchangeable.
Print Assumptions C67_alternatives_complete.
Print Assumptions C67_equals_sign_refuted.
