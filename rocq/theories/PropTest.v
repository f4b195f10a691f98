(** C86 for examples/testargtable3.c, and C79 for examples/myprog_C89.c. *)
From Verif Require Import Base IntModel IntSpec IntProofs FileModel FileSpec DateModel DateSpec GetoptModel ParseModel ParseSpec GetoptProofs ParseIdeal ParseProofs ParseFacts ParseObserve ParseSafe ParseLemmas ArgModel KindsSpec KindsProofs PropKinds CommandSpec CommandProofs PropCommand ReportSpec ReportProofs PropReport.
From Verif Require Import MemModel DstrModel PrintModel PrintProofs PrintFacts ErrorSpec ErrorProofs PropErrors ProgramModel UtilModel PropProgram PropFiles PropUtil.
From Verif Require ReparseProofs PrintSpec PropPrint PropTable TableModel PropConvey PropFile ExTable.
From Coq Require Import ZArith List Ascii String Bool Lia.
Import ListNotations.
Open Scope Z_scope.

Section Test.
Context {D : Type}.
Context (strtod : str -> D * nat).
Context (rexmatch : str -> Z -> str -> res bool).
Context (sp : seps).
Context (strftime : str -> tm -> option str).
Notation lm := Long64.
Notation table := (list (entry (body D))).
Notation reached := (reached strtod rexmatch lm sp).
Notation shared := (shared strtod rexmatch lm sp).
Notation satisfied := (satisfied strtod rexmatch lm sp).
Notation valued := (valued strtod rexmatch sp).
Notation safe_value := (safe_value lm).
Notation main := (main strtod rexmatch lm sp strftime).
Notation test_main := (test_main strtod rexmatch lm sp strftime).
Hypothesis Hd : strtod_contract strtod.
Context (jv : nat -> Z).
Notation tab := (test_table (D := D) jv).

(** ** testargtable3.c *)
(** *** Specification *)
(** The command line is right: no mistake of the option scanner, every option at most once, an integer behind --scalar, and one to a
    hundred files. *)
Definition test_right (evs : list event) (pos : list str) : Prop :=
  (forall c v, ~ In (EvErr c v) evs) /\
  (forall name, In name ["--help"; "--version"; "-a"; "-b"; "-c"; "--scalar"; "--verbose"; "-o"]%string -> zlen (given_as tab name evs) <= 1) /\
  (forall x, In (Some x) (given_as tab "--scalar" evs) -> exists n, int_literal x n /\ int_range n) /\
  1 <= zlen pos <= 100.
(** What the program prints for --help *)
Definition test_usage : str :=
  ln "Usage: testargtable2.exe [-abcv] [--help] [--version] [--scalar=<n>] [-o myfile] <file> [<file>]..." ++
  ln "List information about the FILE(s) (the current directory by default)." ++ [NL] ++
  ln "  --help                    display this help and exit" ++
  ln "  --version                 display version info and exit" ++
  ln "  -a                        the -a option" ++
  ln "  -b                        the -b option" ++
  ln "  -c                        the -c option" ++
  ln "  --scalar=<n>              foo value" ++
  ln "  -v, --verbose             verbose output" ++
  ln "  -o myfile                 output file" ++
  ln "  <file>                    input files".

(** *** The table *)
Definition test_frame : @frame D := plain_frame (lit "testargtable2.exe") (ln "List information about the FILE(s) (the current directory by default)." ++ [NL]).
Ltac made_one := split; [constructor; unfold foolproof; repeat match goal with |- context [?a <? ?b] => destruct (Z.ltb_spec a b) end; lia|split; [exact I|try discriminate; reflexivity]].
Ltac texts_clit := repeat (apply Forall_cons; [repeat split; apply literal; vm_compute; reflexivity|]); constructor.
Ltac counts_tac := repeat (apply Forall_cons; [apply counts_small; cbn [h_mincount h_maxcount e_hdr arg_lit0 arg_int0 arg_file0 arg_litn arg_strn arg_intn arg_filen mkentry mkhdr];
  unfold foolproof, INT_MAX in *; repeat match goal with |- context [?a <? ?b] => destruct (Z.ltb_spec a b) end; lia|]); constructor.
Notation front := (firstn 8 tab).
Notation files := (arg_filen None None (Some (lit "<file>")) 1 100 (Some (lit "input files"))).
Lemma split : tab = front ++ files :: [].
Proof. reflexivity. Qed.
Lemma front_aside : Forall aside front.
Proof. repeat (apply Forall_cons; [intros [K1 K2]; discriminate|]). constructor. Qed.
Lemma tab_reached : reached true tab.
Proof. apply reached_new. unfold test_table. repeat (apply Forall_cons; [made_one|]). constructor. Qed.
Lemma tab_short : Forall short_texts (map e_hdr tab).
Proof. repeat (apply Forall_cons; [split; vm_compute; discriminate|]). constructor. Qed.
Lemma usage_ok : lit "Usage: " ++ f_name test_frame ++ PrintSpec.syntax_line brief_of (map e_hdr tab) ++ [NL] ++ f_before test_frame ++
    PropPrint.glossary_text (gf_text (f_format test_frame)) verbose_of (map e_hdr tab) ++ f_after test_frame = test_usage.
Proof. vm_compute. reflexivity. Qed.
Lemma some_texts posix rest os pos i : In i [5; 7]%nat -> spells (map e_hdr tab) posix rest os pos -> exists ss, given_to i os = map Some ss.
Proof.
  intros Hi Hs. apply all_some. intros v Hv K. destruct (given_dispatched tab posix rest os pos i v Hs Hv) as (e & He & _ & Hn & _). specialize (Hn K).
  destruct Hi as [<-|[<-|[]]]; injection He as <-; destruct Hn; discriminate.
Qed.
Lemma lit_option so lo gl given : satisfied (arg_lit0 so lo gl) given <-> zlen given <= 1.
Proof. apply lit0_satisfied. Qed.
Lemma scalar_option ss : satisfied (arg_int0 jv None (Some (lit "scalar")) (Some (lit "<n>")) (Some (lit "foo value"))) (map Some ss) <->
  zlen ss <= 1 /\ forall x, In (Some x) (map Some ss) -> exists n, int_literal x n /\ int_range n.
Proof.
  rewrite <- (zlen_map (@Some str)). apply (simple_satisfied strtod rexmatch sp (arg_int0 jv None (Some (lit "scalar")) (Some (lit "<n>")) (Some (lit "foo value")))).
  - reflexivity.
  - intros _ K. apply in_map_iff in K as (x & ? & _). discriminate.
Qed.
Lemma right_shared posix rest os pos : spells (map e_hdr tab) posix rest os pos -> ((exists runs, shared tab os pos runs) <-> test_right (evs_of os) pos).
Proof.
  intros Hs. assert (H8 : given_to 8 os = []) by (eapply (given_none tab); [exact Hs|reflexivity|split; reflexivity]).
  destruct (some_texts posix rest os pos 5 ltac:(cbn; tauto) Hs) as (s5 & T5). destruct (some_texts posix rest os pos 7 ltac:(cbn; tauto) Hs) as (s7 & T7).
  assert (NE : forall c v, ~ In (EvErr c v) (evs_of os)) by (intros c v K; unfold evs_of in K; apply in_map_iff in K as (? & ? & _); discriminate).
  assert (P : forall s i, place tab s = i -> given_as tab s (evs_of os) = given_to i os) by (intros s i <-; apply given_evs).
  assert (G0 : given_as tab "--help" (evs_of os) = given_to 0 os) by (apply P; reflexivity).
  assert (G1 : given_as tab "--version" (evs_of os) = given_to 1 os) by (apply P; reflexivity).
  assert (G2 : given_as tab "-a" (evs_of os) = given_to 2 os) by (apply P; reflexivity).
  assert (G3 : given_as tab "-b" (evs_of os) = given_to 3 os) by (apply P; reflexivity).
  assert (G4 : given_as tab "-c" (evs_of os) = given_to 4 os) by (apply P; reflexivity).
  assert (G5 : given_as tab "--scalar" (evs_of os) = given_to 5 os) by (apply P; reflexivity).
  assert (G6 : given_as tab "--verbose" (evs_of os) = given_to 6 os) by (apply P; reflexivity).
  assert (G7 : given_as tab "-o" (evs_of os) = given_to 7 os) by (apply P; reflexivity).
  pose proof (shared_mid_iff strtod rexmatch sp front files [] os pos front_aside (Forall_nil _)) as SM.
  change (List.length front) with 8%nat in SM. rewrite H8 in SM. cbn [app] in SM. rewrite files_option in SM. rewrite <- split in SM. split.
  - intros (runs & H). pose proof (shared_mid strtod rexmatch sp front files [] os pos runs front_aside (Forall_nil _) H) as ->.
    apply SM in H as (H & _ & HL). pose proof (H 5%nat _ eq_refl ltac:(discriminate)) as L. rewrite T5 in L. apply scalar_option in L. rewrite <- (zlen_map (@Some str)), <- T5, <- G5 in L.
    split; [exact NE|]. split; [|split; [exact (proj2 L)|exact HL]]. intros name Hn. repeat (destruct Hn as [<-|Hn]; [|]); [| | | | | | | |destruct Hn].
    + rewrite G0. exact (proj1 (lit_option _ _ _ _) (H 0%nat _ eq_refl ltac:(discriminate))).
    + rewrite G1. exact (proj1 (lit_option _ _ _ _) (H 1%nat _ eq_refl ltac:(discriminate))).
    + rewrite G2. exact (proj1 (lit_option _ _ _ _) (H 2%nat _ eq_refl ltac:(discriminate))).
    + rewrite G3. exact (proj1 (lit_option _ _ _ _) (H 3%nat _ eq_refl ltac:(discriminate))).
    + rewrite G4. exact (proj1 (lit_option _ _ _ _) (H 4%nat _ eq_refl ltac:(discriminate))).
    + exact (proj1 L).
    + rewrite G6. exact (proj1 (lit_option _ _ _ _) (H 6%nat _ eq_refl ltac:(discriminate))).
    + rewrite G7, T7, zlen_map. apply (file_option strtod rexmatch sp). rewrite <- T7. exact (H 7%nat _ eq_refl ltac:(discriminate)).
  - intros (_ & H1 & H2 & Hp). exists (run_mid 8 pos 0). apply SM. split; [|split; [|exact Hp]].
    + intros i e He Ni. assert (Hi : (i < 9)%nat) by (change 9%nat with (List.length tab); apply nth_error_Some; congruence).
      destruct i as [|[|[|[|[|[|[|[|i]]]]]]]]; [| | | | | | | |lia]; injection He as <-.
      * apply lit_option. rewrite <- G0. apply H1. cbn. tauto.
      * apply lit_option. rewrite <- G1. apply H1. cbn. tauto.
      * apply lit_option. rewrite <- G2. apply H1. cbn. tauto.
      * apply lit_option. rewrite <- G3. apply H1. cbn. tauto.
      * apply lit_option. rewrite <- G4. apply H1. cbn. tauto.
      * rewrite T5. apply scalar_option. rewrite <- (zlen_map (@Some str)), <- T5, <- G5. split; [apply H1; cbn; tauto|exact H2].
      * apply lit_option. rewrite <- G6. apply H1. cbn. tauto.
      * rewrite T7. apply (file_option strtod rexmatch sp). rewrite <- (zlen_map (@Some str)), <- T7, <- G7. apply H1. cbn. tauto.
    + intros _. split; [split; reflexivity|discriminate].
Qed.

(** *** Theorem *)
Theorem C86_testargtable3 : forall posix legacy junk rest jo jc jp fuel argv h s en a0 evs pos,
  call 20 tab en h argv a0 rest fuel -> (forall a, In a rest -> zlen a <= 20000000) -> Forall (safe_value true) rest ->
  reading (map e_hdr tab) posix rest evs pos ->
  exists o, test_main jv en junk legacy posix jo jc jp fuel (zlen (a0 :: rest)) argv h s = Ok o /\ clean o /\
    (given_as tab "--help" evs <> [] -> o_text o = test_usage /\ o_code o = 0) /\
    (given_as tab "--help" evs = [] -> ~ test_right evs pos -> complains "testargtable2.exe" (o_text o) /\ o_code o = 1) /\
    (given_as tab "--help" evs = [] -> test_right evs pos -> o_text o = [] /\ o_code o = 0).
Proof.
  intros posix legacy junk rest jo jc jp fuel argv h s en a0 evs pos Hc Hl Hv Hrd. unfold UtilModel.test_main. rewrite plain_same. fold test_frame.
  change (given_as tab "--help" evs) with (occurrences 0 evs).
  destruct (program strtod rexmatch sp strftime Hd test_frame "testargtable2.exe" test_usage true posix legacy junk tab rest jo jc jp fuel argv h s en a0 evs pos) as (o & Eo & Cl & H1 & _ & H3); auto.
  - apply tab_reached.
  - do 2 eexists. split; [reflexivity|]. split; [reflexivity|]. split; [vm_compute; discriminate|]. intros [K1 K2]; discriminate.
  - do 2 eexists. split; [reflexivity|]. split; [reflexivity|]. split; [vm_compute; discriminate|]. intros [K1 K2]; discriminate.
  - apply (literal (Some _)). vm_compute. reflexivity.
  - apply columns_good.
  - texts_clit.
  - unfold test_table, arg_lit0, arg_int0, arg_file0. counts_tac.
  - repeat (apply Forall_cons; [exact I|]). constructor.
  - apply (usage_fits test_frame tab test_usage); [texts_clit|apply tab_short|exact usage_ok|cbn; lia|vm_compute; discriminate|vm_compute; discriminate].
  - split; [vm_compute; discriminate|]. split; [exact Hl|]. intros hd fmt x Hi. repeat (destruct Hi as [K|Hi]; [discriminate|]). contradiction.
  - intros os pos' runs tab' _ _ _ _ _. exists [], 0. reflexivity.
  - apply tab_short.
  - exists o. split; [exact Eo|]. split; [exact Cl|]. cbn [f_help f_version test_frame plain_frame] in H1, H3. split; [exact H1|].
    split; intros E Hy; destruct (H3 E E) as [(os & runs & tab' & Ee & Hs & Hsh & Hvl & Hw)|(Hn & Hcm & Hcd)].
    + exfalso. apply Hy. rewrite Ee. apply (right_shared posix rest os pos Hs). eauto.
    + auto.
    + cbn [f_work test_frame plain_frame] in Hw. injection Hw as <- <-. auto.
    + exfalso. destruct (no_mistake evs) as (os & Ee); [apply Hy|]. rewrite Ee in Hy, Hrd.
      assert (Hs : spells (map e_hdr tab) posix rest os pos) by (apply spells_iff, reading_iff; exact Hrd).
      destruct (proj2 (right_shared posix rest os pos Hs) Hy) as (runs & Hsh). exact (Hn os runs Ee Hsh).
Qed.
(** The usage says that without files the current directory is used. It is an error to give none. *)
Theorem C86_default_directory_refuted : forall posix legacy junk rest jo jc jp fuel argv h s en a0 evs,
  call 20 tab en h argv a0 rest fuel -> (forall a, In a rest -> zlen a <= 20000000) -> Forall (safe_value true) rest ->
  reading (map e_hdr tab) posix rest evs [] -> given_as tab "--help" evs = [] ->
  exists o, test_main jv en junk legacy posix jo jc jp fuel (zlen (a0 :: rest)) argv h s = Ok o /\ complains "testargtable2.exe" (o_text o) /\ o_code o = 1.
Proof.
  intros posix legacy junk rest jo jc jp fuel argv h s en a0 evs Hc Hl Hv Hrd Hh. destruct (C86_testargtable3 posix legacy junk rest jo jc jp fuel argv h s en a0 evs [] Hc Hl Hv Hrd) as (o & Eo & _ & _ & H & _).
  exists o. split; [exact Eo|]. apply H; [exact Hh|]. intros (_ & _ & _ & K). cbn in K. lia.
Qed.

(** ** myprog_C89.c *)
Definition myprog_C89_usage : str :=
  ln "Usage: myprog_C89 [-lRv] [-k <int>] [-D MACRO]... [-o <output>] [--help] [--version] <file> [<file>]..." ++
  ln "This program demonstrates the use of the argtable2 library" ++
  ln "for parsing command line arguments." ++
  ln "  -l, -L                    list files" ++
  ln "  -R                        recurse through subdirectories" ++
  ln "  -k, --scalar=<int>        define scalar value k (default is 3)" ++
  ln "  -D, --define=MACRO        macro definitions" ++
  ln "  -o <output>               output file (default is ""-"")" ++
  ln "  -v, --verbose, --debug    verbose messages" ++
  ln "  --help                    print this help and exit" ++
  ln "  --version                 print version information and exit" ++
  ln "  <file>                    input file(s)".
Definition usage_C89 (argc : Z) : str :=
  lit "Usage: " ++ f_name (@myprog_C89 D) ++ PrintSpec.syntax_line brief_of (map e_hdr (mytable (D := D) jv argc)) ++ [NL] ++ f_before (@myprog_C89 D) ++
    PropPrint.glossary_text (gf_text (f_format (@myprog_C89 D))) verbose_of (map e_hdr (mytable (D := D) jv argc)) ++ f_after (@myprog_C89 D).
Lemma usage_C89_ok argc : 1 < argc -> usage_C89 argc = myprog_C89_usage.
Proof.
  intros Ha. assert (E : PrintSpec.syntax_line brief_of (map e_hdr (mytable (D := D) jv argc)) =
    lit " [-lRv]" ++ PrintSpec.occurrences 0 1 (lit "-k <int>") ++ PrintSpec.occurrences 0 (foolproof 0 (argc + 2)) (lit "-D MACRO") ++ PrintSpec.occurrences 0 1 (lit "-o <output>") ++
    PrintSpec.occurrences 0 1 (lit "--help") ++ PrintSpec.occurrences 0 1 (lit "--version") ++ PrintSpec.occurrences 1 (foolproof 1 (argc + 2)) (lit "<file>") ++ []).
  { unfold PrintSpec.syntax_line, mytable, myprog_table, arg_strn, arg_filen. generalize (foolproof 0 (argc + 2)). generalize (foolproof 1 (argc + 2)). generalize PrintSpec.occurrences. intros oc m m'. vm_compute. reflexivity. }
  assert (F : foolproof 1 (argc + 2) = argc + 2) by (unfold foolproof; destruct (Z.ltb_spec (argc + 2) 1); lia).
  unfold usage_C89. rewrite E, fool, F, occurrences_many, occurrences_files by lia. vm_compute. reflexivity.
Qed.
Lemma usage_C89_small argc : 0 < argc -> zlen (usage_C89 argc) <= 1000000.
Proof.
  intros Ha. destruct (Z.eq_dec argc 1) as [->|]; [vm_compute; discriminate|]. rewrite usage_C89_ok by lia. vm_compute. discriminate.
Qed.
Lemma works_C89 posix a0 rest os pos runs tab' : let argc := zlen (a0 :: rest) in
  spells (map e_hdr (mytable (D := D) jv argc)) posix rest os pos -> shared (mytable jv argc) os pos runs -> valued (mytable jv argc) os runs tab' ->
  exists out, myprog_C89_work argc tab' = Ok (out, 0) /\ myprog_prints (evs_of os) pos out.
Proof.
  intros argc Hs Hsh Hv. assert (Ha : argc = Z.succ (zlen rest)) by (unfold argc; rewrite zlen_cons; lia).
  pose proof (proj1 (my_shared strtod rexmatch sp jv posix rest os pos argc Ha Hs) (ex_intro _ runs Hsh)) as (_ & _ & _ & Hp).
  unfold myprog_C89_work. destruct (Z.eqb_spec argc 1) as [E1|]; [|exact (my_works strtod rexmatch sp strftime jv posix a0 rest os pos runs tab' Hs Hsh Hv)].
  exfalso. assert (Hrd : reading (map e_hdr (mytable (D := D) jv argc)) posix rest (evs_of os) pos) by (apply reading_iff, spells_iff; exact Hs). apply reading_shorter in Hrd.
  destruct rest; [destruct pos; [congruence|cbn in Hrd; lia]|]. rewrite zlen_cons in Ha. pose proof (zlen_nonneg rest). lia.
Qed.
Theorem C79_myprog_C89 : forall posix legacy junk rest jo jc jp fuel argv h s en a0 evs pos,
  let argc := zlen (a0 :: rest) in
  call 20 (mytable (D := D) jv argc) en h argv a0 rest fuel -> argc + 2 <= INT_MAX -> (forall a, In a rest -> zlen a <= 20000000) -> Forall (safe_value true) rest ->
  reading (map e_hdr (mytable (D := D) jv argc)) posix rest evs pos ->
  exists o, main myprog_C89 (mytable jv argc) en junk legacy posix jo jc jp fuel argc argv h s = Ok o /\ clean o /\
    (occurrences 6 evs <> [] -> o_text o = myprog_C89_usage /\ o_code o = 0) /\
    (occurrences 6 evs = [] -> occurrences 7 evs <> [] -> o_text o = version_text (@myprog_C89 D) /\ o_code o = 0) /\
    (occurrences 6 evs = [] -> occurrences 7 evs = [] -> ~ myprog_right evs pos -> complains "myprog_C89" (o_text o) /\ o_code o = 1) /\
    (occurrences 6 evs = [] -> occurrences 7 evs = [] -> myprog_right evs pos -> myprog_prints evs pos (o_text o) /\ o_code o = 0).
Proof.
  intros posix legacy junk rest jo jc jp fuel argv h s en a0 evs pos argc Hc Hm Hl Hv Hrd.
  assert (Ha : argc = Z.succ (zlen rest)) by (unfold argc; rewrite zlen_cons; lia). assert (Hp : 0 < argc) by (pose proof (zlen_nonneg rest); lia).
  destruct (program strtod rexmatch sp strftime Hd myprog_C89 "myprog_C89" (usage_C89 argc) true posix legacy junk (mytable jv argc) rest jo jc jp fuel argv h s en a0 evs pos) as (o & Eo & Cl & H1 & H2 & H3); auto.
  - apply mytable_reached. lia.
  - do 2 eexists. repeat split; try reflexivity. intros [K1 K2]; discriminate.
  - do 2 eexists. repeat split; try reflexivity. intros [K1 K2]; discriminate.
  - apply (literal (Some _)). vm_compute. reflexivity.
  - apply columns_good.
  - texts_clit.
  - unfold mytable, myprog_defaults, myprog_table. cbn [List.length seq combine map fst snd Nat.eqb orb]. unfold set_default, arg_int0, arg_file0. cbn [e_hdr mkentry arg_intn arg_filen]. counts_tac.
  - repeat (apply Forall_cons; [exact I|]). constructor.
  - apply (usage_fits myprog_C89 (mytable jv argc) (usage_C89 argc)); [texts_clit|apply mytable_short|reflexivity|cbn; lia|apply usage_C89_small; lia|vm_compute; discriminate].
  - split; [vm_compute; discriminate|]. split; [exact Hl|]. intros hd fmt x Hi. repeat (destruct Hi as [K|Hi]; [discriminate|]). contradiction.
  - intros os pos' runs tab' S1 _ _ S2 S3. destruct (works_C89 posix a0 rest os pos' runs tab' S1 S2 S3) as (out & E & _). eauto.
  - apply mytable_short.
  - exists o. split; [exact Eo|]. split; [exact Cl|]. cbn [f_help f_version myprog_C89] in H1, H2, H3. split.
    { intros K. rewrite (proj1 (H1 K)). split; [|apply H1; auto]. apply usage_C89_ok. destruct rest as [|a rest]; [inversion Hrd; subst; contradiction K; reflexivity|]. rewrite zlen_cons in Ha. pose proof (zlen_nonneg rest). lia. }
    split; [exact H2|]. split; intros E3 E4 Hx; destruct (H3 E3 E4) as [(os & runs & tab' & -> & Hs & Hsh & Hvl & Hw)|(Hn & Hcm & Hcd)].
    + exfalso. apply Hx. apply (my_shared strtod rexmatch sp jv posix rest os pos argc Ha Hs). eauto.
    + auto.
    + cbn [f_work myprog_C89] in Hw. destruct (works_C89 posix a0 rest os pos runs tab' Hs Hsh Hvl) as (out & E & P). fold argc in Hw, E. rewrite E in Hw. injection Hw as <- <-. auto.
    + exfalso. destruct (no_mistake evs) as (os & ->); [intros c v K; apply (proj1 Hx); eauto|].
      assert (Hs : spells (map e_hdr (mytable (D := D) jv argc)) posix rest os pos) by (apply spells_iff, reading_iff; exact Hrd).
      destruct (proj2 (my_shared strtod rexmatch sp jv posix rest os pos argc Ha Hs) Hx) as (runs & Hsh). exact (Hn os runs eq_refl Hsh).
Qed.
End Test.

(** ** Examples *)
Notation zero := (fun _ : nat => 0).
Notation ex_test rest := (test_main ExTable.strtod ExTable.rexmatch Long64 unix_seps no_strftime zero (ExTable.en 20) (fun _ => "z"%char) false false
  ExTable.jo ExTable.jc ExTable.jp (S (total (map lit rest))) (zlen (lit "t" :: map lit rest)) 1 (ExTable.heap0 ("t"%string :: rest)) ExTable.s0).
Notation ex_thm thm rest := (thm ExTable.strtod ExTable.rexmatch unix_seps no_strftime ex_contract zero false false (fun _ : nat => "z"%char) (map lit rest) ExTable.jo ExTable.jc ExTable.jp (S (total (map lit rest))) 1%nat
    (ExTable.heap0 ("t"%string :: rest)) ExTable.s0 (ExTable.en 20) (lit "t")).
Notation test_args := ["-cab"; "--sc"; "1KB"; "x"; "-o"; "out"; "y"]%string.
Notation test_evs := [EvScan 4 None; EvScan 2 None; EvScan 3 None; EvScan 5 (Some (lit "1KB")); EvScan 7 (Some (lit "out"))].
Example C86_case_testargtable3 : shows_code (ex_test test_args) [] 0.
Proof.
  destruct (ex_thm C86_testargtable3 test_args test_evs (map lit ["x"; "y"]%string)) as (out & E & Hc & _ & _ & H).
  - apply program_call; vm_compute; reflexivity.
  - args_short.
  - apply safe_values; vm_compute; reflexivity.
  - ex_read.
  - rewrite E. destruct H as [-> ->]; [reflexivity| |auto]. split; [intros c v K; repeat (destruct K as [K|K]; [discriminate|]); destruct K|]. split; [|split; [|vm_compute; split; discriminate]].
    + intros name Hn. repeat (destruct Hn as [<-|Hn]; [vm_compute; discriminate|]). destruct Hn.
    + intros x Hx. vm_compute in Hx. destruct Hx as [[= <-]|[]]. exists 1024. apply (lit_number "1KB"). vm_compute. reflexivity.
Qed.
Notation help_args := ["-q"; "--he"; "-aa"]%string.
Example C86_case_testargtable3_help : shows_code (ex_test help_args) test_usage 0.
Proof.
  destruct (ex_thm C86_testargtable3 help_args [EvErr 113 None; EvScan 0 None; EvScan 2 None; EvScan 2 None] []) as (out & E & Hc & H & _).
  - apply program_call; vm_compute; reflexivity.
  - args_short.
  - apply safe_values; vm_compute; reflexivity.
  - ex_read.
  - rewrite E. destruct H as [-> ->]; [discriminate|]. auto.
Qed.
Example C86_case_default_directory : exists out, ex_test ["-a"%string] = Ok out /\ complains "testargtable2.exe" (o_text out) /\ o_code out = 1.
Proof.
  apply (ex_thm C86_default_directory_refuted ["-a"%string] [EvScan 2 None]).
  - apply program_call; vm_compute; reflexivity.
  - args_short.
  - apply safe_values; vm_compute; reflexivity.
  - ex_read.
  - reflexivity.
Qed.
Example C86_case_testargtable3_wrong : text_code (ex_test ["-aa"; "--scalar=z"]%string) =
  Some (ln "testargtable2.exe: extraneous option -a" ++ ln "testargtable2.exe: invalid argument ""z"" to option --scalar=<n>" ++
        ln "Try 'testargtable2.exe --help' for more information.", 1).
Proof. vm_compute. reflexivity. Qed.

Notation my_args := ["a.c"; "-k7"; "--def"; "X=1"; "-R"]%string.
Example C79_case_myprog_C89 : shows_code (ex_main myprog_C89 (mytable (fun _ => 77) 6) "m" my_args)
  (ln "recurse through directories (-R)" ++ ln "scalar k=7" ++ ln "output is ""-""" ++ ln "user defined macro ""X=1""" ++ ln "infile[0]=""a.c""") 0.
Proof.
  destruct (C79_myprog_C89 ExTable.strtod ExTable.rexmatch unix_seps no_strftime ex_contract (fun _ => 77) false false (fun _ => "z"%char) (map lit my_args) ExTable.jo ExTable.jc ExTable.jp (S (total (map lit my_args))) 1
    (ExTable.heap0 ("m"%string :: my_args)) ExTable.s0 (ExTable.en 20) (lit "m")
    [EvScan 2 (Some (lit "7")); EvScan 3 (Some (lit "X=1")); EvScan 1 None] (map lit ["a.c"]%string)) as (out & E & Hc & _ & _ & _ & H).
  - apply program_call; vm_compute; reflexivity.
  - vm_compute. discriminate.
  - args_short.
  - apply safe_values; vm_compute; reflexivity.
  - ex_read.
  - assert (Hsafe : Forall (safe_value Long64 true) [lit "7"]) by (change [lit "7"] with (map lit ["7"%string]); apply safe_values; vm_compute; reflexivity).
    change (zlen (lit "m" :: map lit my_args)) with 6 in E. change (zlen (lit "m" :: map lit my_args)) with 6. rewrite E.
    assert (L7 : int_literal (lit "7") 7).
    { pose proof (int_convert_sound (lit "7")) as K. assert (E7 : int_convert Long64 (lit "7") = Ok (inl 7)) by (vm_compute; reflexivity). rewrite E7 in K. exact (proj1 K). }
    destruct H as [(k & Sk & ->) ->]; try reflexivity.
    + split; [|split; [|split]].
      * intros (c & v & K). repeat (destruct K as [K|K]; [discriminate|]). destruct K.
      * intros i Hi. repeat (destruct Hi as [<-|Hi]; [vm_compute; discriminate|]). destruct Hi.
      * intros x [<-|[]]. exists 7. split; [exact L7|vm_compute; split; discriminate].
      * discriminate.
    + assert (k = 7) as ->.
      { destruct Sk as (Sk & Rk). apply (int_literal_unique (lit "7")); auto. inversion_clear Hsafe as [|? ? (_ & Hx) _]. apply (Hx eq_refl []). reflexivity. }
      split; [vm_compute; reflexivity|]. split; [reflexivity|exact Hc].
Qed.

Print Assumptions C86_testargtable3.
Print Assumptions C86_default_directory_refuted.
Print Assumptions C79_myprog_C89.
