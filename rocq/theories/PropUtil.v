(** C86: the program of the page Getting Started, for every command line. *)
From Verif Require Import Base IntModel IntSpec IntProofs FileModel FileSpec DateModel DateSpec GetoptModel ParseModel ParseSpec GetoptProofs ParseIdeal ParseProofs ParseFacts ParseObserve ParseSafe ParseLemmas ArgModel KindsSpec KindsProofs PropKinds CommandSpec CommandProofs PropCommand ReportSpec ReportProofs PropReport.
From Verif Require Import MemModel DstrModel PrintModel PrintProofs PrintFacts ErrorSpec ErrorProofs PropErrors ProgramModel UtilModel PropProgram PropFiles.
From Verif Require ReparseProofs PrintSpec PropPrint PropTable TableModel PropConvey PropFile ExTable.
From Coq Require Import ZArith List Ascii String Bool Lia.
Import ListNotations.
Open Scope Z_scope.

Section Util.
Context {D : Type}.
Context (strtod : str -> D * nat).
Context (rexmatch : str -> Z -> str -> res bool).
Context (sp : seps).
Context (strftime : str -> tm -> option str).
Notation lm := Long64.
Notation table := (list (entry (body D))).
Notation reached := (reached strtod rexmatch lm sp).
Notation shared := (shared strtod rexmatch lm sp).
Notation satisfied := (satisfied strtod rexmatch lm sp).
Notation valued := (valued strtod rexmatch sp).
Notation safe_value := (safe_value lm).
Notation main := (main strtod rexmatch lm sp strftime).
Notation util_main := (util_main strtod rexmatch lm sp strftime).
Hypothesis Hd : strtod_contract strtod.
Context (jv : nat -> Z).
Notation tab := (util_table (D := D) jv).

(** ** Specification *)
(** The command line is right: no mistake of the option scanner, every option at most once, an integer behind --level, and one to a
    hundred files. *)
Definition util_right (evs : list event) (pos : list str) : Prop :=
  (forall c v, ~ In (EvErr c v) evs) /\
  (forall name, In name ["--help"; "--version"; "--level"; "--verbose"; "-o"]%string -> zlen (given_as tab name evs) <= 1) /\
  (forall x, In (Some x) (given_as tab "--level" evs) -> exists n, int_literal x n /\ int_range n) /\
  1 <= zlen pos <= 100.
(** What the program prints for --help *)
Definition util_usage_with (version : string) : str :=
  ln "Usage: util.exe [-v] [--help] [--version] [--level=<n>] [-o myfile] <file> [<file>]..." ++
  ln "Demonstrate command-line parsing in argtable3." ++ [NL] ++
  ln "  --help                    display this help and exit" ++
  lit "  --version                 " ++ ln version ++
  ln "  --level=<n>               foo value" ++
  ln "  -v, --verbose             verbose output" ++
  ln "  -o myfile                 output file" ++
  ln "  <file>                    input files".
Definition util_usage : str := util_usage_with "display version info and exit".
(** What the page says that it prints, lines 11-19 *)
Definition util_documented : str := util_usage_with "display version information and exit".

(** ** The program in the frame of the others *)
Definition plain_frame (name about : str) : @frame D :=
  {| f_name := name; f_help := 0; f_version := 0; f_before := about; f_format := columns 25; f_after := []; f_work := fun _ _ => Ok ([], 0) |}.
Lemma bind_assoc {A B C} (m : res A) (f : A -> res B) (g : B -> res C) : bind (bind m f) g = bind m (fun x => bind (f x) g).
Proof. destruct m; reflexivity. Qed.
Lemma bind_same {A B} (m : res A) (f g : A -> res B) : (forall x, f x = g x) -> bind m f = bind m g.
Proof. intros H. destruct m; cbn; auto. Qed.
Lemma after_same name about junk legacy argc t en : plain_after strftime name about junk legacy (end_count en) t en = after_parse strftime (plain_frame name about) junk legacy argc t en.
Proof.
  unfold plain_after, after_parse. cbn [f_help f_version f_format f_before f_after f_name f_work plain_frame]. destruct (count_of t 0) as [n| |]; cbn [bind]; [|reflexivity|reflexivity].
  destruct (0 <? n) eqn:E.
  - unfold usage_head. cbn [f_name plain_frame]. repeat (apply bind_same; intros; try match goal with p : _ * _ |- _ => destruct p end). do 3 f_equal. rewrite app_nil_r, <- !app_assoc. reflexivity.
  - reflexivity.
Qed.
Lemma plain_same name about t en junk legacy posix jo jc jp fuel argc argv h s :
  plain_main strtod rexmatch lm sp strftime name about t en junk legacy posix jo jc jp fuel argc argv h s = main (plain_frame name about) t en junk legacy posix jo jc jp fuel argc argv h s.
Proof.
  unfold plain_main, ProgramModel.main. cbv zeta. rewrite null_ok. cbn [bind]. change (negb (0 =? 0)) with false. cbv iota. rewrite bind_assoc. apply bind_same. intros [[[h' s'] t'] en'].
  rewrite (after_same name about junk legacy argc t' en'). reflexivity.
Qed.
Definition util_frame : @frame D := plain_frame (lit "util.exe") (ln "Demonstrate command-line parsing in argtable3." ++ [NL]).
Lemma main_same en junk legacy posix jo jc jp fuel argc argv h s :
  util_main jv en junk legacy posix jo jc jp fuel argc argv h s = main util_frame tab en junk legacy posix jo jc jp fuel argc argv h s.
Proof. apply plain_same. Qed.

(** ** The table *)
Ltac made_one := split; [constructor; unfold foolproof; repeat match goal with |- context [?a <? ?b] => destruct (Z.ltb_spec a b) end; lia|split; [exact I|try discriminate; reflexivity]].
Ltac texts_clit := repeat (apply Forall_cons; [repeat split; apply literal; vm_compute; reflexivity|]); constructor.
Ltac counts_tac := repeat (apply Forall_cons; [apply counts_small; cbn [h_mincount h_maxcount e_hdr arg_litn arg_intn arg_filen mkentry mkhdr];
  unfold foolproof, INT_MAX in *; repeat match goal with |- context [?a <? ?b] => destruct (Z.ltb_spec a b) end; lia|]); constructor.
Notation front := (firstn 5 tab).
Lemma split : tab = front ++ arg_filen None None (Some (lit "<file>")) 1 100 (Some (lit "input files")) :: [].
Proof. reflexivity. Qed.
Lemma front_aside : Forall aside front.
Proof. repeat (apply Forall_cons; [intros [K1 K2]; discriminate|]). constructor. Qed.
Lemma tab_reached : reached true tab.
Proof. apply reached_new. unfold util_table. repeat (apply Forall_cons; [made_one|]). constructor. Qed.
Lemma tab_short : Forall short_texts (map e_hdr tab).
Proof. repeat (apply Forall_cons; [split; vm_compute; discriminate|]). constructor. Qed.
Lemma usage_ok : lit "Usage: " ++ f_name util_frame ++ PrintSpec.syntax_line brief_of (map e_hdr tab) ++ [NL] ++ f_before util_frame ++
    PropPrint.glossary_text (gf_text (f_format util_frame)) verbose_of (map e_hdr tab) ++ f_after util_frame = util_usage.
Proof. vm_compute. reflexivity. Qed.
Lemma some_texts posix rest os pos i : In i [2; 4]%nat -> spells (map e_hdr tab) posix rest os pos -> exists ss, given_to i os = map Some ss.
Proof.
  intros Hi Hs. apply all_some. intros v Hv K. destruct (given_dispatched tab posix rest os pos i v Hs Hv) as (e & He & _ & Hn & _). specialize (Hn K).
  destruct Hi as [<-|[<-|[]]]; injection He as <-; destruct Hn; discriminate.
Qed.
Lemma zlen_map {A B} (f : A -> B) l : zlen (map f l) = zlen l.
Proof. unfold zlen. rewrite map_length. reflexivity. Qed.
Lemma file_option ss : satisfied (arg_filen (Some (lit "o")) None (Some (lit "myfile")) 0 1 (Some (lit "output file"))) (map Some ss) <-> zlen ss <= 1.
Proof.
  split; [intros H; rewrite <- (zlen_map (@Some str)); apply H; discriminate|]. intros H. pose proof (zlen_nonneg ss). apply file_satisfied; lia.
Qed.
Lemma files_option ss : satisfied (arg_filen None None (Some (lit "<file>")) 1 100 (Some (lit "input files"))) (map Some ss) <-> 1 <= zlen ss <= 100.
Proof.
  split; [intros H; rewrite <- (zlen_map (@Some str)); apply H; discriminate|]. intros H. apply file_satisfied; lia.
Qed.
Lemma lit_option so lo gl given : satisfied (arg_litn so lo 0 1 gl) given <-> zlen given <= 1.
Proof. apply lit0_satisfied. Qed.
Lemma level_option ss : satisfied (arg_intn jv None (Some (lit "level")) (Some (lit "<n>")) 0 1 (Some (lit "foo value"))) (map Some ss) <->
  zlen ss <= 1 /\ forall x, In (Some x) (map Some ss) -> exists n, int_literal x n /\ int_range n.
Proof.
  rewrite <- (zlen_map (@Some str)). apply (simple_satisfied strtod rexmatch sp (arg_intn jv None (Some (lit "level")) (Some (lit "<n>")) 0 1 (Some (lit "foo value")))).
  - reflexivity.
  - intros _ K. apply in_map_iff in K as (x & ? & _). discriminate.
Qed.
Lemma right_shared posix rest os pos : spells (map e_hdr tab) posix rest os pos -> ((exists runs, shared tab os pos runs) <-> util_right (evs_of os) pos).
Proof.
  intros Hs. assert (H5 : given_to 5 os = []) by (eapply (given_none tab); [exact Hs|reflexivity|split; reflexivity]).
  destruct (some_texts posix rest os pos 2 ltac:(cbn; tauto) Hs) as (s2 & T2). destruct (some_texts posix rest os pos 4 ltac:(cbn; tauto) Hs) as (s4 & T4).
  assert (NE : forall c v, ~ In (EvErr c v) (evs_of os)) by (intros c v K; unfold evs_of in K; apply in_map_iff in K as (? & ? & _); discriminate).
  assert (P : forall s i, place tab s = i -> given_as tab s (evs_of os) = given_to i os) by (intros s i <-; apply given_evs).
  assert (G0 : given_as tab "--help" (evs_of os) = given_to 0 os) by (apply P; reflexivity).
  assert (G1 : given_as tab "--version" (evs_of os) = given_to 1 os) by (apply P; reflexivity).
  assert (G2 : given_as tab "--level" (evs_of os) = given_to 2 os) by (apply P; reflexivity).
  assert (G3 : given_as tab "--verbose" (evs_of os) = given_to 3 os) by (apply P; reflexivity).
  assert (G4 : given_as tab "-o" (evs_of os) = given_to 4 os) by (apply P; reflexivity).
  pose proof (shared_mid_iff strtod rexmatch sp front (arg_filen None None (Some (lit "<file>")) 1 100 (Some (lit "input files"))) [] os pos front_aside (Forall_nil _)) as SM.
  change (List.length front) with 5%nat in SM. rewrite H5 in SM. cbn [app] in SM. rewrite files_option in SM. rewrite <- split in SM. split.
  - intros (runs & H). pose proof (shared_mid strtod rexmatch sp front (arg_filen None None (Some (lit "<file>")) 1 100 (Some (lit "input files"))) [] os pos runs front_aside (Forall_nil _) H) as ->.
    apply SM in H as (H & _ & HL). pose proof (H 2%nat _ eq_refl ltac:(discriminate)) as L. rewrite T2 in L. apply level_option in L. rewrite <- (zlen_map (@Some str)), <- T2, <- G2 in L.
    split; [exact NE|]. split; [|split; [exact (proj2 L)|exact HL]]. intros name Hn. repeat (destruct Hn as [<-|Hn]; [|]); [| | | | |destruct Hn].
    + rewrite G0. exact (proj1 (lit_option _ _ _ _) (H 0%nat _ eq_refl ltac:(discriminate))).
    + rewrite G1. exact (proj1 (lit_option _ _ _ _) (H 1%nat _ eq_refl ltac:(discriminate))).
    + exact (proj1 L).
    + rewrite G3. exact (proj1 (lit_option _ _ _ _) (H 3%nat _ eq_refl ltac:(discriminate))).
    + rewrite G4, T4, zlen_map. apply file_option. rewrite <- T4. exact (H 4%nat _ eq_refl ltac:(discriminate)).
  - intros (_ & H1 & H2 & Hp). exists (run_mid 5 pos 0). apply SM. split; [|split; [|exact Hp]].
    + intros i e He Ni. assert (Hi : (i < 6)%nat) by (change 6%nat with (List.length tab); apply nth_error_Some; congruence).
      destruct i as [|[|[|[|[|i]]]]]; [| | | | |lia]; injection He as <-.
      * apply lit_option. rewrite <- G0. apply H1. cbn. tauto.
      * apply lit_option. rewrite <- G1. apply H1. cbn. tauto.
      * rewrite T2. apply level_option. rewrite <- (zlen_map (@Some str)), <- T2, <- G2. split; [apply H1; cbn; tauto|exact H2].
      * apply lit_option. rewrite <- G3. apply H1. cbn. tauto.
      * rewrite T4. apply file_option. rewrite <- (zlen_map (@Some str)), <- T4, <- G4. apply H1. cbn. tauto.
    + intros _. split; [split; reflexivity|discriminate].
Qed.

(** ** Theorems *)
Theorem C86_util : forall posix legacy junk rest jo jc jp fuel argv h s en a0 evs pos,
  call 20 tab en h argv a0 rest fuel -> (forall a, In a rest -> zlen a <= 20000000) -> Forall (safe_value true) rest ->
  reading (map e_hdr tab) posix rest evs pos ->
  exists o, util_main jv en junk legacy posix jo jc jp fuel (zlen (a0 :: rest)) argv h s = Ok o /\ clean o /\
    (given_as tab "--help" evs <> [] -> o_text o = util_usage /\ o_code o = 0) /\
    (given_as tab "--help" evs = [] -> ~ util_right evs pos -> complains "util.exe" (o_text o) /\ o_code o = 1) /\
    (given_as tab "--help" evs = [] -> util_right evs pos -> o_text o = [] /\ o_code o = 0).
Proof.
  intros posix legacy junk rest jo jc jp fuel argv h s en a0 evs pos Hc Hl Hv Hrd. rewrite main_same.
  change (given_as tab "--help" evs) with (occurrences 0 evs).
  destruct (program strtod rexmatch sp strftime Hd util_frame "util.exe" util_usage true posix legacy junk tab rest jo jc jp fuel argv h s en a0 evs pos) as (o & Eo & Cl & H1 & _ & H3); auto.
  - apply tab_reached.
  - do 2 eexists. split; [reflexivity|]. split; [reflexivity|]. split; [vm_compute; discriminate|]. intros [K1 K2]; discriminate.
  - do 2 eexists. split; [reflexivity|]. split; [reflexivity|]. split; [vm_compute; discriminate|]. intros [K1 K2]; discriminate.
  - apply (literal (Some _)). vm_compute. reflexivity.
  - apply columns_good.
  - texts_clit.
  - unfold util_table. counts_tac.
  - repeat (apply Forall_cons; [exact I|]). constructor.
  - apply (usage_fits util_frame tab util_usage); [texts_clit|apply tab_short|exact usage_ok|cbn; lia|vm_compute; discriminate|vm_compute; discriminate].
  - split; [vm_compute; discriminate|]. split; [exact Hl|]. intros hd fmt x Hi. repeat (destruct Hi as [K|Hi]; [discriminate|]). contradiction.
  - intros os pos' runs tab' _ _ _ _ _. exists [], 0. reflexivity.
  - apply tab_short.
  - exists o. split; [exact Eo|]. split; [exact Cl|]. cbn [f_help f_version util_frame] in H1, H3. split; [exact H1|].
    split; intros E Hy; destruct (H3 E E) as [(os & runs & tab' & Ee & Hs & Hsh & Hvl & Hw)|(Hn & Hcm & Hcd)].
    + exfalso. apply Hy. rewrite Ee. apply (right_shared posix rest os pos Hs). eauto.
    + auto.
    + cbn [f_work util_frame] in Hw. injection Hw as <- <-. auto.
    + exfalso. destruct (no_mistake evs) as (os & Ee); [apply Hy|]. rewrite Ee in Hy, Hrd.
      assert (Hs : spells (map e_hdr tab) posix rest os pos) by (apply spells_iff, reading_iff; exact Hrd).
      destruct (proj2 (right_shared posix rest os pos Hs) Hy) as (runs & Hsh). exact (Hn os runs Ee Hsh).
Qed.
(** The page promises another text for --help than the one that its program prints, whatever else is given. *)
Theorem C86_documented_refuted : forall posix legacy junk rest jo jc jp fuel argv h s en a0 evs pos,
  call 20 tab en h argv a0 rest fuel -> (forall a, In a rest -> zlen a <= 20000000) -> Forall (safe_value true) rest ->
  reading (map e_hdr tab) posix rest evs pos -> given_as tab "--help" evs <> [] ->
  exists o, util_main jv en junk legacy posix jo jc jp fuel (zlen (a0 :: rest)) argv h s = Ok o /\ o_text o <> util_documented.
Proof.
  intros posix legacy junk rest jo jc jp fuel argv h s en a0 evs pos Hc Hl Hv Hrd Hh. destruct (C86_util posix legacy junk rest jo jc jp fuel argv h s en a0 evs pos Hc Hl Hv Hrd) as (o & Eo & _ & H & _).
  exists o. split; [exact Eo|]. destruct (H Hh) as [-> _]. vm_compute. discriminate.
Qed.
(** The usage promises that --version displays something and exits. Alone it is an error, as no file is given, and beside files
    nothing is displayed. *)
Theorem C86_version_refuted : forall posix legacy junk rest jo jc jp fuel argv h s en a0 evs pos,
  call 20 tab en h argv a0 rest fuel -> (forall a, In a rest -> zlen a <= 20000000) -> Forall (safe_value true) rest ->
  reading (map e_hdr tab) posix rest evs pos -> given_as tab "--version" evs <> [] -> given_as tab "--help" evs = [] ->
  exists o, util_main jv en junk legacy posix jo jc jp fuel (zlen (a0 :: rest)) argv h s = Ok o /\
    (pos = [] -> complains "util.exe" (o_text o) /\ o_code o = 1) /\
    (util_right evs pos -> o_text o = [] /\ o_code o = 0).
Proof.
  intros posix legacy junk rest jo jc jp fuel argv h s en a0 evs pos Hc Hl Hv Hrd _ Hh. destruct (C86_util posix legacy junk rest jo jc jp fuel argv h s en a0 evs pos Hc Hl Hv Hrd) as (o & Eo & _ & _ & H1 & H2).
  exists o. split; [exact Eo|]. split; [|auto]. intros ->. apply H1; [exact Hh|]. intros (_ & _ & _ & K). cbn in K. lia.
Qed.
(** The usage says that any number of files may follow the first. More than a hundred are an error. *)
Lemma reading_words t : forall ws, Forall word ws -> reading t false ws [] ws.
Proof. intros ws H. induction H; [constructor|]. apply rd_word; auto. Qed.
Theorem C86_many_files_refuted : forall legacy junk files jo jc jp fuel argv h s en a0,
  call 20 tab en h argv a0 files fuel -> (forall a, In a files -> zlen a <= 20000000) -> Forall (safe_value true) files ->
  Forall word files -> 100 < zlen files ->
  exists o, util_main jv en junk legacy false jo jc jp fuel (zlen (a0 :: files)) argv h s = Ok o /\ complains "util.exe" (o_text o) /\ o_code o = 1.
Proof.
  intros legacy junk files jo jc jp fuel argv h s en a0 Hc Hl Hv Hw Hn. destruct (C86_util false legacy junk files jo jc jp fuel argv h s en a0 [] files Hc Hl Hv (reading_words _ files Hw)) as (o & Eo & _ & _ & H & _).
  exists o. split; [exact Eo|]. apply H; [reflexivity|]. intros (_ & _ & _ & K). lia.
Qed.
End Util.

(** ** Examples *)
Notation zero := (fun _ : nat => 0).
Notation ex_util rest := (util_main ExTable.strtod ExTable.rexmatch Long64 unix_seps no_strftime zero (ExTable.en 20) (fun _ => "z"%char) false false
  ExTable.jo ExTable.jc ExTable.jp (S (total (map lit rest))) (zlen (lit "util.exe" :: map lit rest)) 1 (ExTable.heap0 ("util.exe"%string :: rest)) ExTable.s0).
Notation ex_thm thm rest := (thm ExTable.strtod ExTable.rexmatch unix_seps no_strftime ex_contract zero false false (fun _ : nat => "z"%char) (map lit rest) ExTable.jo ExTable.jc ExTable.jp (S (total (map lit rest))) 1%nat
    (ExTable.heap0 ("util.exe"%string :: rest)) ExTable.s0 (ExTable.en 20) (lit "util.exe")).
Notation util_args := ["--lev=-0x10"; "a"; "-vo"; "out"; "--version"; "b"]%string.
Notation util_evs := [EvScan 2 (Some (lit "-0x10")); EvScan 3 None; EvScan 4 (Some (lit "out")); EvScan 1 None].
Lemma util_evs_right : util_right (D := Z) zero util_evs (map lit ["a"; "b"]%string).
Proof.
  split; [intros c v K; repeat (destruct K as [K|K]; [discriminate|]); destruct K|]. split; [|split; [|vm_compute; split; discriminate]].
  - intros name Hn. repeat (destruct Hn as [<-|Hn]; [vm_compute; discriminate|]). destruct Hn.
  - intros x Hx. vm_compute in Hx. destruct Hx as [[= <-]|[]]. exists (-16). apply (lit_number "-0x10"). vm_compute. reflexivity.
Qed.
Example C86_case_util : shows_code (ex_util util_args) [] 0.
Proof.
  destruct (ex_thm C86_util util_args util_evs (map lit ["a"; "b"]%string)) as (out & E & Hc & _ & _ & H).
  - apply program_call; vm_compute; reflexivity.
  - args_short.
  - apply safe_values; vm_compute; reflexivity.
  - ex_read.
  - rewrite E. destruct H as [-> ->]; [reflexivity|exact util_evs_right|]. auto.
Qed.
Notation help_args := ["-q"; "--he"; "--level=8K"]%string.
Example C86_case_help : shows_code (ex_util help_args) util_usage 0.
Proof.
  destruct (ex_thm C86_util help_args [EvErr 113 None; EvScan 0 None; EvScan 2 (Some (lit "8K"))] []) as (out & E & Hc & H & _).
  - apply program_call; vm_compute; reflexivity.
  - args_short.
  - apply safe_values; vm_compute; reflexivity.
  - ex_read.
  - rewrite E. destruct H as [-> ->]; [discriminate|]. auto.
Qed.
Example C86_case_wrong : text_code (ex_util ["-q"; "--level=8x"; "-vv"]%string) =
  Some (ln "util.exe: invalid option ""-q""" ++ ln "util.exe: invalid argument ""8x"" to option --level=<n>" ++ ln "util.exe: extraneous option -v|--verbose" ++
        ln "Try 'util.exe --help' for more information.", 1).
Proof. vm_compute. reflexivity. Qed.
Example C86_case_documented : exists out, ex_util ["--help"]%string = Ok out /\ o_text out <> util_documented.
Proof.
  apply (ex_thm C86_documented_refuted ["--help"]%string [EvScan 0 None] []).
  - apply program_call; vm_compute; reflexivity.
  - args_short.
  - apply safe_values; vm_compute; reflexivity.
  - ex_read.
  - discriminate.
Qed.
Example C86_case_version : exists out, ex_util ["--version"]%string = Ok out /\ complains "util.exe" (o_text out) /\ o_code out = 1.
Proof.
  destruct (ex_thm C86_version_refuted ["--version"]%string [EvScan 1 None] []) as (out & E & H & _).
  - apply program_call; vm_compute; reflexivity.
  - args_short.
  - apply safe_values; vm_compute; reflexivity.
  - ex_read.
  - discriminate.
  - reflexivity.
  - exists out. split; [exact E|]. apply H. reflexivity.
Qed.
Notation crowd := (List.repeat "f"%string 101).
Example C86_case_many_files : exists out, ex_util crowd = Ok out /\ complains "util.exe" (o_text out) /\ o_code out = 1.
Proof.
  apply (C86_many_files_refuted ExTable.strtod ExTable.rexmatch unix_seps no_strftime ex_contract zero false (fun _ => "z"%char) (map lit crowd) ExTable.jo ExTable.jc ExTable.jp (S (total (map lit crowd))) 1
    (ExTable.heap0 ("util.exe"%string :: crowd)) ExTable.s0 (ExTable.en 20) (lit "util.exe")).
  - apply program_call; vm_compute; reflexivity.
  - intros a Ha. apply in_map_iff in Ha as (x & <- & Hx). apply repeat_spec in Hx. subst x. vm_compute. discriminate.
  - apply safe_values; vm_compute; reflexivity.
  - apply Forall_forall. intros a Ha. apply in_map_iff in Ha as (x & <- & Hx). apply repeat_spec in Hx. subst x. intros cs K. discriminate.
  - vm_compute. reflexivity.
Qed.

Print Assumptions C86_util.
Print Assumptions C86_documented_refuted.
Print Assumptions C86_version_refuted.
Print Assumptions C86_many_files_refuted.
