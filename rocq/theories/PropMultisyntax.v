(** C80, continued: the example program with four syntaxes, for every command line. *)
From Verif Require Import Base IntModel IntSpec IntProofs FileModel FileSpec DateModel DateSpec GetoptModel ParseModel ParseSpec GetoptProofs ParseIdeal ParseProofs ParseFacts ParseObserve ParseSafe ParseLemmas ArgModel KindsSpec KindsProofs PropKinds CommandSpec CommandProofs PropCommand ReportSpec ReportProofs PropReport.
From Verif Require Import MemModel DstrModel PrintModel PrintProofs PrintFacts ErrorSpec ErrorProofs PropErrors ProgramModel MultiModel PropProgram PropSyntaxes.
From Verif Require ReparseProofs PropParse PropSeveral PrintSpec PropPrint PropTable TableModel PropConvey RexModel PropRex ExTable.
From Coq Require Import ZArith List Ascii String Bool Lia.
Import ListNotations.
Open Scope Z_scope.

Section Multi.
Context {D : Type}.
Context (strtod : str -> D * nat).
Context (sp : seps).
Context (strftime : str -> tm -> option str).
Hypothesis Hd : strtod_contract strtod.
Notation lm := Long64.
Notation trex := RexModel.trex.
Notation table := (list (entry (body D))).
Notation shared := (shared strtod trex lm sp).
Notation satisfied := (satisfied strtod trex lm sp).
Notation acceptable := (acceptable strtod trex lm sp).
Notation reached := (reached strtod trex lm sp).
Notation report := (report strtod trex lm sp).
Notation holds := (ReportSpec.holds strtod trex lm sp).
Notation valued := (valued strtod trex sp).
Notation safe_value := (safe_value lm).
Notation parse := (karg_parse strtod trex lm sp).
Notation multisyntax := (multisyntax strtod trex lm sp strftime).

(** The tables with their preset values. *)
Notation tab1 argc := (set_output 5 (multi1 (D := D) argc)).
Notation tab2 := (multi2 (D := D)).
Notation tab3 := (set_output 3 (multi3 (D := D))).
Notation tab4 := (multi4 (D := D)).

(** ** Specification *)
(** No mistake in the spelling of the options, and each of [options] at most once. *)
Definition flawless (options : list nat) (evs : list event) : Prop :=
  (forall c v, ~ In (EvErr c v) evs) /\ forall i, In i options -> zlen (occurrences i evs) <= 1.
(** The command line is right for: insert [-nvR] <file> [<file>]... [-o <output>]; remove [-nv] <file>;
    search [-v] <pattern> [-o <output>]; [--help] [--version]. The numbers are the places of the entries in the tables. *)
Definition insert_right (evs : list event) (pos : list str) : Prop := flawless [1; 2; 3; 5]%nat evs /\ exists f files, pos = lit "insert" :: f :: files.
Definition remove_right (evs : list event) (pos : list str) : Prop := flawless [1; 2]%nat evs /\ exists f, pos = [lit "remove"; f].
Definition search_right (evs : list event) (pos : list str) : Prop := flawless [1; 3]%nat evs /\ exists p, pos = [lit "search"; p].
Definition plain_right (evs : list event) (pos : list str) : Prop := flawless [0; 1]%nat evs /\ pos = [].

Definition show_count (head : string) (i : nat) (evs : list event) : str := lit head ++ PropConvey.decimal (zlen (occurrences i evs)) ++ [NL].
(** The value of the last option for the output file, or a dash. *)
Definition output_of (i : nat) (evs : list event) : str := match texts i evs with [] => lit "-" | x :: _ => x end.
Definition insert_prints (evs : list event) (files : list str) : str :=
  ln "syntax 1 matched OK:" ++ show_count "n=" 1 evs ++ show_count "v=" 2 evs ++ show_count "R=" 3 evs ++
  lit "outfile=""" ++ output_of 5 evs ++ ln """" ++ listed 0 files.
Definition remove_prints (evs : list event) (file : str) : str :=
  ln "syntax 2 matched OK:" ++ show_count "n=" 1 evs ++ show_count "v=" 2 evs ++ lit "infile=""" ++ file ++ ln """".
Definition search_prints (evs : list event) (pattern : str) : str :=
  ln "syntax 3 matched OK:" ++ show_count "v=" 1 evs ++ lit "pattern=""" ++ pattern ++ ln """" ++ lit "outfile=""" ++ output_of 3 evs ++ ln """".
Definition line1 : str := ln " [-nvR] insert <file> [<file>]... [-o <output>]".
Definition line2 : str := ln " [-nv] remove <file>".
Definition line3 : str := ln " [-v] search <pattern> [-o <output>]".
Definition line4 : str := ln " [--help] [--version]".
Definition multi_usage : str :=
  lit "Usage: multisyntax" ++ line1 ++ lit "       multisyntax" ++ line2 ++ lit "       multisyntax" ++ line3 ++ lit "       multisyntax" ++ line4 ++
  ln "This program demonstrates the use of the argtable2 library" ++ ln "for parsing multiple command line syntaxes." ++
  ln "      -n                   take no action" ++
  ln "      -v, --verbose        verbose messages" ++
  ln "      -R                   recurse through subdirectories" ++
  ln "      <file>               input file(s)" ++
  ln "      -o <output>          output file (default is ""-"")" ++
  ln "      <pattern>            search string" ++
  ln "      --help               print this help and exit" ++
  ln "      --version            print version information and exit".
Definition multi_version : str := ln "'multisyntax' example program for the ""argtable"" command line argument parser.".
Definition multi_hint : str := ln "Try 'multisyntax --help' for more information.".
Definition multi_missing : str :=
  ln "multisyntax: missing <insert|remove|search> command." ++ lit "usage 1: multisyntax " ++ line1 ++ lit "usage 2: multisyntax " ++ line2 ++
  lit "usage 3: multisyntax " ++ line3 ++ lit "usage 4: multisyntax" ++ line4.
(** The messages for the errors that this table finds in the command line (C61, C43), then the syntax. *)
Definition corrects (tab : table) (evs : list event) (pos : list str) (line out : str) : Prop :=
  exists held errs msgs, report tab evs pos held errs /\ errs <> [] /\ Forall2 (message strftime (lit "multisyntax") (table_sig tab)) (shown 20 errs) msgs /\
  out = List.concat msgs ++ lit "usage: multisyntax " ++ line.
Definition first_word (w : string) (pos : list str) : Prop := exists more, pos = lit w :: more.

(** ** Proofs *)
(** *** Agreement *)
Lemma agree12 argc : agree (map e_hdr (tab1 argc)) (map e_hdr tab2). Proof. apply agreeb_sound. vm_compute. reflexivity. Qed.
Lemma agree13 argc : agree (map e_hdr (tab1 argc)) (map e_hdr tab3). Proof. apply agreeb_sound. vm_compute. reflexivity. Qed.
Lemma agree14 argc : agree (map e_hdr (tab1 argc)) (map e_hdr tab4). Proof. apply agreeb_sound. vm_compute. reflexivity. Qed.
Lemma agree23 : agree (map e_hdr tab2) (map e_hdr tab3). Proof. apply agreeb_sound. vm_compute. reflexivity. Qed.
Lemma agree24 : agree (map e_hdr tab2) (map e_hdr tab4). Proof. apply agreeb_sound. vm_compute. reflexivity. Qed.
Lemma agree34 : agree (map e_hdr tab3) (map e_hdr tab4). Proof. apply agreeb_sound. vm_compute. reflexivity. Qed.

(** *** Command words *)
Notation command w := (arg_rex1 (D := D) None None (lit w) None REG_ICASE None).
Lemma command_matches w a : Forall PropRex.ordinary (lit w) -> lit w <> [] -> 2 * zlen (lit w) <= INT_MAX -> (trex (lit w) REG_ICASE a = Ok true <-> a = lit w).
Proof.
  intros O N L. destruct (PropRex.C25_literal (lit w) REG_ICASE a N O L) as (b & E & B). change (PropRex.ignore_case REG_ICASE) with false in B. rewrite PropRex.reads_exact in B.
  rewrite E. rewrite <- B. split; congruence.
Qed.
Definition plain_word (w : string) : Prop := Forall PropRex.ordinary (lit w) /\ lit w <> [] /\ 2 * zlen (lit w) <= INT_MAX.
Lemma command_acceptable w run : plain_word w -> zlen run <= 1 -> (acceptable (command w) (map Some run) <-> run = [] \/ run = [lit w]).
Proof.
  intros (O & N & L) Hl. split.
  - intros (l & _ & H). destruct run as [|a [|b run]]; [auto| |rewrite !zlen_cons in Hl; pose proof (zlen_nonneg run); lia]. right. specialize (H 0%nat). cbn [map nth_error] in H.
    destruct H as (v0 & v & _ & _ & Hm & _). f_equal. apply (command_matches w a O N L). exact Hm.
  - intros H. apply stored_reset_size; [discriminate|exact Hl|]. intros x v0 Hx. destruct H as [->| ->]; [contradiction|]. destruct Hx as [<-|[]]. exists (VText (lit w)). split; [|reflexivity]. apply (command_matches w (lit w) O N L). reflexivity.
Qed.
Lemma command_satisfied w run : plain_word w -> (satisfied (command w) (map Some run) <-> run = [lit w]).
Proof.
  intros W. assert (E : zlen (map Some run) = zlen run) by (unfold zlen; rewrite map_length; reflexivity). split.
  - intros H. destruct H as (H1 & H2); [discriminate|]. cbn in H1. apply (command_acceptable w run W) in H2 as [->|H2]; [cbn in H1; lia|exact H2|lia].
  - intros -> _. split; [cbn; lia|]. apply (command_acceptable w [lit w] W); [cbn; lia|auto].
Qed.

Ltac plain_tac := split; [|split; [discriminate|vm_compute; discriminate]]; repeat (apply Forall_cons; [split; [reflexivity|PropRex.neg_in]|]); constructor.
Lemma insert_plain : plain_word "insert". Proof. plain_tac. Qed.
Lemma remove_plain : plain_word "remove". Proof. plain_tac. Qed.
Lemma search_plain : plain_word "search". Proof. plain_tac. Qed.

(** *** A command word, then other positional arguments in entry [k] *)
Definition runs_at (n k : nat) (w : str) (more : list str) : list (list str) :=
  map (fun i => if Nat.eqb i 0 then [w] else if Nat.eqb i k then more else []) (seq 0 n).
Lemma runs_at_nth n k w more i : (i < n)%nat -> nth_error (runs_at n k w more) i = Some (if Nat.eqb i 0 then [w] else if Nat.eqb i k then more else []).
Proof.
  intros H. unfold runs_at. rewrite nth_error_map. assert (E : nth_error (seq 0 n) i = Some i) by (rewrite (nth_error_nth' _ 0%nat) by (rewrite seq_length; auto); rewrite seq_nth by auto; reflexivity). rewrite E. reflexivity.
Qed.
Section Two.
Context (w : string) (tab : table) (k : nat) (e : entry (body D)).
Hypothesis W : plain_word w.
Hypothesis H0 : nth_error tab 0 = Some (command w).
Hypothesis Hk : nth_error tab k = Some e.
Hypothesis He : no_options (e_hdr e) /\ kcount (e_body e) <> None.
Hypothesis Ho : forall i x, nth_error tab i = Some x -> i <> 0%nat -> i <> k -> ~ no_options (e_hdr x).
Hypothesis Hc : forall more, List.concat (runs_at (List.length tab) k (lit w) more) = lit w :: more.
Hypothesis Hs : forall more, List.concat (skipn (S k) (runs_at (List.length tab) k (lit w) more)) = [].
Hypothesis Hk0 : k <> 0%nat.

Lemma two_runs posix rest os pos runs : spells (map e_hdr tab) posix rest os pos -> shared tab os pos runs ->
  exists more, pos = lit w :: more /\ runs = runs_at (List.length tab) k (lit w) more /\ satisfied e (map Some more) /\ forall i x, nth_error tab i = Some x -> i <> 0%nat -> i <> k -> satisfied x (given_to i os).
Proof.
  intros Sp (E & L & H). assert (G0 : given_to 0 os = []) by (eapply (given_none tab); [exact Sp|exact H0|split; reflexivity]).
  assert (Gk : given_to k os = []) by (eapply (given_none tab); [exact Sp|exact Hk|apply He]).
  assert (N0 : (0 < List.length tab)%nat) by (apply nth_error_Some; congruence). assert (Nk : (k < List.length tab)%nat) by (apply nth_error_Some; congruence).
  destruct (nth_error runs 0) as [r0|] eqn:E0; [|apply nth_error_None in E0; lia]. destruct (nth_error runs k) as [more|] eqn:Ek; [|apply nth_error_None in Ek; lia].
  destruct (H _ _ _ H0 E0) as (_ & S0 & _). rewrite G0 in S0. apply (command_satisfied w r0 W) in S0. subst r0.
  destruct (H _ _ _ Hk Ek) as (_ & Sk & _). rewrite Gk in Sk. cbn [app] in Sk. exists more.
  assert (R : runs = runs_at (List.length tab) k (lit w) more).
  { apply nth_error_ext. intros i. destruct (Nat.lt_ge_cases i (List.length tab)) as [Hi|Hi].
    - rewrite runs_at_nth by auto. destruct (Nat.eqb_spec i 0) as [->|]; [exact E0|]. destruct (Nat.eqb_spec i k) as [->|]; [exact Ek|].
      destruct (nth_error runs i) as [r|] eqn:Er; [|apply nth_error_None in Er; lia]. destruct (nth_error tab i) as [x|] eqn:Ex; [|apply nth_error_None in Ex; lia].
      destruct (H _ _ _ Ex Er) as (H1 & _). destruct r; [reflexivity|]. exfalso. apply (Ho i x Ex); auto. apply H1. discriminate.
    - rewrite !(proj2 (nth_error_None _ _)); auto; [unfold runs_at; rewrite map_length, seq_length; auto|lia]. }
  split; [rewrite E, R; apply Hc|]. split; [exact R|]. split; [exact Sk|]. intros i x Hx Hi Hi'. assert ((i < List.length tab)%nat) by (apply nth_error_Some; congruence).
  assert (Er : nth_error runs i = Some []) by (rewrite R, runs_at_nth by auto; destruct (Nat.eqb_spec i 0); [contradiction|]; destruct (Nat.eqb_spec i k); [contradiction|reflexivity]).
  destruct (H _ _ _ Hx Er) as (_ & S & _). cbn [map] in S. rewrite app_nil_r in S. exact S.
Qed.
Lemma two_shared posix rest os more : spells (map e_hdr tab) posix rest os (lit w :: more) -> satisfied e (map Some more) ->
  (forall i x, nth_error tab i = Some x -> i <> 0%nat -> i <> k -> satisfied x (given_to i os)) -> shared tab os (lit w :: more) (runs_at (List.length tab) k (lit w) more).
Proof.
  intros Sp Sk Sx. assert (G0 : given_to 0 os = []) by (eapply (given_none tab); [exact Sp|exact H0|split; reflexivity]).
  assert (Gk : given_to k os = []) by (eapply (given_none tab); [exact Sp|exact Hk|apply He]).
  split; [symmetry; apply Hc|]. split; [unfold runs_at; rewrite map_length, seq_length; reflexivity|]. intros i x run Hx Hr.
  assert ((i < List.length tab)%nat) by (apply nth_error_Some; congruence). rewrite runs_at_nth in Hr by auto. cbv zeta.
  destruct (Nat.eqb_spec i 0) as [->|N0].
  - injection Hr as <-. rewrite H0 in Hx. injection Hx as <-. rewrite G0. cbn [app]. split; [split; [split; reflexivity|discriminate]|]. split; [apply (command_satisfied w [lit w] W); reflexivity|].
    intros _ a _ (_ & K & _). cbn in K. lia.
  - destruct (Nat.eqb_spec i k) as [->|Nk].
    + injection Hr as <-. rewrite Hk in Hx. injection Hx as <-. rewrite Gk. cbn [app]. split; [auto|]. split; [exact Sk|]. intros _ a. rewrite Hs. discriminate.
    + injection Hr as <-. cbn [map]. rewrite app_nil_r. split; [congruence|]. split; [apply Sx; auto|]. intros K. exfalso. exact (Ho i x Hx N0 Nk K).
Qed.
Lemma no_occurrences posix rest evs pos i x : reading (map e_hdr tab) posix rest evs pos -> nth_error tab i = Some x -> no_options (e_hdr x) -> occurrences i evs = [].
Proof.
  intros Hr Hi Hn. destruct (occurrences i evs) as [|v l] eqn:E; auto. exfalso. assert (Hin : In v (occurrences i evs)) by (rewrite E; left; auto). clear E.
  apply reading_iff in Hr. pose proof (ReparseProofs.read_args_dispatched (map e_hdr tab) posix rest) as Hd'. rewrite Hr in Hd'. cbn [fst] in Hd'.
  unfold occurrences in Hin. apply in_flat_map in Hin as ([j u|c u] & Hv & Hin); [|contradiction]. destruct (Nat.eqb_spec j i) as [->|]; [|contradiction].
  rewrite Forall_forall in Hd'. destruct (Hd' _ Hv) as (h & Hh & Ho' & _). rewrite nth_error_map, Hi in Hh. injection Hh as <-. auto.
Qed.
(** The command word is counted exactly if it is the first positional argument. *)
Lemma command_count posix rest evs pos held errs tab' : reading (map e_hdr tab) posix rest evs pos -> report tab evs pos held errs -> holds tab held tab' ->
  exists n, count_of tab' 0 = Ok n /\ (0 < n <-> first_word w pos).
Proof.
  intros Hr (runs & left & e1 & e2 & _ & (E & L1 & L2 & H) & _) (L3 & Hh).
  assert ((0 < List.length tab)%nat) by (apply nth_error_Some; congruence).
  destruct (nth_error runs 0) as [run|] eqn:Er; [|apply nth_error_None in Er; lia]. destruct (nth_error held 0) as [ws|] eqn:Ew; [|apply nth_error_None in Ew; lia].
  destruct (nth_error tab' 0) as [e'|] eqn:Ee; [|apply nth_error_None in Ee; lia].
  assert (Hcn : counting (command w)) by discriminate.
  destruct (H _ _ _ _ H0 Er Ew) as (_ & _ & H2). destruct (H2 Hcn) as ((ws0 & K & ->) & Hz & Ha & Hg). rewrite (no_occurrences _ _ _ _ _ _ Hr H0) in K by (split; reflexivity).
  assert (ws0 = []) as ->. { remember (@nil (option str)) as vs eqn:Ev. destruct K; auto; destruct vs; discriminate. }
  cbn [app] in *. assert (Hm : zlen (map Some run) = zlen run) by (unfold zlen; rewrite map_length; reflexivity). rewrite Hm in Hz. cbn in Hz.
  destruct (Hh _ _ _ _ H0 Ew Ee) as [_ Hh']. destruct (Hh' Hcn) as [Hn _]. exists (zlen run). split; [unfold count_of; rewrite Ee; cbn; rewrite Hn; f_equal; exact Hm|].
  destruct runs as [|r0 runs]; [discriminate|]. injection Er as ->. apply (command_acceptable w run W Hz) in Ha as [->| ->].
  - split; [cbn; lia|]. intros (more & ->). exfalso. cbn [List.concat app] in E. apply (Hg (conj eq_refl eq_refl) (lit w)); [cbn [skipn]; rewrite <- E; reflexivity|].
    split; [cbn; lia|]. cbn [map app]. apply (command_acceptable w [lit w] W); [cbn; lia|auto].
  - split; [|cbn; lia]. intros _. exists (List.concat runs ++ left). rewrite E. reflexivity.
Qed.
End Two.

(** *** The other entries *)
Lemma map_some_length (ss : list str) : zlen (map Some ss) = zlen ss.
Proof. unfold zlen. rewrite map_length. reflexivity. Qed.
Lemma out_satisfied so lo dt gl ss : satisfied (set_default (arg_file0 so lo dt gl)) (map Some ss) <-> zlen ss <= 1.
Proof.
  unfold satisfied. rewrite map_some_length. split.
  - intros H. apply H. discriminate.
  - intros H _. split; [cbn; pose proof (zlen_nonneg ss); lia|]. apply stored_reset_size; [discriminate|match goal with |- _ <= ?x => change x with 1 end; lia|]. intros x v0 _. apply file_denotes.
Qed.
Lemma one_of (ss : list str) : 1 <= zlen ss <= 1 <-> exists x, ss = [x].
Proof.
  split; [|intros (x & ->); cbn; lia]. intros H. destruct ss as [|x [|y ss]]; [cbn in H; lia|eauto|]. rewrite !zlen_cons in H. pose proof (zlen_nonneg ss). lia.
Qed.
Lemma file1_satisfied so lo dt gl ss : satisfied (arg_file1 so lo dt gl) (map Some ss) <-> exists x, ss = [x].
Proof.
  rewrite <- one_of. unfold satisfied. rewrite map_some_length. split.
  - intros H. apply H. discriminate.
  - intros H _. split; [cbn; lia|]. apply stored_reset_size; [discriminate|match goal with |- _ <= ?x => change x with 1 end; lia|]. intros x v0 _. apply file_denotes.
Qed.
Lemma str1_satisfied so lo dt gl ss : satisfied (arg_str1 so lo dt gl) (map Some ss) <-> exists x, ss = [x].
Proof.
  rewrite <- one_of. unfold satisfied. rewrite map_some_length. split.
  - intros H. apply H. discriminate.
  - intros H _. split; [cbn; lia|]. apply stored_reset_size; [discriminate|match goal with |- _ <= ?x => change x with 1 end; lia|]. intros x v0 _. exists (VText x). reflexivity.
Qed.
Lemma texts_given (tab : table) posix rest os pos i e : spells (map e_hdr tab) posix rest os pos -> nth_error tab i = Some e -> h_hasvalue (e_hdr e) = true -> h_hasoptvalue (e_hdr e) = false ->
  given_to i os = map Some (texts i (evs_of os)).
Proof.
  intros Hs He H1 H2. destruct (all_some (given_to i os)) as (ss & E).
  - intros v Hv K. destruct (given_dispatched tab posix rest os pos i v Hs Hv) as (e' & He' & _ & Hn & _). specialize (Hn K). rewrite He in He'. injection He' as <-. destruct Hn; congruence.
  - unfold texts. rewrite given_evs, E. f_equal. clear E. induction ss; [reflexivity|]. cbn. congruence.
Qed.
Lemma out_value (tab : table) posix rest os pos runs tab' i so lo dt gl : let e := set_default (arg_file0 so lo dt gl) in
  spells (map e_hdr tab) posix rest os pos -> valued tab os runs tab' -> nth_error tab i = Some e -> nth_error runs i = Some [] ->
  first_text tab' i = Ok (output_of i (evs_of os)).
Proof.
  intros e Hs Hv Hi Hr. pose proof (texts_given tab posix rest os pos i e Hs Hi eq_refl eq_refl) as T.
  destruct (proj2 Hv i e [] Hi Hr) as (e' & Hi' & _ & Hc). pose proof (valued_sig strtod trex sp _ _ _ _ i e _ Hv Hi Hi') as Hsg.
  destruct Hc as (_ & _ & Hc); [discriminate|]. specialize (Hc 0%nat). rewrite T, app_nil_r in Hc. unfold first_text, texts_of, output_of. rewrite Hi'. cbn [option_map].
  destruct (e_body e') as [| | | |p'| | |] eqn:Eb'; try discriminate. change (Z.to_nat 1) with 1%nat. destruct (texts i (evs_of os)) as [|x l]; cbn [map nth_error e_body e set_default arg_file0 arg_filen mkentry] in Hc.
  - change (nth_error (files (D := D) (file_name p') (file_base p') (file_ext p')) 0 = Some (VFile (lit "-") [] [])) in Hc. apply files_nth in Hc. destruct (file_name p') as [|y l]; [discriminate|]. injection Hc as ->. reflexivity.
  - destruct Hc as (v0 & v & _ & Hn & bn & ex & _ & _ & ->). change (nth_error (files (D := D) (file_name p') (file_base p') (file_ext p')) 0 = Some (VFile x bn ex)) in Hn. apply files_nth in Hn. destruct (file_name p') as [|y l']; [discriminate|]. injection Hn as ->. reflexivity.
Qed.
Lemma flawless_of os options : flawless options (evs_of os) <-> forall i, In i options -> zlen (given_to i os) <= 1.
Proof.
  split.
  - intros [_ H] i Hi. rewrite <- given_evs. auto.
  - intros H. split; [intros c v K; unfold evs_of in K; apply in_map_iff in K as (? & ? & _); discriminate|]. intros i Hi. rewrite given_evs. auto.
Qed.
Lemma flawless_os options evs : flawless options evs -> exists os, evs = evs_of os.
Proof. intros [H _]. apply no_mistake. exact H. Qed.
Lemma number_count head i os : number head (zlen (given_to i os)) = show_count head i (evs_of os).
Proof. unfold number, show_count. rewrite given_evs. reflexivity. Qed.

(** *** Syntax 1 *)
Ltac two_tac k := first [exact insert_plain|exact remove_plain|exact search_plain|reflexivity|discriminate|split; [split; reflexivity|discriminate]
  |intros i x Hx N1 N2; do 6 (destruct i as [|i]; [first [congruence|discriminate Hx|injection Hx as <-; intros [K1 K2]; discriminate]|]); destruct i; discriminate
  |intros more; cbn; rewrite ?app_nil_r; reflexivity].
Definition files1 (argc : Z) : entry (body D) := arg_filen None None None 1 (argc + 2) (Some (lit "input file(s)")).
Lemma shared1 posix rest os pos argc : argc = Z.succ (zlen rest) -> spells (map e_hdr (tab1 argc)) posix rest os pos ->
  ((exists runs, shared (tab1 argc) os pos runs) <-> insert_right (evs_of os) pos).
Proof.
  intros Ha Hs. assert (Hr : reading (map e_hdr (tab1 argc)) posix rest (evs_of os) pos) by (apply reading_iff, spells_iff; exact Hs). apply reading_shorter in Hr.
  pose proof (texts_given (tab1 argc) posix rest os pos 5 _ Hs eq_refl eq_refl eq_refl) as T5. assert (Z5 : zlen (given_to 5 os) = zlen (texts 5 (evs_of os))) by (rewrite T5; apply map_some_length).
  unfold insert_right. rewrite flawless_of. split.
  - intros (runs & H). destruct (two_runs "insert" (tab1 argc) 4 (files1 argc)) with (8 := Hs) (9 := H) as (more & -> & _ & Sk & Sx); try two_tac 4.
    split.
    + intros i Hi. repeat (destruct Hi as [<-|Hi]; [first
        [match goal with |- zlen (given_to ?k _) <= _ => pose proof (Sx k _ eq_refl ltac:(discriminate) ltac:(discriminate)) as K; exact (proj1 (lit0_satisfied _ _ _ _ _ _ _) K) end
        |pose proof (Sx 5%nat _ eq_refl ltac:(discriminate) ltac:(discriminate)) as K; rewrite T5 in K; rewrite Z5; exact (proj1 (out_satisfied _ _ _ _ _) K)]|]). contradiction.
    + apply files_satisfied in Sk; [|unfold zlen in *; cbn in Hr; lia..]. destruct more as [|f files]; [congruence|eauto].
  - intros (Hf & f & files & ->). exists (runs_at (List.length (tab1 argc)) 4 (lit "insert") (f :: files)). eapply (two_shared "insert" (tab1 argc) 4 (files1 argc)) with (posix := posix) (rest := rest); try two_tac 4; auto.
    + apply files_satisfied; [pose proof (zlen_nonneg rest); lia|unfold zlen in *; cbn [List.length] in *; lia|discriminate].
    + intros i x Hx N1 N2. do 6 (destruct i as [|i]; [try congruence; injection Hx as <-; first
        [apply lit0_satisfied; apply Hf; cbn; tauto|rewrite T5; apply out_satisfied; rewrite <- Z5; apply Hf; cbn; tauto]|]). destruct i; discriminate.
Qed.

Lemma count_given (tab : table) os runs tab' i e : valued tab os runs tab' -> nth_error tab i = Some e -> nth_error runs i = Some [] -> kcount (e_body e) <> None -> count_of tab' i = Ok (zlen (given_to i os)).
Proof. intros Hv He Hr Hk. rewrite (valued_count _ _ _ _ _ _ _ _ _ _ Hv He Hr Hk). cbn [map]. rewrite app_nil_r. reflexivity. Qed.
Lemma text_run (tab : table) os runs tab' i e run : valued tab os runs tab' -> nth_error tab i = Some e -> nth_error runs i = Some run -> textual (e_body e) -> given_to i os = [] -> texts_of tab' i (zlen run) = Ok run.
Proof. intros Hv He Hr Ht Hg. eapply (valued_texts strtod trex sp tab os runs tab' i e run); eauto. rewrite Hg. reflexivity. Qed.
Lemma works1 posix rest os pos argc runs t1 t2 t3 t4 e1 e2 e3 e4 : spells (map e_hdr (tab1 argc)) posix rest os pos -> shared (tab1 argc) os pos runs -> valued (tab1 argc) os runs t1 -> end_count e1 = 0 ->
  exists w files, pos = w :: files /\ multi_after t1 t2 t3 t4 e1 e2 e3 e4 = Ok [Text (insert_prints (evs_of os) files)].
Proof.
  intros Hs Hsh Hv Hz. destruct (two_runs "insert" (tab1 argc) 4 (files1 argc)) with (8 := Hs) (9 := Hsh) as (more & -> & -> & _ & _); try two_tac 4. exists (lit "insert"), more. split; [reflexivity|].
  assert (G : given_to 4 os = []) by (eapply (given_none (tab1 argc)); [exact Hs|reflexivity|split; reflexivity]).
  unfold multi_after. rewrite Hz. change (0 =? 0) with true. cbv iota.
  rewrite (count_given _ _ _ _ 1 _ Hv eq_refl eq_refl ltac:(discriminate)). cbn [bind]. rewrite (count_given _ _ _ _ 2 _ Hv eq_refl eq_refl ltac:(discriminate)). cbn [bind]. rewrite (count_given _ _ _ _ 3 _ Hv eq_refl eq_refl ltac:(discriminate)). cbn [bind].
  rewrite (out_value _ _ _ _ _ _ _ 5 _ _ _ _ Hs Hv eq_refl eq_refl). cbn [bind].
  rewrite (valued_count strtod trex sp _ _ _ _ 4 _ more Hv eq_refl eq_refl ltac:(discriminate)). cbn [bind]. rewrite G. cbn [app]. rewrite map_some_length, (text_run _ _ _ _ 4 _ more Hv eq_refl eq_refl I G). cbn [bind].
  unfold mymain1, insert_prints. rewrite !number_count, numbered_listed. unfold quoting. rewrite <- !app_assoc. reflexivity.
Qed.

(** *** Syntax 2 *)
Lemma shared2 posix rest os pos : spells (map e_hdr tab2) posix rest os pos -> ((exists runs, shared tab2 os pos runs) <-> remove_right (evs_of os) pos).
Proof.
  intros Hs. unfold remove_right. rewrite flawless_of. split.
  - intros (runs & H). destruct (two_runs "remove" tab2 3 (arg_file1 None None None None)) with (8 := Hs) (9 := H) as (more & -> & _ & Sk & Sx); try two_tac 3.
    split.
    + intros i Hi. repeat (destruct Hi as [<-|Hi]; [match goal with |- zlen (given_to ?k _) <= _ => pose proof (Sx k _ eq_refl ltac:(discriminate) ltac:(discriminate)) as K; exact (proj1 (lit0_satisfied _ _ _ _ _ _ _) K) end|]). contradiction.
    + apply file1_satisfied in Sk as (f & ->). eauto.
  - intros (Hf & f & ->). exists (runs_at (List.length tab2) 3 (lit "remove") [f]). eapply (two_shared "remove" tab2 3 (arg_file1 None None None None)) with (posix := posix) (rest := rest); try two_tac 3; auto.
    + apply file1_satisfied. eauto.
    + intros i x Hx N1 N2. do 4 (destruct i as [|i]; [try congruence; injection Hx as <-; apply lit0_satisfied; apply Hf; cbn; tauto|]). destruct i; discriminate.
Qed.
Lemma works2 posix rest os pos runs t1 t2 t3 t4 e1 e2 e3 e4 : spells (map e_hdr tab2) posix rest os pos -> shared tab2 os pos runs -> valued tab2 os runs t2 -> end_count e1 <> 0 -> end_count e2 = 0 ->
  exists w file, pos = [w; file] /\ multi_after t1 t2 t3 t4 e1 e2 e3 e4 = Ok [Text (remove_prints (evs_of os) file)].
Proof.
  intros Hs Hsh Hv Hn Hz. destruct (two_runs "remove" tab2 3 (arg_file1 None None None None)) with (8 := Hs) (9 := Hsh) as (more & -> & -> & Sk & _); try two_tac 3. apply file1_satisfied in Sk as (f & ->). exists (lit "remove"), f. split; [reflexivity|].
  assert (G : given_to 3 os = []) by (eapply (given_none tab2); [exact Hs|reflexivity|split; reflexivity]).
  unfold multi_after. destruct (Z.eqb_spec (end_count e1) 0); [contradiction|]. rewrite Hz. change (0 =? 0) with true. cbv iota.
  rewrite (count_given _ _ _ _ 1 _ Hv eq_refl eq_refl ltac:(discriminate)). cbn [bind]. rewrite (count_given _ _ _ _ 2 _ Hv eq_refl eq_refl ltac:(discriminate)). cbn [bind].
  unfold first_text. change 1 with (zlen [f]) at 1. rewrite (text_run _ _ _ _ 3 _ [f] Hv eq_refl eq_refl I G). cbn [bind].
  unfold mymain2, remove_prints. rewrite !number_count. unfold quoting. rewrite <- ?app_assoc. reflexivity.
Qed.

(** *** Syntax 3 *)
Lemma shared3 posix rest os pos : spells (map e_hdr tab3) posix rest os pos -> ((exists runs, shared tab3 os pos runs) <-> search_right (evs_of os) pos).
Proof.
  intros Hs. pose proof (texts_given tab3 posix rest os pos 3 _ Hs eq_refl eq_refl eq_refl) as T3. assert (Z3 : zlen (given_to 3 os) = zlen (texts 3 (evs_of os))) by (rewrite T3; apply map_some_length).
  unfold search_right. rewrite flawless_of. split.
  - intros (runs & H). destruct (two_runs "search" tab3 2 (arg_str1 None None (Some (lit "<pattern>")) (Some (lit "search string")))) with (8 := Hs) (9 := H) as (more & -> & _ & Sk & Sx); try two_tac 2.
    split.
    + intros i Hi. repeat (destruct Hi as [<-|Hi]; [first
        [match goal with |- zlen (given_to ?k _) <= _ => pose proof (Sx k _ eq_refl ltac:(discriminate) ltac:(discriminate)) as K; exact (proj1 (lit0_satisfied _ _ _ _ _ _ _) K) end
        |pose proof (Sx 3%nat _ eq_refl ltac:(discriminate) ltac:(discriminate)) as K; rewrite T3 in K; rewrite Z3; exact (proj1 (out_satisfied _ _ _ _ _) K)]|]). contradiction.
    + apply str1_satisfied in Sk as (f & ->). eauto.
  - intros (Hf & f & ->). exists (runs_at (List.length tab3) 2 (lit "search") [f]). eapply (two_shared "search" tab3 2 (arg_str1 None None (Some (lit "<pattern>")) (Some (lit "search string")))) with (posix := posix) (rest := rest); try two_tac 2; auto.
    + apply str1_satisfied. eauto.
    + intros i x Hx N1 N2. do 4 (destruct i as [|i]; [try congruence; injection Hx as <-; first
        [apply lit0_satisfied; apply Hf; cbn; tauto|rewrite T3; apply out_satisfied; rewrite <- Z3; apply Hf; cbn; tauto]|]). destruct i; discriminate.
Qed.
Lemma works3 posix rest os pos runs t1 t2 t3 t4 e1 e2 e3 e4 : spells (map e_hdr tab3) posix rest os pos -> shared tab3 os pos runs -> valued tab3 os runs t3 -> end_count e1 <> 0 -> end_count e2 <> 0 -> end_count e3 = 0 ->
  exists w pattern, pos = [w; pattern] /\ multi_after t1 t2 t3 t4 e1 e2 e3 e4 = Ok [Text (search_prints (evs_of os) pattern)].
Proof.
  intros Hs Hsh Hv Hn1 Hn2 Hz. destruct (two_runs "search" tab3 2 (arg_str1 None None (Some (lit "<pattern>")) (Some (lit "search string")))) with (8 := Hs) (9 := Hsh) as (more & -> & -> & Sk & _); try two_tac 2. apply str1_satisfied in Sk as (f & ->). exists (lit "search"), f. split; [reflexivity|].
  assert (G : given_to 2 os = []) by (eapply (given_none tab3); [exact Hs|reflexivity|split; reflexivity]).
  unfold multi_after. destruct (Z.eqb_spec (end_count e1) 0); [contradiction|]. destruct (Z.eqb_spec (end_count e2) 0); [contradiction|]. rewrite Hz. change (0 =? 0) with true. cbv iota.
  rewrite (count_given _ _ _ _ 1 _ Hv eq_refl eq_refl ltac:(discriminate)). cbn [bind].
  assert (F : first_text t3 2 = Ok f) by (unfold first_text; change 1 with (zlen [f]) at 1; rewrite (text_run _ _ _ _ 2 _ [f] Hv eq_refl eq_refl I G); reflexivity).
  rewrite F. cbn [bind]. rewrite (out_value _ _ _ _ _ _ _ 3 _ _ _ _ Hs Hv eq_refl eq_refl). cbn [bind].
  unfold mymain3, search_prints. rewrite !number_count. unfold quoting. rewrite <- ?app_assoc. reflexivity.
Qed.

(** *** Syntax 4 *)
Lemma tab4_options : Forall (fun e => ~ no_options (e_hdr e)) tab4.
Proof. repeat (apply Forall_cons; [intros [K1 K2]; discriminate|]). constructor. Qed.
Lemma shared4 os pos : (exists runs, shared tab4 os pos runs) <-> plain_right (evs_of os) pos.
Proof.
  unfold plain_right. rewrite flawless_of. split.
  - intros (runs & H). destruct (shared_options _ _ _ _ _ _ _ tab4_options H) as (-> & ->). split; [|reflexivity]. destruct H as (_ & _ & H).
    intros i Hi. repeat (destruct Hi as [<-|Hi]; [match goal with |- zlen (given_to ?k _) <= _ => destruct (H k _ [] eq_refl eq_refl) as (_ & K & _); cbn [map] in K; rewrite app_nil_r in K; exact (proj1 (lit0_satisfied _ _ _ _ _ _ _) K) end|]). contradiction.
  - intros (H & ->). exists (repeat [] (List.length tab4)). apply options_shared; [apply tab4_options|].
    intros i e He. do 2 (destruct i as [|i]; [injection He as <-; apply lit0_satisfied; apply H; cbn; tauto|]). destruct i; discriminate.
Qed.
Lemma works4 os pos runs t1 t2 t3 t4 e1 e2 e3 e4 : shared tab4 os pos runs -> valued tab4 os runs t4 -> end_count e1 <> 0 -> end_count e2 <> 0 -> end_count e3 <> 0 -> end_count e4 = 0 ->
  multi_after t1 t2 t3 t4 e1 e2 e3 e4 = Ok (mymain4 (zlen (given_to 0 os)) (zlen (given_to 1 os)) t1 t2 t3 t4).
Proof.
  intros Hsh Hv Hn1 Hn2 Hn3 Hz. destruct (shared_options _ _ _ _ _ _ _ tab4_options Hsh) as (-> & ->).
  unfold multi_after. destruct (Z.eqb_spec (end_count e1) 0); [contradiction|]. destruct (Z.eqb_spec (end_count e2) 0); [contradiction|]. destruct (Z.eqb_spec (end_count e3) 0); [contradiction|]. rewrite Hz. change (0 =? 0) with true. cbv iota.
  rewrite (count_given _ _ _ _ 0 _ Hv eq_refl eq_refl ltac:(discriminate)). cbn [bind]. rewrite (count_given _ _ _ _ 1 _ Hv eq_refl eq_refl ltac:(discriminate)). cbn [bind]. reflexivity.
Qed.

(** *** Printing *)
Notation piece := (@piece D).
Definition delivers (p : piece) (t : str) : Prop :=
  match p with
  | Text x => x = t
  | _ => forall junk legacy, exists ops m, piece_ops strftime p = Ok ops /\ print_to junk legacy ops = Ok (t, m) /\ forall b, mget m b = None
  end.
Lemma print_all_ok junk legacy ps ts : Forall2 delivers ps ts -> exists ms, print_all strftime junk legacy ps = Ok (List.concat ts, ms) /\ Forall (fun m => forall b, mget m b = None) ms.
Proof.
  induction 1 as [|p t ps ts H _ (ms & E & F)]; [exists []; split; [reflexivity|constructor]|].
  destruct p as [x|tab|tab|tab en]; cbn [print_all delivers] in *.
  - subst x. rewrite E. cbn [bind]. exists ms. split; [reflexivity|exact F].
  - destruct (H junk legacy) as (ops & m & E1 & E2 & N). rewrite E1. cbn [bind]. rewrite E2. cbn [bind]. rewrite E. cbn [bind]. exists (m :: ms). split; [reflexivity|constructor; auto].
  - destruct (H junk legacy) as (ops & m & E1 & E2 & N). rewrite E1. cbn [bind]. rewrite E2. cbn [bind]. rewrite E. cbn [bind]. exists (m :: ms). split; [reflexivity|constructor; auto].
  - destruct (H junk legacy) as (ops & m & E1 & E2 & N). rewrite E1. cbn [bind]. rewrite E2. cbn [bind]. rewrite E. cbn [bind]. exists (m :: ms). split; [reflexivity|constructor; auto].
Qed.
Lemma six_good : PropPrint.good_format six_columns.
Proof.
  split; [cbn; lia|]. intros x g CS CG. cbn [gf_text six_columns]. unfold pad_right. repeat (apply cstr_app; split); auto; try clit.
  - intro K. apply repeat_spec in K. discriminate.
  - intros [K|[]]. discriminate.
Qed.
Definition printable (tab : table) : Prop :=
  Forall (fun e => PrintSpec.texts_ok (e_hdr e)) tab /\ Forall (fun e => PrintSpec.counts_ok (e_hdr e)) tab /\ Forall short_texts (map e_hdr tab) /\ zlen tab <= 1000.
Lemma syntax_delivers (tab tab' : table) line : printable tab -> map e_hdr tab' = map e_hdr tab -> PrintSpec.syntax_line brief_of (map e_hdr tab) ++ [NL] = line -> zlen line <= 1000000 -> delivers (Syntax tab') line.
Proof.
  intros (Tx & Ct & Sh & Ht) Hh Hl Hz. assert (Tx' : Forall PrintSpec.texts_ok (map e_hdr tab)) by (apply Forall_map; exact Tx). assert (Ct' : Forall PrintSpec.counts_ok (map e_hdr tab)) by (apply Forall_map; exact Ct).
  intros junk legacy. destruct (PropPrint.syntax_gives (map e_hdr tab) SEnd [] (Some [NL])) as (os1 & O1 & G1); auto; [left; reflexivity|intros [K|[]]; discriminate|].
  destruct (gives_writes _ _ _ (zlen (PrintSpec.syntax_line PropPrint.showb (map e_hdr tab) ++ [NL]) + 6 * zlen (map e_hdr tab) + 2) G1 ltac:(cbn [orempty]; lia)) as [W1 _].
  rewrite Forall_forall in Sh, Tx'. assert (E : PrintSpec.syntax_line PropPrint.showb (map e_hdr tab) = PrintSpec.syntax_line brief_of (map e_hdr tab)).
  { apply syntax_ext. intros hd Hi. apply shows_short; [apply Sh; auto|]. apply (PropPrint.showb_ok hd (Tx' hd Hi)). }
  cbn [orempty] in W1. rewrite E, Hl in W1. assert (zlen (map e_hdr tab) = zlen tab) as Em by (unfold zlen; rewrite map_length; reflexivity). rewrite Em in W1.
  destruct (W1 ltac:(lia) junk legacy) as (m & P & N). exists os1, m. split; [|auto]. cbn [piece_ops]. rewrite slots_table, Hh. exact O1.
Qed.
Lemma glossary_delivers (tab tab' : table) text : printable tab -> map e_hdr tab' = map e_hdr tab -> PropPrint.glossary_text (gf_text six_columns) verbose_of (map e_hdr tab) = text -> zlen text <= 1000000 -> delivers (Glossary tab') text.
Proof.
  intros (Tx & Ct & Sh & Ht) Hh Hl Hz. assert (Tx' : Forall PrintSpec.texts_ok (map e_hdr tab)) by (apply Forall_map; exact Tx).
  intros junk legacy. destruct (PropPrint.glossary_gives (map e_hdr tab) [] (Some six_columns)) as (os2 & O2 & G2); auto; [intros g [= <-]; exact six_good|].
  destruct (gives_writes _ _ _ _ G2 (Z.le_refl _)) as [W2 _]. rewrite Forall_forall in Sh, Tx'.
  assert (E : PropPrint.glossary_text (gf_text six_columns) (PropPrint.showv (lit ", ")) (map e_hdr tab) = text).
  { rewrite <- Hl. apply glossary_ext. intros hd Hi. apply shows_short; [apply Sh; auto|]. apply (PropPrint.showv_ok (lit ", ") hd (Tx' hd Hi)). clit. }
  rewrite E in W2. assert (zlen (PropPrint.described (map e_hdr tab)) <= zlen tab).
  { unfold PropPrint.described, zlen. rewrite <- (map_length e_hdr tab). apply Nat2Z.inj_le. generalize (map e_hdr tab). intros l. induction l as [|x l IH]; [auto|]. cbn [filter]. match goal with |- context [if ?c then _ else _] => destruct c end; cbn [List.length]; lia. }
  change (gf_len six_columns) with 15 in W2. destruct (W2 ltac:(lia) junk legacy) as (m & P & N). exists os2, m. split; [|auto]. cbn [piece_ops]. rewrite slots_table, Hh. exact O2.
Qed.

(** *** One parse *)
Definition dateless (tab : table) : Prop := Forall (fun e => match e_body e with KDate _ => False | _ => True end) tab.
Definition wrong_here (tab : table) (evs : list event) (pos : list str) (tab' : table) (en' : arg_end) : Prop :=
  exists held errs msgs, report tab evs pos held errs /\ errs <> [] /\ Forall2 (message strftime (lit "multisyntax") (table_sig tab)) (shown 20 errs) msgs /\ delivers (Errors tab' en') (List.concat msgs).
Lemma parsed posix (tab : table) rest jo jc jp fuel argv h0 h s en a0 evs pos :
  reached false tab -> call 20 tab en h0 argv a0 rest fuel -> (forall p b, nth_error h0 p = Some b -> nth_error h p = Some b) -> (forall a, In a rest -> zlen a <= 20000000) ->
  reading (map e_hdr tab) posix rest evs pos -> Forall (fun e => PrintSpec.texts_ok (e_hdr e)) tab -> dateless tab ->
  exists h' s' tab' en' held errs, parse posix jo jc jp fuel (zlen (a0 :: rest)) argv h s tab en = Ok (h', s', tab', en') /\ (forall p b, nth_error h0 p = Some b -> nth_error h' p = Some b) /\
    map e_hdr tab' = map e_hdr tab /\ report tab evs pos held errs /\ holds tab held tab' /\
    ((end_count en' = 0 /\ exists os runs, evs = evs_of os /\ spells (map e_hdr tab) posix rest os pos /\ shared tab os pos runs /\ valued tab os runs tab') \/
     (end_count en' <> 0 /\ (forall os runs, evs = evs_of os -> ~ shared tab os pos runs) /\ wrong_here tab evs pos tab' en')).
Proof.
  intros Ht Hc0 Hg Ha Hrd Tx Dl. pose proof (PropSeveral.call_grown fuel 20 tab en h0 h argv a0 rest Hc0 Hg) as Hc.
  assert (Hv : Forall (safe_value false) rest) by (eapply Forall_impl; [|exact (c_args _ _ _ _ _ _ _ _ Hc)]; intros a Ca; split; [exact Ca|discriminate]).
  destruct (C61_report strtod trex sp Hd false posix 20 tab rest jo jc jp fuel argv h s en a0 evs pos Ht Hc Hv Hrd) as (h' & s' & tab' & en' & held & errs & Ep & Hr & Hh & E1 & E2).
  assert (Hsig : table_sig tab' = table_sig tab /\ map e_hdr tab' = map e_hdr tab).
  { pose proof (reached_ready strtod trex lm sp Hd _ _ Ht) as Hrdy. destruct (parse_ok_safe strtod trex lm sp Hd _ _ _ _ _ _ _ _ _ _ _ _ _ _ _ _ _ _ Hrdy Hc Hv Ep) as (ev2 & p2 & er2 & Er2 & Ei2 & _ & _ & _ & Hm).
    split; [|exact Hm]. apply (parse_report strtod trex lm sp posix tab rest ev2 p2 tab' er2); auto. eapply Forall_impl; [|exact Hv]. intros x Hx. exact (proj1 Hx). }
  destruct Hsig as [Hsig Hm]. exists h', s', tab', en', held, errs. split; [exact Ep|].
  split; [intros p b Hb; exact (proj1 (PropParse.C05_argv_unchanged_nothing_leaked _ _ _ posix _ _ _ jo jc jp fuel _ h s _ _ h' s' tab' en' Hc Ep) p b (Hg p b Hb))|].
  split; [exact Hm|]. split; [exact Hr|]. split; [exact Hh|].
  destruct (Z.eq_dec (end_count en') 0) as [Hz|Hz].
  - left. split; [exact Hz|].
    destruct (proj1 (C59_accepted_iff strtod trex sp Hd false posix 20 tab rest jo jc jp fuel argv h s en a0 Ht Hc Hv)) as (os & pos' & runs & Hs & Hsh); [exists h', s', tab', en'; auto|].
    destruct (C59_accepted_values strtod trex sp Hd false posix 20 tab rest jo jc jp fuel argv h s en a0 os pos' runs Ht Hc Hv Hs Hsh) as (h2 & s2 & t2 & en2 & Ep2 & _ & Hval).
    rewrite Ep in Ep2. injection Ep2 as <- <- <- <-.
    assert (R : reading (map e_hdr tab) posix rest (evs_of os) pos') by (apply reading_iff, spells_iff; exact Hs).
    destruct (C61_reading_one_way _ _ _ _ _ _ _ Hrd R) as [-> <-]. exists os, runs. split; [reflexivity|]. split; [exact Hs|]. split; [exact Hsh|]. split; [exact Hsig|exact Hval].
  - right. split; [exact Hz|]. split.
    + intros os runs -> Hsh. assert (errs = []) as ->; [|change (zlen (@nil err)) with 0 in E1; cbn in E1; contradiction].
      eapply (shared_no_errors strtod trex sp Hd false posix tab rest jo jc jp fuel argv h s en a0 os pos runs); eauto. apply spells_iff. apply reading_iff. exact Hrd.
    + assert (Dt : Forall (fun e => date_ok strftime (sigof (e_body e))) tab) by (eapply Forall_impl; [|exact Dl]; intros e; cbn beta; destruct (e_body e); intros K; try exact I; contradiction).
      assert (Cn : cstr name) by (apply (literal (Some name)); vm_compute; reflexivity).
      destruct (C43_after_parse strtod trex lm sp strftime false posix 20 tab rest jo jc jp fuel argv h s en a0 h' s' tab' en' name Hd Ht Hc Hv Ep Cn Tx Dt) as (os & msgs & O1 & M1 & W1).
      rewrite E2 in M1. assert (Hne : errs <> []) by (intros ->; change (zlen (@nil err)) with 0 in E1; cbn in E1; contradiction).
      set (f := {| f_name := name; f_help := 0; f_version := 0; f_before := []; f_format := six_columns; f_after := []; f_work := fun _ (_ : table) => Ok ([], 0) |}).
      assert (Af : arguments_fit strftime f tab rest).
      { split; [vm_compute; discriminate|]. split; [exact Ha|]. intros hd fmt x Hi. exfalso. unfold table_sig in Hi. apply in_map_iff in Hi as (e & K & Hi). injection K as _ K. unfold dateless in Dl. rewrite Forall_forall in Dl. specialize (Dl e Hi). destruct (e_body e); try discriminate. contradiction. }
      pose proof (messages_fit strtod trex sp strftime f tab posix rest evs pos held errs msgs Af Hrd Hr M1) as Fe.
      exists held, errs, msgs. split; [exact Hr|]. split; [exact Hne|]. split; [exact M1|].
      intros junk legacy. destruct (proj1 W1 ltac:(lia) junk legacy) as (m1 & P1 & N1). exists os, m1. auto.
Qed.

(** *** The tables *)
Ltac made_cmd W := split; [unfold arg_rex1; apply built_rex; vm_compute; discriminate|split; [intros x _; destruct (PropRex.C25_literal _ REG_ICASE x (proj1 (proj2 W)) (proj1 W) (proj2 (proj2 W))) as (b & E & _); exists b; exact E|discriminate]].
Ltac made_one := split; [first [apply built_lit|apply built_file|apply built_str]; unfold foolproof; repeat match goal with |- context [?a <? ?b] => destruct (Z.ltb_spec a b) end; lia|split; [exact I|try discriminate; reflexivity]].
Ltac preset_tac := cbn [set_output List.length seq combine map fst snd Nat.eqb multi1 multi3]; repeat (apply Forall2_cons; [repeat split|]); constructor.
Lemma reached1 argc : 0 <= argc -> reached false (tab1 argc).
Proof.
  intros Ha. apply (reached_preset _ _ _ _ _ (multi1 argc)); [|preset_tac].
  apply reached_new. apply Forall_cons; [made_cmd insert_plain|]. repeat (apply Forall_cons; [made_one|]). constructor.
Qed.
Lemma reached2 : reached false tab2.
Proof. apply reached_new. apply Forall_cons; [made_cmd remove_plain|]. repeat (apply Forall_cons; [made_one|]). constructor. Qed.
Lemma reached3 : reached false tab3.
Proof.
  apply (reached_preset _ _ _ _ _ multi3); [|preset_tac].
  apply reached_new. apply Forall_cons; [made_cmd search_plain|]. repeat (apply Forall_cons; [made_one|]). constructor.
Qed.
Lemma reached4 : reached false tab4.
Proof. apply reached_new. repeat (apply Forall_cons; [made_one|]). constructor. Qed.
Ltac texts_clit := repeat (apply Forall_cons; [repeat split; apply literal; vm_compute; reflexivity|]); constructor.
Ltac counts_tac := repeat (apply Forall_cons; [apply counts_small; cbn [set_default h_mincount h_maxcount e_hdr arg_lit0 arg_file0 arg_file1 arg_rex1 arg_str1 arg_rexn arg_litn arg_strn arg_filen mkentry mkhdr];
  unfold foolproof, INT_MAX in *; repeat match goal with |- context [?a <? ?b] => destruct (Z.ltb_spec a b) end; lia|]); constructor.
Ltac printable_tac := split; [texts_clit|split; [cbn [set_output List.length seq combine map fst snd Nat.eqb multi1 multi2 multi3 multi4]; counts_tac|split; [repeat (apply Forall_cons; [split; vm_compute; discriminate|]); constructor|vm_compute; discriminate]]].
Lemma printable1 argc : 0 < argc -> argc + 2 <= INT_MAX -> printable (tab1 argc). Proof. intros. printable_tac. Qed.
Lemma printable2 : printable tab2. Proof. printable_tac. Qed.
Lemma printable3 : printable tab3. Proof. printable_tac. Qed.
Lemma printable4 : printable tab4. Proof. printable_tac. Qed.
Lemma line1_ok argc : 1 < argc -> PrintSpec.syntax_line brief_of (map e_hdr (tab1 argc)) ++ [NL] = line1.
Proof.
  intros Ha. assert (E : PrintSpec.syntax_line brief_of (map e_hdr (tab1 argc)) =
    lit " [-nvR]" ++ PrintSpec.occurrences 1 1 (lit "insert") ++ PrintSpec.occurrences 1 (foolproof 1 (argc + 2)) (lit "<file>") ++ PrintSpec.occurrences 0 1 (lit "-o <output>") ++ []).
  { unfold PrintSpec.syntax_line, set_output, multi1, arg_filen. generalize (foolproof 1 (argc + 2)). generalize PrintSpec.occurrences. intros oc m. vm_compute. reflexivity. }
  assert (F : foolproof 1 (argc + 2) = argc + 2) by (unfold foolproof; destruct (Z.ltb_spec (argc + 2) 1); lia).
  rewrite E, F, occurrences_files by lia. vm_compute. reflexivity.
Qed.
Ltac dateless_tac := repeat (apply Forall_cons; [exact I|]); constructor.

(** *** At most one *)
Lemma right_spells (t : list hdr) posix rest os pos : reading t posix rest (evs_of os) pos -> spells t posix rest os pos.
Proof. intros H. apply spells_iff, reading_iff. exact H. Qed.
(** Of the four syntaxes a command line is right for one at most. *)
Theorem C80_multisyntax_one_at_most : forall posix rest argc evs1 pos1 evs2 pos2 evs3 pos3 evs4 pos4,
  reading (map e_hdr (tab1 argc)) posix rest evs1 pos1 -> reading (map e_hdr tab2) posix rest evs2 pos2 ->
  reading (map e_hdr tab3) posix rest evs3 pos3 -> reading (map e_hdr tab4) posix rest evs4 pos4 ->
  (insert_right evs1 pos1 -> ~ remove_right evs2 pos2 /\ ~ search_right evs3 pos3 /\ ~ plain_right evs4 pos4) /\
  (remove_right evs2 pos2 -> ~ search_right evs3 pos3 /\ ~ plain_right evs4 pos4) /\
  (search_right evs3 pos3 -> ~ plain_right evs4 pos4).
Proof.
  intros posix rest argc evs1 pos1 evs2 pos2 evs3 pos3 evs4 pos4 R1 R2 R3 R4.
  assert (S : forall t u evs pos evs' pos' o o', agree t u -> reading t posix rest evs pos -> reading u posix rest evs' pos' -> flawless o evs -> flawless o' evs' -> pos = pos').
  { intros t u evs pos evs' pos' o o' A Ra Rb Fa Fb. destruct (flawless_os _ _ Fa) as (os & ->). destruct (flawless_os _ _ Fb) as (os' & ->). eapply C80_same_positionals; eauto using right_spells. }
  split; [intros (F1 & f & fs & P1)|split; [intros (F2 & f & P2)|intros (F3 & f & P3)]]; repeat split.
  - intros (F2 & g & P2). pose proof (S _ _ _ _ _ _ _ _ (agree12 argc) R1 R2 F1 F2) as E. rewrite P1, P2 in E. discriminate.
  - intros (F3 & g & P3). pose proof (S _ _ _ _ _ _ _ _ (agree13 argc) R1 R3 F1 F3) as E. rewrite P1, P3 in E. discriminate.
  - intros (F4 & P4). pose proof (S _ _ _ _ _ _ _ _ (agree14 argc) R1 R4 F1 F4) as E. rewrite P1, P4 in E. discriminate.
  - intros (F3 & g & P3). pose proof (S _ _ _ _ _ _ _ _ agree23 R2 R3 F2 F3) as E. rewrite P2, P3 in E. discriminate.
  - intros (F4 & P4). pose proof (S _ _ _ _ _ _ _ _ agree24 R2 R4 F2 F4) as E. rewrite P2, P4 in E. discriminate.
  - intros (F4 & P4). pose proof (S _ _ _ _ _ _ _ _ agree34 R3 R4 F3 F4) as E. rewrite P3, P4 in E. discriminate.
Qed.

(** *** The program *)
Lemma multi_null : null_any (blocks_from 0 [6; 4; 4; 2]%nat) (tables_from 0 [6; 4; 4; 2]%nat) = Ok false.
Proof. vm_compute. reflexivity. Qed.
Lemma multi_free : exists m, free_each (blocks_from 0 [6; 4; 4; 2]%nat) (tables_from 0 [6; 4; 4; 2]%nat) = Ok m /\ forall b, m b = None.
Proof. eexists. split; [vm_compute; reflexivity|]. intros b. do 20 (destruct b as [|b]; [reflexivity|]). reflexivity. Qed.
(** What it prints if the command line is right for the syntax without a command. *)
Definition plain_prints (evs : list event) : str :=
  match occurrences 0 evs, occurrences 1 evs with
  | _ :: _, _ => multi_usage
  | [], _ :: _ => multi_version
  | [], [] => multi_hint
  end.
Theorem C80_multisyntax : forall posix legacy junk rest jo jc jp fuel argv h s en1 en2 en3 en4 a0 evs1 pos1 evs2 pos2 evs3 pos3 evs4 pos4,
  let argc := zlen (a0 :: rest) in
  call 20 (tab1 argc) en1 h argv a0 rest fuel -> call 20 tab2 en2 h argv a0 rest fuel -> call 20 tab3 en3 h argv a0 rest fuel -> call 20 tab4 en4 h argv a0 rest fuel ->
  argc + 2 <= INT_MAX -> (forall a, In a rest -> zlen a <= 20000000) ->
  reading (map e_hdr (tab1 argc)) posix rest evs1 pos1 -> reading (map e_hdr tab2) posix rest evs2 pos2 ->
  reading (map e_hdr tab3) posix rest evs3 pos3 -> reading (map e_hdr tab4) posix rest evs4 pos4 ->
  exists o, multisyntax junk legacy posix jo jc jp fuel argc argv h s en1 en2 en3 en4 = Ok o /\ clean o /\ o_code o = 0 /\
    (insert_right evs1 pos1 -> o_text o = insert_prints evs1 (tl pos1)) /\
    (remove_right evs2 pos2 -> o_text o = remove_prints evs2 (nth 1 pos2 [])) /\
    (search_right evs3 pos3 -> o_text o = search_prints evs3 (nth 1 pos3 [])) /\
    (plain_right evs4 pos4 -> o_text o = plain_prints evs4) /\
    (~ insert_right evs1 pos1 -> ~ remove_right evs2 pos2 -> ~ search_right evs3 pos3 -> ~ plain_right evs4 pos4 ->
      (first_word "insert" pos1 -> corrects (tab1 argc) evs1 pos1 line1 (o_text o)) /\
      (~ first_word "insert" pos1 -> first_word "remove" pos2 -> corrects tab2 evs2 pos2 line2 (o_text o)) /\
      (~ first_word "insert" pos1 -> ~ first_word "remove" pos2 -> first_word "search" pos3 -> corrects tab3 evs3 pos3 line3 (o_text o)) /\
      (~ first_word "insert" pos1 -> ~ first_word "remove" pos2 -> ~ first_word "search" pos3 -> o_text o = multi_missing)).
Proof.
  intros posix legacy junk rest jo jc jp fuel argv h s en1 en2 en3 en4 a0 evs1 pos1 evs2 pos2 evs3 pos3 evs4 pos4 argc C1 C2 C3 C4 Hm Hl R1 R2 R3 R4.
  assert (Ha : argc = Z.succ (zlen rest)) by (unfold argc; rewrite zlen_cons; lia). assert (Hp : 0 < argc) by (pose proof (zlen_nonneg rest); lia).
  destruct (parsed posix (tab1 argc) rest jo jc jp fuel argv h h s en1 a0 evs1 pos1 (reached1 argc ltac:(lia)) C1 ltac:(auto) Hl R1 (proj1 (printable1 argc Hp Hm)) ltac:(dateless_tac)) as (h1 & s1 & t1 & e1 & held1 & errs1 & P1 & G1 & M1 & Rp1 & Hh1 & D1).
  destruct (parsed posix tab2 rest jo jc jp fuel argv h h1 s1 en2 a0 evs2 pos2 reached2 C2 G1 Hl R2 (proj1 printable2) ltac:(dateless_tac)) as (h2 & s2 & t2 & e2 & held2 & errs2 & P2 & G2 & M2 & Rp2 & Hh2 & D2).
  destruct (parsed posix tab3 rest jo jc jp fuel argv h h2 s2 en3 a0 evs3 pos3 reached3 C3 G2 Hl R3 (proj1 printable3) ltac:(dateless_tac)) as (h3 & s3 & t3 & e3 & held3 & errs3 & P3 & G3 & M3 & Rp3 & Hh3 & D3).
  destruct (parsed posix tab4 rest jo jc jp fuel argv h h3 s3 en4 a0 evs4 pos4 reached4 C4 G3 Hl R4 (proj1 printable4) ltac:(dateless_tac)) as (h4 & s4 & t4 & e4 & held4 & errs4 & P4 & G4 & M4 & Rp4 & Hh4 & D4).
  destruct multi_free as (mb & Ef & Hb).
  assert (Main : forall ps ts, multi_after t1 t2 t3 t4 e1 e2 e3 e4 = Ok ps -> Forall2 delivers ps ts ->
    exists o, multisyntax junk legacy posix jo jc jp fuel argc argv h s en1 en2 en3 en4 = Ok o /\ clean o /\ o_code o = 0 /\ o_text o = List.concat ts).
  { intros ps ts Ea Hps. destruct (print_all_ok junk legacy ps ts Hps) as (ms & Ep & Hms). unfold MultiModel.multisyntax. cbv zeta. cbn [map List.length multi1 multi2 multi3 multi4].
    rewrite multi_null. cbn [bind]. fold argc in P1, P2, P3, P4. rewrite P1. cbn [bind]. rewrite P2. cbn [bind]. rewrite P3. cbn [bind]. rewrite P4. cbn [bind]. rewrite Ea. cbn [bind]. rewrite Ep. cbn [bind]. rewrite Ef. cbn [bind].
    eexists. split; [reflexivity|]. cbn [o_text o_code]. split; [split; [exact Hb|exact Hms]|]. split; reflexivity. }
  destruct (C80_multisyntax_one_at_most posix rest argc evs1 pos1 evs2 pos2 evs3 pos3 evs4 pos4 R1 R2 R3 R4) as (X1 & X2 & X3).
  destruct D1 as [(Z1 & os & runs & -> & Sp & Sh & Vl)|(Z1 & N1 & W1)].
  { assert (K : insert_right (evs_of os) pos1) by (apply (shared1 posix rest os pos1 argc Ha Sp); eauto). destruct (X1 K) as (K2 & K3 & K4).
    destruct (works1 posix rest os pos1 argc runs t1 t2 t3 t4 e1 e2 e3 e4 Sp Sh Vl Z1) as (w & fs & -> & Ea). destruct (Main _ _ Ea ltac:(constructor; [reflexivity|constructor])) as (o & Eo & Cl & Cd & Tx). cbn [List.concat] in Tx. rewrite app_nil_r in Tx.
    exists o. repeat (split; [solve [auto]|]). repeat split; intros; try contradiction; auto. }
  assert (K1 : ~ insert_right evs1 pos1).
  { intros K. destruct (flawless_os _ _ (proj1 K)) as (os & ->). destruct (proj2 (shared1 posix rest os pos1 argc Ha (right_spells _ _ _ _ _ R1)) K) as (runs & Hsh). exact (N1 os runs eq_refl Hsh). }
  destruct D2 as [(Z2 & os & runs & -> & Sp & Sh & Vl)|(Z2 & N2 & W2)].
  { assert (K : remove_right (evs_of os) pos2) by (apply (shared2 posix rest os pos2 Sp); eauto). destruct (X2 K) as (K3 & K4).
    destruct (works2 posix rest os pos2 runs t1 t2 t3 t4 e1 e2 e3 e4 Sp Sh Vl Z1 Z2) as (w & f & -> & Ea). destruct (Main _ _ Ea ltac:(constructor; [reflexivity|constructor])) as (o & Eo & Cl & Cd & Tx). cbn [List.concat] in Tx. rewrite app_nil_r in Tx.
    exists o. repeat (split; [solve [auto]|]). repeat split; intros; try contradiction; auto. }
  assert (K2 : ~ remove_right evs2 pos2).
  { intros K. destruct (flawless_os _ _ (proj1 K)) as (os & ->). destruct (proj2 (shared2 posix rest os pos2 (right_spells _ _ _ _ _ R2)) K) as (runs & Hsh). exact (N2 os runs eq_refl Hsh). }
  destruct D3 as [(Z3 & os & runs & -> & Sp & Sh & Vl)|(Z3 & N3 & W3)].
  { assert (K : search_right (evs_of os) pos3) by (apply (shared3 posix rest os pos3 Sp); eauto). pose proof (X3 K) as K4.
    destruct (works3 posix rest os pos3 runs t1 t2 t3 t4 e1 e2 e3 e4 Sp Sh Vl Z1 Z2 Z3) as (w & f & -> & Ea). destruct (Main _ _ Ea ltac:(constructor; [reflexivity|constructor])) as (o & Eo & Cl & Cd & Tx). cbn [List.concat] in Tx. rewrite app_nil_r in Tx.
    exists o. repeat (split; [solve [auto]|]). repeat split; intros; try contradiction; auto. }
  assert (K3 : ~ search_right evs3 pos3).
  { intros K. destruct (flawless_os _ _ (proj1 K)) as (os & ->). destruct (proj2 (shared3 posix rest os pos3 (right_spells _ _ _ _ _ R3)) K) as (runs & Hsh). exact (N3 os runs eq_refl Hsh). }
  assert (Ln1 : rest <> [] -> delivers (Syntax t1) line1).
  { intros Hne. apply (syntax_delivers (tab1 argc) t1 line1 (printable1 argc Hp Hm) M1); [apply line1_ok|vm_compute; discriminate]. destruct rest as [|a rest']; [congruence|]. rewrite zlen_cons in Ha. pose proof (zlen_nonneg rest'). lia. }
  assert (Ln2 : delivers (Syntax t2) line2) by (apply (syntax_delivers tab2 t2 line2 printable2 M2); vm_compute; first [reflexivity|discriminate]).
  assert (Ln3 : delivers (Syntax t3) line3) by (apply (syntax_delivers tab3 t3 line3 printable3 M3); vm_compute; first [reflexivity|discriminate]).
  assert (Ln4 : delivers (Syntax t4) line4) by (apply (syntax_delivers tab4 t4 line4 printable4 M4); vm_compute; first [reflexivity|discriminate]).
  destruct D4 as [(Z4 & os & runs & -> & Sp & Sh & Vl)|(Z4 & N4 & W4)].
  { assert (K : plain_right (evs_of os) pos4) by (apply (shared4 os pos4); eauto).
    pose proof (works4 os pos4 runs t1 t2 t3 t4 e1 e2 e3 e4 Sh Vl Z1 Z2 Z3 Z4) as Ea.
    assert (exists ts, Forall2 delivers (mymain4 (zlen (given_to 0 os)) (zlen (given_to 1 os)) t1 t2 t3 t4) ts /\ List.concat ts = plain_prints (evs_of os)) as (ts & Hts & Ets).
    { unfold mymain4, plain_prints. rewrite !given_evs. destruct (given_to 0 os) as [|v l] eqn:E0.
      - change (negb (zlen [] =? 0)) with false. cbv iota. destruct (given_to 1 os) as [|v l] eqn:E1.
        + eexists. split; [constructor; [reflexivity|constructor]|]. vm_compute. reflexivity.
        + assert (zlen (v :: l) =? 0 = false) as -> by (apply Z.eqb_neq; rewrite zlen_cons; pose proof (zlen_nonneg l); lia). cbn [negb]. cbv iota. eexists. split; [constructor; [reflexivity|constructor]|]. vm_compute. reflexivity.
      - assert (zlen (v :: l) =? 0 = false) as -> by (apply Z.eqb_neq; rewrite zlen_cons; pose proof (zlen_nonneg l); lia). cbn [negb]. cbv iota.
        assert (Hne : rest <> []) by (intros ->; inversion R4 as [Ez| | | |]; destruct os; discriminate).
        assert (Gl1 : delivers (Glossary t1) _) by (apply (glossary_delivers (tab1 argc) t1 _ (printable1 argc Hp Hm) M1 eq_refl); vm_compute; discriminate).
        assert (Gl2 : delivers (Glossary t2) _) by (apply (glossary_delivers tab2 t2 _ printable2 M2 eq_refl); vm_compute; discriminate).
        assert (Gl3 : delivers (Glossary t3) _) by (apply (glossary_delivers tab3 t3 _ printable3 M3 eq_refl); vm_compute; discriminate).
        assert (Gl4 : delivers (Glossary t4) _) by (apply (glossary_delivers tab4 t4 _ printable4 M4 eq_refl); vm_compute; discriminate).
        eexists. split; [repeat (apply Forall2_cons; [first [reflexivity|exact (Ln1 Hne)|exact Ln2|exact Ln3|exact Ln4|exact Gl1|exact Gl2|exact Gl3|exact Gl4]|]); constructor|]. vm_compute. reflexivity. }
    destruct (Main _ _ Ea Hts) as (o & Eo & Cl & Cd & Tx). rewrite Ets in Tx. exists o. repeat (split; [solve [auto]|]). repeat split; intros; try contradiction; auto. }
  assert (K4 : ~ plain_right evs4 pos4).
  { intros K. destruct (flawless_os _ _ (proj1 K)) as (os & ->). destruct (proj2 (shared4 os pos4) K) as (runs & Hsh). exact (N4 os runs eq_refl Hsh). }
  assert (Hne : rest <> []).
  { intros ->. apply K4. inversion R4. subst. split; [|reflexivity]. split; [intros c v []|]. intros i _. cbn. lia. }
  assert (exists n, count_of t1 0 = Ok n /\ (0 < n <-> first_word "insert" pos1)) as (n1 & Cn1 & F1) by (eapply (command_count "insert" (tab1 argc)); eauto using insert_plain).
  assert (exists n, count_of t2 0 = Ok n /\ (0 < n <-> first_word "remove" pos2)) as (n2 & Cn2 & F2) by (eapply (command_count "remove" tab2); eauto using remove_plain).
  assert (exists n, count_of t3 0 = Ok n /\ (0 < n <-> first_word "search" pos3)) as (n3 & Cn3 & F3) by (eapply (command_count "search" tab3); eauto using search_plain).
  assert (Corr : forall tab evs pos t e line, wrong_here tab evs pos t e -> delivers (Syntax t) line -> exists ts, Forall2 delivers [Errors t e; Text (lit "usage: " ++ name ++ lit " "); Syntax t] ts /\ corrects tab evs pos line (List.concat ts)).
  { intros tab evs pos t e line (held & errs & msgs & Hr & Hn & Hf & Hdl) Hln. exists [List.concat msgs; lit "usage: " ++ name ++ lit " "; line]. split; [repeat (constructor; auto)|]. exists held, errs, msgs.
    split; [exact Hr|]. split; [exact Hn|]. split; [exact Hf|]. cbn [List.concat]. rewrite app_nil_r. reflexivity. }
  assert (Ea : multi_after t1 t2 t3 t4 e1 e2 e3 e4 = Ok (if 0 <? n1 then [Errors t1 e1; Text (lit "usage: " ++ name ++ lit " "); Syntax t1]
        else if 0 <? n2 then [Errors t2 e2; Text (lit "usage: " ++ name ++ lit " "); Syntax t2]
        else if 0 <? n3 then [Errors t3 e3; Text (lit "usage: " ++ name ++ lit " "); Syntax t3]
        else [Text (name ++ ln ": missing <insert|remove|search> command." ++ lit "usage 1: " ++ name ++ lit " "); Syntax t1;
              Text (lit "usage 2: " ++ name ++ lit " "); Syntax t2; Text (lit "usage 3: " ++ name ++ lit " "); Syntax t3;
              Text (lit "usage 4: " ++ name); Syntax t4])).
  { unfold multi_after. destruct (Z.eqb_spec (end_count e1) 0); [contradiction|]. destruct (Z.eqb_spec (end_count e2) 0); [contradiction|]. destruct (Z.eqb_spec (end_count e3) 0); [contradiction|]. destruct (Z.eqb_spec (end_count e4) 0); [contradiction|].
    rewrite Cn1. cbn [bind]. rewrite Cn2. cbn [bind]. rewrite Cn3. cbn [bind]. reflexivity. }
  destruct (Z.ltb_spec 0 n1) as [L1|L1].
  { destruct (Corr _ _ _ t1 e1 line1 W1 (Ln1 Hne)) as (ts & Hts & Hco). destruct (Main _ _ Ea Hts) as (o & Eo & Cl & Cd & Tx). rewrite <- Tx in Hco. apply F1 in L1. exists o. repeat (split; [solve [auto]|]). repeat split; intros; try contradiction; auto. }
  assert (J1 : ~ first_word "insert" pos1) by (rewrite <- F1; lia).
  destruct (Z.ltb_spec 0 n2) as [L2|L2].
  { destruct (Corr _ _ _ t2 e2 line2 W2 Ln2) as (ts & Hts & Hco). destruct (Main _ _ Ea Hts) as (o & Eo & Cl & Cd & Tx). rewrite <- Tx in Hco. apply F2 in L2. exists o. repeat (split; [solve [auto]|]). repeat split; intros; try contradiction; auto. }
  assert (J2 : ~ first_word "remove" pos2) by (rewrite <- F2; lia).
  destruct (Z.ltb_spec 0 n3) as [L3|L3].
  { destruct (Corr _ _ _ t3 e3 line3 W3 Ln3) as (ts & Hts & Hco). destruct (Main _ _ Ea Hts) as (o & Eo & Cl & Cd & Tx). rewrite <- Tx in Hco. apply F3 in L3. exists o. repeat (split; [solve [auto]|]). repeat split; intros; try contradiction; auto. }
  assert (J3 : ~ first_word "search" pos3) by (rewrite <- F3; lia).
  assert (exists ts, Forall2 delivers [Text (name ++ ln ": missing <insert|remove|search> command." ++ lit "usage 1: " ++ name ++ lit " "); Syntax t1;
              Text (lit "usage 2: " ++ name ++ lit " "); Syntax t2; Text (lit "usage 3: " ++ name ++ lit " "); Syntax t3;
              Text (lit "usage 4: " ++ name); Syntax t4] ts /\ List.concat ts = multi_missing) as (ts & Hts & Ets).
  { eexists. split; [repeat (apply Forall2_cons; [first [reflexivity|exact (Ln1 Hne)|exact Ln2|exact Ln3|exact Ln4]|]); constructor|]. vm_compute. reflexivity. }
  destruct (Main _ _ Ea Hts) as (o & Eo & Cl & Cd & Tx). rewrite Ets in Tx. exists o. repeat (split; [solve [auto]|]). repeat split; intros; try contradiction; auto.
Qed.
End Multi.

(** ** Examples *)
Notation ex_multi rest := (multisyntax ExTable.strtod RexModel.trex Long64 unix_seps no_strftime (fun _ => "z"%char) false false
  ExTable.jo ExTable.jc ExTable.jp (S (total (map lit rest))) (zlen (lit "multisyntax" :: map lit rest)) 1 (ExTable.heap0 ("multisyntax"%string :: rest)) ExTable.s0
  (ExTable.en 20) (ExTable.en 20) (ExTable.en 20) (ExTable.en 20)).
Notation insert_args := ["-nR"; "insert"; "a.c"; "-oout"; "--verb"; "b.c"]%string.
Notation ex_for rest evs1 pos1 evs2 pos2 evs3 pos3 evs4 pos4 := (C80_multisyntax ExTable.strtod unix_seps no_strftime ex_contract false false (fun _ => "z"%char) (map lit rest) ExTable.jo ExTable.jc ExTable.jp (S (total (map lit rest))) 1
    (ExTable.heap0 ("multisyntax"%string :: rest)) ExTable.s0 (ExTable.en 20) (ExTable.en 20) (ExTable.en 20) (ExTable.en 20) (lit "multisyntax") evs1 pos1 evs2 pos2 evs3 pos3 evs4 pos4).
Ltac at_most_once := split; [intros c v Hin; repeat (destruct Hin as [Hin|Hin]; [discriminate|]); destruct Hin|]; intros i Hin; repeat (destruct Hin as [<-|Hin]; [vm_compute; discriminate|]); destruct Hin.
Example C80_case_insert : shows_code (ex_multi insert_args)
  (ln "syntax 1 matched OK:" ++ ln "n=1" ++ ln "v=1" ++ ln "R=1" ++ ln "outfile=""out""" ++ ln "infile[0]=""a.c""" ++ ln "infile[1]=""b.c""") 0.
Proof.
  destruct (ex_for insert_args [EvScan 1 None; EvScan 3 None; EvScan 5 (Some (lit "out")); EvScan 2 None] (map lit ["insert"; "a.c"; "b.c"]%string)
    [EvScan 1 None; EvErr 82 None; EvErr 111 None; EvErr 111 None; EvErr 117 None; EvErr 116 None; EvScan 2 None] (map lit ["insert"; "a.c"; "b.c"]%string)
    [EvErr 110 None; EvErr 82 None; EvScan 3 (Some (lit "out")); EvScan 1 None] (map lit ["insert"; "a.c"; "b.c"]%string)
    [EvErr 110 None; EvErr 82 None; EvErr 111 None; EvErr 111 None; EvErr 117 None; EvErr 116 None; EvErr ARG_ELONGOPT (Some (lit "--verb"))] (map lit ["insert"; "a.c"; "b.c"]%string)) as (out & E & Cl & Cd & H & _).
  1-4: apply program_call; vm_compute; reflexivity.
  - vm_compute. discriminate.
  - args_short.
  - ex_read.
  - ex_read.
  - ex_read.
  - ex_read.
  - rewrite E. rewrite H; [split; [vm_compute; reflexivity|]; split; assumption|]. split; [at_most_once|]. eexists _, _. reflexivity.
Qed.
(** A mistake in the options after the word remove: the messages are those of the table for remove. *)
Example C80_case_remove_wrong : text_code (ex_multi ["remove"; "-q"; "f"; "g"]%string) =
  Some (ln "multisyntax: invalid option ""-q""" ++ ln "multisyntax: excess option g" ++ lit "usage: multisyntax " ++ line2, 0).
Proof. vm_compute. reflexivity. Qed.
Example C80_case_search : text_code (ex_multi ["search"; "-v"; "x"]%string) = Some (ln "syntax 3 matched OK:" ++ ln "v=1" ++ ln "pattern=""x""" ++ ln "outfile=""-""", 0).
Proof. vm_compute. reflexivity. Qed.
Example C80_case_usage : text_code (ex_multi ["--help"]%string) = Some (multi_usage, 0) /\ text_code (ex_multi ["-n"]%string) = Some (multi_missing, 0).
Proof. split; vm_compute; reflexivity. Qed.

(** The program asks for command words in either case (REG_ICASE), but its constant is 2 while the library's ARG_REX_ICASE is 1. *)
Theorem C80_multisyntax_case_refuted : exists rest o, map (map tolower) (map lit rest) = map lit ["insert"; "f"]%string /\ ex_multi rest = Ok o /\ o_text o = multi_missing.
Proof.
  exists ["INSERT"; "f"]%string. destruct (ex_multi ["INSERT"; "f"]%string) as [o|u|] eqn:E.
  - exists o. split; [vm_compute; reflexivity|]. split; [reflexivity|].
    assert (T : text_code (ex_multi ["INSERT"; "f"]%string) = Some (multi_missing, 0)) by (vm_compute; reflexivity). rewrite E in T. congruence.
  - assert (T : text_code (ex_multi ["INSERT"; "f"]%string) = Some (multi_missing, 0)) by (vm_compute; reflexivity). rewrite E in T. discriminate.
  - assert (T : text_code (ex_multi ["INSERT"; "f"]%string) = Some (multi_missing, 0)) by (vm_compute; reflexivity). rewrite E in T. discriminate.
Qed.

Print Assumptions C80_multisyntax_one_at_most.
Print Assumptions C80_multisyntax.
Print Assumptions C80_multisyntax_case_refuted.
