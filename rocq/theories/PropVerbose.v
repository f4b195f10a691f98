(** C93: the verbose syntax line can be followed. *)
From Verif Require Import Base IntModel FileModel DateModel GetoptModel ParseModel ParseSpec GetoptProofs ParseIdeal ParseProofs ParseFacts ParseObserve ParseLemmas ArgModel KindsSpec PropKinds CommandSpec CommandProofs PropCommand PrintModel PrintSpec PropTags PropLoosen VerboseSpec.
From Coq Require Import ZArith List Ascii String Bool Lia.
Import ListNotations.
Open Scope Z_scope.

(** ** What is typed is read as it is meant *)
Lemma typed_spelled t i h tag v g posix rest os pos : Forall good_hdr t -> usable t i h tag -> typed_option h tag v g ->
  spells t posix rest os pos -> spells t posix (g ++ rest) ((i, v) :: os) pos.
Proof.
  intros Ht Hu Hg Hs. change ((i, v) :: os) with ([(i, v)] ++ os).
  destruct (usable_cases _ _ _ _ Ht Hu) as [(c & -> & Hc & Hf)|(nm & -> & Hn & He & Hsel)].
  - assert (K : forall cs ws, CommandSpec.cluster t (c :: cs) ws [(i, v)] -> spells t posix (("-"%char :: c :: cs) :: ws ++ rest) ([(i, v)] ++ os) pos).
    { intros cs ws Hcl. apply sp_option; auto; [discriminate|]. intros [= E _]. congruence. }
    unfold short_tag in *. destruct Hg as [H1 H2|H1 H2|w H1 H2 H3|c' w H1 E H3|nm w H1 E H3].
    + apply (K [] []). apply cl_switch with h; auto; [unfold short_takes; rewrite H1, H2; reflexivity|constructor].
    + apply (K [] []). apply cl_bare with h; auto. unfold short_takes. rewrite H1, H2. reflexivity.
    + apply (K [] [w]). apply cl_next with h; auto. unfold short_takes. rewrite H1, H2. reflexivity.
    + apply (K w []). apply cl_attached with h; auto. unfold short_takes. rewrite H1. destruct (h_hasoptvalue h); discriminate.
    + unfold long_tag in E. cbn in E. injection E as -> E. congruence.
  - assert (K : forall body ws, body <> [] -> long_option t body ws (i, v) -> spells t posix (("-"%char :: "-"%char :: body) :: ws ++ rest) ([(i, v)] ++ os) pos).
    { intros body ws Hb Hl. apply sp_option; auto; [discriminate|intros [= E]; congruence|]. apply cl_long; auto. }
    unfold long_tag in *. destruct Hg as [H1 H2|H1 H2|w H1 H2 H3|c' w H1 E H3|nm' w H1 E H3].
    + apply (K nm [] Hn). apply lo_bare with h; auto. unfold long_takes. rewrite H1, H2. discriminate.
    + apply (K nm [] Hn). apply lo_bare with h; auto. unfold long_takes. rewrite H2. discriminate.
    + apply (K nm [w] Hn). apply lo_next with h; auto. unfold long_takes. rewrite H1, H2. reflexivity.
    + unfold short_tag in E. cbn in E. injection E as _ E. congruence.
    + apply (K (nm ++ "="%char :: w) []); [destruct nm; discriminate|]. apply lo_equals with h; auto. unfold long_takes. rewrite H1. destruct (h_hasoptvalue h); discriminate.
Qed.
Lemma only_words l : Forall is_word l -> options_of l = [] /\ flat_map args l = words_of l.
Proof. induction 1 as [|p l (s & ->) _ [I1 I2]]; [auto|]. split; [exact I1|]. cbn [flat_map args app]. rewrite I2. reflexivity. Qed.
Lemma parts_spelled t posix l : Forall good_hdr t -> Forall (good_part t) l -> ordered posix l -> spells t posix (flat_map args l) (options_of l) (words_of l).
Proof.
  intros Ht. induction 1 as [|p l Hp _ IH]; intros Ho; [constructor|].
  assert (Ho' : ordered posix l) by (intros Hx a s b ->; apply (Ho Hx (p :: a) s b); reflexivity).
  specialize (IH Ho'). destruct p as [i v g|s].
  - destruct Hp as (h & tag & Hu & Hg). cbn [flat_map args options_of words_of app]. exact (typed_spelled t i h tag v g posix _ _ _ Ht Hu Hg IH).
  - cbn [good_part] in Hp. destruct posix.
    + destruct (only_words l (Ho eq_refl [] s l eq_refl)) as [E1 E2]. cbn [flat_map args options_of words_of app]. fold (options_of l) (words_of l). rewrite E1, E2. apply sp_posix; auto.
    + cbn [flat_map args options_of words_of app]. apply sp_word; auto.
Qed.

Section Verbose.
Context {D : Type}.
Context (strtod : str -> D * nat).
Context (rexmatch : str -> Z -> str -> res bool).
Context (sp : seps).
Notation lm := Long64.
Notation parse := (karg_parse strtod rexmatch lm sp).
Notation safe_value := (safe_value lm).
Notation stored := (stored strtod rexmatch lm sp).
Notation reached := (reached strtod rexmatch lm sp).
Hypothesis Hd : strtod_contract strtod.

Lemma wishes_shared tab l runs : wishes strtod rexmatch lm sp tab l runs -> shared strtod rexmatch lm sp tab (options_of l) (words_of l) runs.
Proof.
  intros (W1 & W2 & W3 & W4). split; [exact W1|]. split; [exact W2|]. intros i e run He Hr. destruct (W3 i e run He Hr) as [U1 U2].
  split; [exact U1|]. split; [exact U2|]. intros Hno a Ha (Hk & Hlt & _).
  assert (Hex : exists j r, (i < j)%nat /\ nth_error runs j = Some r /\ r <> []).
  { clear - Ha. assert (G : forall (rs : list (list str)), hd_error (List.concat rs) = Some a -> exists j r, nth_error rs j = Some r /\ r <> []).
    { induction rs as [|r rs IH]; [discriminate|]. destruct r as [|x r]; [|intros _; exists 0%nat, (x :: r); split; [reflexivity|discriminate]].
      intros H. destruct (IH H) as (j & r & Hj & Hr). exists (S j), r. auto. }
    destruct (G _ Ha) as (j & r & Hj & Hr). assert (N : forall n (rs : list (list str)), nth_error (skipn n rs) j = nth_error rs (n + j)) by (induction n as [|n IHn]; intros [|x rs]; cbn; auto; destruct j; reflexivity). rewrite N in Hj. exists (S i + j)%nat, r. split; [lia|]. auto. }
  destruct Hex as (j & r & Hij & Hj & Hne). pose proof (W4 i j e run r Hij He Hr Hj Hno Hk Hne) as Hz.
  unfold zlen in *. rewrite app_length, map_length in Hlt. lia.
Qed.

(** Who types what the line shows is understood: no error is reported, and each entry gets what was typed for it, in the order
    in which it was typed. *)
Theorem C93_line_followed :
  forall ints posix cap tab l runs rest jo jc jp fuel argv h s en a0,
  reached ints tab -> Forall (good_part (map e_hdr tab)) l -> ordered posix l -> wishes strtod rexmatch lm sp tab l runs ->
  rest = flat_map args l -> Forall (safe_value ints) rest -> call cap tab en h argv a0 rest fuel ->
  exists h' s' tab' en', parse posix jo jc jp fuel (zlen (a0 :: rest)) argv h s tab en = Ok (h', s', tab', en') /\ end_count en' = 0 /\
  forall i e run, nth_error tab i = Some e -> nth_error runs i = Some run -> kcount (e_body e) <> None ->
    let given := given_to i (options_of l) ++ map Some run in
    exists e', nth_error tab' i = Some e' /\ kcount (e_body e') = Some (zlen given) /\ stored (e_body e) (slots_reset (e_body e)) given (slots (e_body e')).
Proof.
  intros ints posix cap tab l runs rest jo jc jp fuel argv h s en a0 Hre Hg Ho Hw -> Hsafe Hc.
  pose proof (parts_spelled _ posix l (c_hdrs _ _ _ _ _ _ _ _ Hc) Hg Ho) as Hsp.
  destruct (C59_accepted_values strtod rexmatch sp Hd ints posix cap tab _ jo jc jp fuel argv h s en a0 _ _ _ Hre Hc Hsafe Hsp (wishes_shared _ _ _ Hw)) as (h' & s' & tab' & en' & Hp & Hz & Hval).
  exists h', s', tab', en'. split; auto. split; auto. intros i e run He Hr Hk. destruct (Hval i e run He Hr) as (e' & He' & _ & Hst). destruct (Hst Hk) as [S1 S2]. eauto.
Qed.

(** What is stored is determined by the texts. *)
Lemma nth_error_ext {A} : forall l1 l2 : list A, (forall k, nth_error l1 k = nth_error l2 k) -> l1 = l2.
Proof.
  induction l1 as [|x l1 IH]; intros [|y l2] H; auto; try (specialize (H 0%nat); discriminate H). pose proof (H 0%nat) as E. injection E as ->. f_equal. apply IH. intros k. exact (H (S k)).
Qed.
Lemma stored_det ints b l0 vs l1 l2 : (forall x, In (Some x) vs -> safe_value ints x) -> (is_int b = true -> ints = true) -> stored b l0 vs l1 -> stored b l0 vs l2 -> l1 = l2.
Proof.
  intros Hs Hi [A1 H1] [A2 H2]. assert (Db : (exists n, b = KLit n) \/ forall n, b <> KLit n) by (destruct b; eauto; right; discriminate). destruct Db as [(n & ->)|Hn]; [congruence|].
  apply nth_error_ext. intros k. specialize (H1 k). specialize (H2 k). destruct (nth_error vs k) as [[x|]|] eqn:E.
  - assert (B : forall Q : Prop, match b with KLit _ => True | _ => Q end -> Q) by (intros Q; destruct b as [n| | | | | | |]; auto; destruct (Hn n); reflexivity).
    apply B in H1. apply B in H2. destruct H1 as (v0 & v1 & N1 & -> & D1), H2 as (v0' & v2 & N2 & -> & D2). rewrite N1 in N2. injection N2 as <-. f_equal.
    apply (denotes_det strtod rexmatch sp ints b v0 x); auto. apply Hs. eapply nth_error_In; eauto.
  - destruct b; congruence.
  - destruct b; congruence.
Qed.
(** So the order of the options matters only among the occurrences of one entry, and it does not matter which alternatives are
    chosen: two people who mean the same of each entry get the same. *)
Theorem C93_same_meaning :
  forall ints posix cap tab l1 l2 runs jo jc jp fuel1 argv1 h1 s1 en1 fuel2 argv2 h2 s2 en2 a1 a2,
  reached ints tab -> Forall (good_part (map e_hdr tab)) l1 -> Forall (good_part (map e_hdr tab)) l2 -> ordered posix l1 -> ordered posix l2 ->
  wishes strtod rexmatch lm sp tab l1 runs ->
  words_of l2 = words_of l1 -> (forall i, given_to i (options_of l2) = given_to i (options_of l1)) ->
  Forall (safe_value ints) (flat_map args l1) -> Forall (safe_value ints) (flat_map args l2) ->
  call cap tab en1 h1 argv1 a1 (flat_map args l1) fuel1 -> call cap tab en2 h2 argv2 a2 (flat_map args l2) fuel2 ->
  exists h1' s1' tab1 en1' h2' s2' tab2 en2',
  parse posix jo jc jp fuel1 (zlen (a1 :: flat_map args l1)) argv1 h1 s1 tab en1 = Ok (h1', s1', tab1, en1') /\ end_count en1' = 0 /\
  parse posix jo jc jp fuel2 (zlen (a2 :: flat_map args l2)) argv2 h2 s2 tab en2 = Ok (h2', s2', tab2, en2') /\ end_count en2' = 0 /\
  forall i e, nth_error tab i = Some e -> kcount (e_body e) <> None ->
    exists e1 e2, nth_error tab1 i = Some e1 /\ nth_error tab2 i = Some e2 /\ kcount (e_body e1) = kcount (e_body e2) /\ slots (e_body e1) = slots (e_body e2).
Proof.
  intros ints posix cap tab l1 l2 runs jo jc jp fuel1 argv1 h1 s1 en1 fuel2 argv2 h2 s2 en2 a1 a2 Hre G1 G2 O1 O2 W Ew Eo V1 V2 K1 K2.
  assert (W' : wishes strtod rexmatch lm sp tab l2 runs).
  { destruct W as (W1 & W2 & W3 & W4). split; [congruence|]. split; [exact W2|]. split; [|exact W4]. intros i e run He Hr. rewrite Eo. auto. }
  destruct (C93_line_followed ints posix cap tab l1 runs _ jo jc jp fuel1 argv1 h1 s1 en1 a1 Hre G1 O1 W eq_refl V1 K1) as (h1' & s1' & tab1 & en1' & P1 & Z1 & F1).
  destruct (C93_line_followed ints posix cap tab l2 runs _ jo jc jp fuel2 argv2 h2 s2 en2 a2 Hre G2 O2 W' eq_refl V2 K2) as (h2' & s2' & tab2 & en2' & P2 & Z2 & F2).
  exists h1', s1', tab1, en1', h2', s2', tab2, en2'. split; auto. split; auto. split; auto. split; auto. intros i e He Hk.
  destruct (nth_error runs i) as [run|] eqn:Er; [|apply nth_error_None in Er; destruct W as (_ & W2 & _); assert (i < List.length tab)%nat by (apply nth_error_Some; congruence); lia].
  destruct (F1 i e run He Er Hk) as (e1 & A1 & B1 & D1). destruct (F2 i e run He Er Hk) as (e2 & A2 & B2 & D2). rewrite Eo in B2, D2.
  exists e1, e2. rewrite B1, B2. split; [auto|]. split; [auto|]. split; [auto|]. eapply (stored_det ints); eauto.
  - destruct (spelled_ok strtod rexmatch sp Hd ints posix tab _ _ _ (parts_spelled _ posix l1 (c_hdrs _ _ _ _ _ _ _ _ K1) G1 O1) V1) as [So Sw].
    intros x Hx. apply in_app_iff in Hx as [Hx|Hx].
    + unfold given_to in Hx. apply in_flat_map in Hx as ([j w] & Hj & Hw). cbn in Hw. destruct (Nat.eqb j i); [|destruct Hw]. destruct Hw as [->|[]]. rewrite Forall_forall in So. apply (So _ Hj). reflexivity.
    + apply in_map_iff in Hx as (y & Ey & Hy). injection Ey as ->. rewrite Forall_forall in Sw. apply Sw. destruct W as (-> & _). apply in_concat. exists run. split; auto. eapply nth_error_In; eauto.
  - pose proof (reached_ready strtod rexmatch lm sp Hd _ _ Hre) as Y. rewrite Forall_forall in Y. apply (Y e (nth_error_In _ _ He)).
Qed.
End Verbose.

(** ** Examples *)
From Verif Require ExTable.
Local Open Scope string_scope.
Local Open Scope list_scope.
Local Open Scope Z_scope.
Notation o := ExTable.o.
Notation eh i := (e_hdr (nth i ExTable.tab (arg_litn None None 0 0 None))).
(** " [-v|--verbose|--version]... [-n|--num=<int>]... [-o|--output=<file>] <string> [<string>]" *)
Definition ex_parts : list part :=
  [Opt 0 None [lit "--version"]; Word (lit "x"); Opt 1 (o "12") [lit "--num=12"]; Opt 2 (o "a.c") [lit "-oa.c"]; Word (lit "y"); Opt 0 None [lit "-v"]].
Definition ex_parts' : list part :=
  [Opt 2 (o "a.c") [lit "--output"; lit "a.c"]; Opt 0 None [lit "-v"]; Opt 0 None [lit "--verbose"]; Opt 1 (o "12") [lit "-n"; lit "12"]; Word (lit "x"); Word (lit "y")].
Definition ex_line : list string := ["--version"; "x"; "--num=12"; "-oa.c"; "y"; "-v"].
Definition ex_line' : list string := ["--output"; "a.c"; "-v"; "--verbose"; "-n"; "12"; "x"; "y"].
Ltac tag := apply ex_usable; [reflexivity|reflexivity|reflexivity|discriminate|discriminate|reflexivity].
Lemma ex_good : Forall (good_part ExTable.hdrs) ex_parts /\ flat_map args ex_parts = map lit ex_line.
Proof.
  split; [|reflexivity]. repeat apply Forall_cons; try apply Forall_nil.
  - exists (eh 0%nat), (lit "--version"). split; [tag|apply to_switch; reflexivity].
  - intros cs H. discriminate H.
  - exists (eh 1%nat), (lit "--num"). split; [tag|]. apply (to_name (eh 1%nat) (lit "--num") (lit "num") (lit "12")); [reflexivity|reflexivity|discriminate].
  - exists (eh 2%nat), (lit "-o"). split; [tag|]. apply (to_letter (eh 2%nat) (lit "-o") "o"%char (lit "a.c")); [reflexivity|reflexivity|discriminate].
  - intros cs H. discriminate H.
  - exists (eh 0%nat), (lit "-v"). split; [tag|apply to_switch; reflexivity].
Qed.
Lemma ex_good' : Forall (good_part ExTable.hdrs) ex_parts' /\ flat_map args ex_parts' = map lit ex_line'.
Proof.
  split; [|reflexivity]. repeat apply Forall_cons; try apply Forall_nil.
  - exists (eh 2%nat), (lit "--output"). split; [tag|]. apply to_next; [reflexivity|reflexivity|discriminate].
  - exists (eh 0%nat), (lit "-v"). split; [tag|apply to_switch; reflexivity].
  - exists (eh 0%nat), (lit "--verbose"). split; [tag|apply to_switch; reflexivity].
  - exists (eh 1%nat), (lit "-n"). split; [tag|]. apply to_next; [reflexivity|reflexivity|discriminate].
  - intros cs H. discriminate H.
  - intros cs H. discriminate H.
Qed.
Definition ex_runs : list (list str) := [[]; []; []; [lit "x"; lit "y"]].
Lemma ex_given i : given_to i (options_of ex_parts) = given_to i ex_occurrences /\ given_to i (options_of ex_parts') = given_to i ex_occurrences.
Proof. destruct i as [|[|[|i]]]; split; reflexivity. Qed.
Lemma ex_wishes : wishes ExTable.strtod ExTable.rexmatch Long64 unix_seps ExTable.tab ex_parts ex_runs.
Proof.
  split; [reflexivity|]. split; [reflexivity|]. split.
  - intros i e run He Hr. rewrite (proj1 (ex_given i)). destruct C59_case_shared as (_ & _ & H). destruct (H i e run He Hr) as (H1 & H2 & _). auto.
  - intros i j e run run' Hij He Hr Hr' [Hno _] _ Hne. exfalso.
    destruct i as [|[|[|i]]]; cbn [ExTable.tab nth_error] in He; try (injection He as <-; discriminate Hno).
    destruct j as [|[|[|[|j]]]]; try lia. cbn in Hr'. destruct j; discriminate.
Qed.
Lemma ex_ordered' posix : ordered posix ex_parts'.
Proof.
  intros _ a s b E. unfold ex_parts' in E.
  do 4 (destruct a as [|? a]; [discriminate E|]; cbn [app] in E; injection E as _ E).
  destruct a as [|? a]; cbn [app] in E; [injection E as _ <-; repeat constructor; eexists; reflexivity|]. injection E as _ E.
  destruct a as [|? a]; cbn [app] in E; [injection E as _ <-; constructor|]. injection E as _ E. destruct a; discriminate.
Qed.
Lemma ex_call l : ExTable.strs_cstr (map lit l) = true -> call 4 ExTable.tab (ExTable.en 4) (ExTable.heap0 ("p" :: l)) 1 (lit "p") (map lit l) (S (total (map lit l)) + 0).
Proof. apply ExTable.call_ok. lia. Qed.
Definition run (tab : list (entry (body Z))) (l : list string) :=
  ExTable.parse false ExTable.jo ExTable.jc ExTable.jp (S (total (map lit l)) + 0) (zlen (lit "p" :: map lit l)) 1 (ExTable.heap0 ("p" :: l)) ExTable.s0 tab (ExTable.en 4).
Example C93_case : exists h' s' tab' en', run ExTable.tab ex_line = Ok (h', s', tab', en') /\ end_count en' = 0 /\ exists e, nth_error tab' 0 = Some e /\ kcount (e_body e) = Some 2.
Proof.
  destruct (C93_line_followed ExTable.strtod ExTable.rexmatch unix_seps ex_contract true false 4 ExTable.tab ex_parts ex_runs (map lit ex_line) ExTable.jo ExTable.jc ExTable.jp _ _ _ ExTable.s0 _ _
    ex_reached (proj1 ex_good) ltac:(discriminate) ex_wishes (eq_sym (proj2 ex_good)) ltac:(apply safe_values; vm_compute; reflexivity) (ex_call ex_line eq_refl)) as (h' & s' & tab' & en' & E & Hz & H).
  exists h', s', tab', en'. split; [exact E|]. split; [exact Hz|]. destruct (H 0%nat _ _ eq_refl eq_refl ltac:(discriminate)) as (e' & H1 & H2 & _). exists e'. split; [exact H1|exact H2].
Qed.
(** The same with other alternatives and in another order: each entry gets the same. *)
Example C93_case_same : exists h1 s1 tab1 en1 h2 s2 tab2 en2, run ExTable.tab ex_line = Ok (h1, s1, tab1, en1) /\ end_count en1 = 0 /\ run ExTable.tab ex_line' = Ok (h2, s2, tab2, en2) /\ end_count en2 = 0 /\ exists e1 e2, nth_error tab1 1 = Some e1 /\ nth_error tab2 1 = Some e2 /\ kcount (e_body e1) = kcount (e_body e2) /\ slots (e_body e1) = slots (e_body e2).
Proof.
  assert (V : forall l, forallb suffixes_convert (map lit l) = true -> ExTable.strs_cstr (map lit l) = true -> Forall (safe_value Long64 true) (map lit l)) by (intros l; apply safe_values).
  pose proof (C93_same_meaning ExTable.strtod ExTable.rexmatch unix_seps ex_contract true false 4 ExTable.tab ex_parts ex_parts' ex_runs ExTable.jo ExTable.jc ExTable.jp) as T.
  rewrite (proj2 ex_good), (proj2 ex_good') in T.
  destruct (T _ _ _ ExTable.s0 _ _ _ _ ExTable.s0 _ _ _ ex_reached (proj1 ex_good) (proj1 ex_good') ltac:(discriminate) (ex_ordered' false) ex_wishes eq_refl
    (fun i => eq_trans (proj2 (ex_given i)) (eq_sym (proj1 (ex_given i)))) (V ex_line ltac:(vm_compute; reflexivity) eq_refl) (V ex_line' ltac:(vm_compute; reflexivity) eq_refl) (ex_call ex_line eq_refl) (ex_call ex_line' eq_refl))
    as (h1 & s1 & tab1 & en1 & h2 & s2 & tab2 & en2 & P1 & Z1 & P2 & Z2 & F).
  exists h1, s1, tab1, en1, h2, s2, tab2, en2. split; [exact P1|]. split; [exact Z1|]. split; [exact P2|]. split; [exact Z2|].
  destruct (F 1%nat _ eq_refl ltac:(discriminate)) as (e1 & e2 & A & B & C & E). eauto 8.
Qed.
(** Options first, with POSIXLY_CORRECT. *)
Example C93_case_posix : exists h' s' tab' en', ExTable.parse true ExTable.jo ExTable.jc ExTable.jp (S (total (map lit ex_line')) + 0) (zlen (lit "p" :: map lit ex_line')) 1 (ExTable.heap0 ("p" :: ex_line')) ExTable.s0 ExTable.tab (ExTable.en 4) = Ok (h', s', tab', en') /\ end_count en' = 0.
Proof.
  assert (W : wishes ExTable.strtod ExTable.rexmatch Long64 unix_seps ExTable.tab ex_parts' ex_runs).
  { destruct ex_wishes as (W1 & W2 & W3 & W4). split; [reflexivity|]. split; [exact W2|]. split; [|exact W4]. intros i e run He Hr. rewrite (proj2 (ex_given i)), <- (proj1 (ex_given i)). auto. }
  destruct (C93_line_followed ExTable.strtod ExTable.rexmatch unix_seps ex_contract true true 4 ExTable.tab ex_parts' ex_runs (map lit ex_line') ExTable.jo ExTable.jc ExTable.jp _ _ _ ExTable.s0 _ _
    ex_reached (proj1 ex_good') (ex_ordered' true) W (eq_sym (proj2 ex_good')) ltac:(apply safe_values; vm_compute; reflexivity) (ex_call ex_line' eq_refl)) as (h' & s' & tab' & en' & E & Hz & _).
  eauto 8.
Qed.

(** The equals sign that the line shows belongs to the long names alone. Behind a letter it becomes part of the value, and if the
    value is a text nobody notices. *)
Definition out_tab : list (entry (body Z)) := [arg_strn (o "o") (o "out") (o "<f>") 0 1 None].
Theorem C93_letter_equals_refuted : exists tab h, tab = [h] /\ reached ExTable.strtod ExTable.rexmatch Long64 unix_seps true tab /\ Forall good_hdr (map e_hdr tab) /\
  verbose (h_shortopts (e_hdr h)) (h_longopts (e_hdr h)) (h_datatype (e_hdr h)) (h_hasoptvalue (e_hdr h)) (lit "|") = lit "-o|--out=<f>" /\
  (exists h' s' e' en', run tab ["-o=x"] = Ok (h', s', [e'], en') /\ end_count en' = 0 /\ slots (e_body e') = [VText (lit "=x")]) /\
  (exists h' s' e' en', run tab ["--out=x"] = Ok (h', s', [e'], en') /\ end_count en' = 0 /\ slots (e_body e') = [VText (lit "x")]).
Proof.
  exists out_tab. eexists. split; [reflexivity|]. split; [apply reached_new; repeat constructor; cbn; try discriminate; auto; try lia|].
  split; [apply ExTable.good_hdrs_ok; reflexivity|]. split; [reflexivity|].
  split; do 4 eexists; (split; [vm_compute; reflexivity|]); split; reflexivity.
Qed.
(** An optional value is shown behind the equals sign, but must not follow as the next argument: it would be a positional
    argument. (The forms of [typed_option] leave this out.) *)
Definition color_tab : list (entry (body Z)) := [with_optvalue (arg_strn (o "c") (o "color") (o "<c>") 0 1 None); arg_strn None None (o "<f>") 0 1 None].
Theorem C93_optional_next_refuted : exists tab e1 e2, tab = [e1; e2] /\ reached ExTable.strtod ExTable.rexmatch Long64 unix_seps true tab /\ Forall good_hdr (map e_hdr tab) /\
  verbose (h_shortopts (e_hdr e1)) (h_longopts (e_hdr e1)) (h_datatype (e_hdr e1)) (h_hasoptvalue (e_hdr e1)) (lit "|") = lit "-c|--color=[<c>]" /\
  (exists h' s' e1' e2' en', run tab ["--color"; "red"] = Ok (h', s', [e1'; e2'], en') /\ end_count en' = 0 /\ slots (e_body e1') = [VText []] /\ slots (e_body e2') = [VText (lit "red")]).
Proof.
  exists color_tab. eexists. eexists. split; [reflexivity|]. split; [apply reached_new; repeat constructor; cbn; try discriminate; auto; try lia|].
  split; [apply ExTable.good_hdrs_ok; reflexivity|]. split; [reflexivity|].
  do 5 eexists. split; [vm_compute; reflexivity|]. repeat split; reflexivity.
Qed.

Print Assumptions C93_line_followed.
Print Assumptions C93_same_meaning.
Print Assumptions C93_letter_equals_refuted.
Print Assumptions C93_optional_next_refuted.
