(** C91: entries with functions of the program's own that call arg_parse themselves. *)
From Verif Require Import Base IntModel GetoptModel ParseModel ParseSpec LongOnlySpec LongOnlyFacts OptTables GetoptProofs ParseIdeal ParseProofs ParseFacts ParseObserve ParseLemmas ReportSpec ReportProofs ShareModel ShareSpec ShareProofs PropShare NestModel NestSpec NestProofs.
From Verif Require ExTable.
From Coq Require Import ZArith List Ascii String Bool Lia.
Import ListNotations.
Open Scope Z_scope.

(** What is seen afterwards: the state of the program, the return value, the recorded errors. *)
Definition nest_seen {G} (r : res (gst * G * arg_end)) : res (G * Z * list err) :=
  '(s, g, en) <- r ;; Ok (g, end_count en, recorded en).

Section Nest.
Context {G : Type}.
Context (scan0 : nat -> option (option str -> G -> res (G * Z))).
Context (checkf resetf : nat -> option (gst -> G -> res (gst * G * Z))).
Context (check0 reset0 : nat -> option (G -> res (G * Z))).
Notation act := (doings scan0 check0 reset0).

(** Reset and check functions may call arg_parse for other tables, whose reset and check functions may do so again, to any depth: the outcome is
    that of C90, with each of these functions doing for the program what it would do if it were called on its own. It does not depend on
    the state [s] in which the scanner is before. *)
Theorem C91_nested :
  forall posix cap tab rest jo jc fuel s g en a0 evs pos,
  wf_end cap en -> Forall good_hdr tab -> Forall cstr rest -> (total rest < fuel)%nat -> reading tab posix rest evs pos ->
  (forall i, checkf i = None <-> check0 i = None) -> (forall i F f, checkf i = Some F -> check0 i = Some f -> quiet F f) ->
  (forall i, resetf i = None <-> reset0 i = None) -> (forall i F f, resetf i = Some F -> reset0 i = Some f -> quiet F f) ->
  nest_seen (nest_parse tab (plain_scan scan0) checkf resetf posix jo jc fuel (a0 :: rest) s g en)
  = ('(g, errs) <- share_spec act tab evs pos g ;; Ok (g, Z.min cap (zlen errs), shown cap errs)).
Proof.
  intros posix cap tab rest jo jc fuel s g en a0 evs pos Hen Hg Hc Hfu Hr Hcn Hcs Hrn Hrs.
  apply reading_iff in Hr. rewrite <- read_args_default in Hr.
  pose proof (read_args_in_len false posix tab rest) as Hl. rewrite Hr in Hl. cbn in Hl.
  pose proof (nest_finishes tab scan0 checkf resetf check0 reset0 Hcn (fun i F f H1 H2 => quiet_to_program F f (Hcs i F f H1 H2)) Hrn
    (fun i F f H1 H2 => quiet_to_program F f (Hrs i F f H1 H2)) cap posix jo jc false fuel s g en a0 rest evs pos Hen Hg Hc Hr ltac:(lia)) as Hn.
  unfold nest_parse.
  destruct (share_spec act tab evs pos g) as [[g1 e1]| |],
    (nest_parse_in tab (plain_scan scan0) checkf resetf posix jo jc false fuel (a0 :: rest) s g en) as [[[s1 g1'] en1]| |]; cbn in Hn |- *; try contradiction; try congruence.
  destruct Hn as [-> HR]. cbn in *. rewrite (r_count _ _ _ HR), (r_rec _ _ _ HR). reflexivity.
Qed.

(** In particular it is that of the program in which these functions leave the scanner alone. *)
Theorem C91_as_if_alone :
  forall posix cap tab rest jo jc fuel s s' g en a0 evs pos,
  wf_end cap en -> Forall good_hdr tab -> Forall cstr rest -> (total rest < fuel)%nat -> reading tab posix rest evs pos ->
  (forall i, checkf i = None <-> check0 i = None) -> (forall i F f, checkf i = Some F -> check0 i = Some f -> quiet F f) ->
  (forall i, resetf i = None <-> reset0 i = None) -> (forall i F f, resetf i = Some F -> reset0 i = Some f -> quiet F f) ->
  forall jp argv h, ParseProofs.holds h argv (a0 :: rest) ->
  nest_seen (nest_parse tab (plain_scan scan0) checkf resetf posix jo jc fuel (a0 :: rest) s g en)
  = seen (share_parse tab scan0 check0 (fun i => match reset0 i with Some f => Some (fun g => '(g, _) <- f g ;; Ok g) | None => None end) posix jo jc jp fuel (zlen (a0 :: rest)) argv h s' g en).
Proof.
  intros posix cap tab rest jo jc fuel s s' g en a0 evs pos Hen Hg Hc Hfu Hr Hcn Hcs Hrn Hrs jp argv h Hh.
  rewrite (C91_nested posix cap tab rest jo jc fuel s g en a0 evs pos Hen Hg Hc Hfu Hr Hcn Hcs Hrn Hrs).
  symmetry. apply C90_shared; [constructor; auto|exact Hr].
Qed.
End Nest.

(** ** Scan functions that call arg_parse *)
Lemma some_inj {A} (x y : A) : Some x = Some y -> x = y.
Proof. congruence. Qed.
Definition ex_h (hasvalue : bool) (so lo : option str) : hdr :=
  {| h_hasvalue := hasvalue; h_hasoptvalue := false; h_shortopts := so; h_longopts := lo; h_datatype := None; h_glossary := None; h_mincount := 0; h_maxcount := 9 |}.
Definition no_functions {A} (_ : nat) : option A := None.
(** arg_parse for a table without entries and the arguments [l]. *)
Definition ex_inner {G} (l : list string) : gst -> G -> res (gst * G * Z) := parsing [] no_functions no_functions no_functions false ExTable.jo ExTable.jc 40 (map lit l) (ExTable.en 3).
(** It does nothing to the program, and answers the number of errors. *)
Lemma ex_inner_quiet {G} (l : list string) evs pos : ExTable.strs_cstr (map lit l) = true -> (total (map lit l) < 40)%nat -> reading [] false (map lit l) evs pos ->
  quiet (@ex_inner G ("x"%string :: l)) (fun g => '(g, errs) <- share_spec (doings no_functions no_functions no_functions) [] evs pos g ;; Ok (g, Z.min 3 (zlen errs))).
Proof.
  intros Hc Hf Hr. unfold ex_inner. cbn [map]. change (@no_functions (option str -> gst -> G -> res (gst * G * Z))) with (plain_scan (G := G) no_functions).
  apply quiet_parse; try (intros; discriminate); try (intros; split; reflexivity); auto.
  - apply (sc_end _ _ _ _ _ _ _ _ (ex_call [] 3 0 ltac:(lia) eq_refl)).
  - apply ExTable.strs_cstr_ok. exact Hc.
Qed.

(** -f <v>, with a scan function that parses a command line of its own that has no arguments, and returns 0. *)
Definition ex_tab1 : list hdr := [ex_h true (Some (lit "f")) (Some (lit "file"))].
Definition ex_scan1 (i : nat) : option (option str -> gst -> unit -> res (gst * unit * Z)) := Some (fun v => ex_inner ["x"%string]).
Definition ex_args1 : list str := map lit ["p"; "-f"; "v"]%string.
(** The scanner as it is whenever the scan function has returned. *)
Definition ex_stuck : gst :=
  {| optind := 1; optopt := 0; optreset := false; optarg := None; place_off := 0; place := []; nonopt_start := -1; nonopt_end := -1; posixly := 0; getoptval := 0; nargv := ex_args1 |}.
Lemma ex_stuck_step o : getopt_in false false (S (List.length (nargv (set_optopt o ex_stuck)))) 3 (lit ":f:") [{| lo_name := lit "file"; lo_has_arg := 1; lo_flag := true; lo_val := 0 |}] (set_optopt o ex_stuck)
  = Ok (102, set_optarg (Some (lit "v")) (set_optind 3 (set_optopt o ex_stuck))).
Proof. vm_compute. reflexivity. Qed.
Lemma ex_stuck_scan o e : nest_switch ex_tab1 ex_scan1 102 (set_optarg (Some (lit "v")) (set_optind 3 (set_optopt o ex_stuck))) tt e = Ok (set_optopt o ex_stuck, tt, e).
Proof. destruct e. vm_compute. reflexivity. Qed.
Lemma ex_stuck_ever o e : forall F, nest_tagged ex_tab1 ex_scan1 false false F 3 (lit ":f:") [{| lo_name := lit "file"; lo_has_arg := 1; lo_flag := true; lo_val := 0 |}] (set_optopt o ex_stuck) tt e = OutOfFuel.
Proof. induction F as [|F IH]; [reflexivity|]. cbn [nest_tagged]. rewrite ex_stuck_step. cbn [bind]. change (102 =? -1) with false. cbn iota. rewrite ex_stuck_scan. cbn [bind]. exact IH. Qed.
Lemma ex_stuck_first s e F : nest_tagged ex_tab1 ex_scan1 false false (S F) 3 (lit ":f:") [{| lo_name := lit "file"; lo_has_arg := 1; lo_flag := true; lo_val := 0 |}]
    (set_getoptval 0 (set_nargv ex_args1 (set_optind 0 s))) tt e
  = nest_tagged ex_tab1 ex_scan1 false false F 3 (lit ":f:") [{| lo_name := lit "file"; lo_has_arg := 1; lo_flag := true; lo_val := 0 |}] (set_optopt (optopt s) ex_stuck) tt e.
Proof.
  cbn [nest_tagged].
  assert (E : getopt_in false false (S (List.length (nargv (set_getoptval 0 (set_nargv ex_args1 (set_optind 0 s)))))) 3 (lit ":f:") [{| lo_name := lit "file"; lo_has_arg := 1; lo_flag := true; lo_val := 0 |}]
     (set_getoptval 0 (set_nargv ex_args1 (set_optind 0 s))) = Ok (102, set_optarg (Some (lit "v")) (set_optind 3 (set_optopt (optopt s) ex_stuck)))).
  { destruct s as [i o r a po p ns ne px gv na]. unfold getopt_in, getopt_long, getopt_internal.
    cbn [set_getoptval set_nargv set_optind set_optreset optind optreset posixly]. change (0 =? 0) with true. cbn iota. cbn [set_optreset optreset posixly]. rewrite orb_true_r.
    vm_compute. reflexivity. }
  rewrite E. cbn [bind]. change (102 =? -1) with false. cbn iota. rewrite ex_stuck_scan. reflexivity.
Qed.
(** The option is read again and again: arg_parse does not return. *)
Theorem C91_scan_never_returns_refuted :
  exists tab (scanf : nat -> option (option str -> gst -> unit -> res (gst * unit * Z))) f args evs pos,
  Forall good_hdr tab /\ (forall i, scanf i = Some (fun v => f)) /\ (exists f0, quiet f f0 /\ forall g, f0 g = Ok (g, 0)) /\ reading tab false args evs pos /\
  forall fuel jo jc s g en, nest_parse tab scanf no_functions no_functions false jo jc fuel (lit "p" :: args) s g en = OutOfFuel.
Proof.
  exists ex_tab1, ex_scan1, (ex_inner ["x"%string]), (map lit ["-f"; "v"]%string), [EvScan 0 (Some (lit "v"))], [].
  split; [apply ExTable.good_hdrs_ok; reflexivity|]. split; [reflexivity|]. split.
  { eexists. split; [apply (ex_inner_quiet [] [] []); [reflexivity|vm_compute; lia|constructor]|]. intros g. reflexivity. }
  split; [apply reading_iff; vm_compute; reflexivity|].
  intros fuel jo jc s g en. destruct g. unfold nest_parse, nest_parse_in. change (zlen (lit "p" :: map lit ["-f"; "v"]%string)) with 3. cbn [nest_reset ex_tab1 no_functions bind].
  change (3 =? 0) with false. cbn iota.
  assert (Hl : Forall good_longopts ex_tab1 /\ Forall good_shortopts ex_tab1).
  { assert (Hg : Forall good_hdr ex_tab1) by (apply ExTable.good_hdrs_ok; reflexivity). split; (eapply Forall_impl; [|exact Hg]; intros ? []; auto). }
  destruct Hl as [Hl Hs]. change [ex_h true (Some (lit "f")) (Some (lit "file"))] with ex_tab1.
  rewrite (alloc_longoptions_ok _ _ _ Hl). cbn [bind]. rewrite (alloc_shortoptions_ok _ _ (short_string_cstr _ Hs)). cbn [bind].
  destruct fuel as [|F]; [reflexivity|].
  match goal with |- context[nest_tagged _ _ _ _ _ _ ?so ?lo _ _ _] => change so with (lit ":f:"); change lo with [{| lo_name := lit "file"; lo_has_arg := 1; lo_flag := true; lo_val := 0 |}] end.
  change (lit "p" :: map lit ["-f"; "v"]%string) with ex_args1. cbv zeta. rewrite ex_stuck_first, ex_stuck_ever. reflexivity.
Qed.

(** The program's own part of such a scan function: [own] works on the program's variables, after arg_parse for the table without entries and the arguments [l]. *)
Definition ex_after {G} (l : list string) (own : G -> res (G * Z)) : gst -> G -> res (gst * G * Z) := fun s g => '(s, g, _) <- ex_inner l s g ;; plain own s g.
Lemma ex_after_quiet {G} (l : list string) evs pos (own : G -> res (G * Z)) : ExTable.strs_cstr (map lit l) = true -> (total (map lit l) < 40)%nat -> reading [] false (map lit l) evs pos ->
  exists f, quiet (ex_after ("x"%string :: l) own) f /\ forall g, f g = own g.
Proof.
  intros Hc Hf Hr. pose proof (ex_inner_quiet (G := G) l evs pos Hc Hf Hr) as Hq.
  exists (fun g => '(g, c) <- ('(g, errs) <- share_spec (doings no_functions no_functions no_functions) [] evs pos g ;; Ok (g, Z.min 3 (zlen errs))) ;; own g). split.
  - exact (quiet_then _ _ (fun _ => plain own) (fun _ => own) Hq (fun c => quiet_plain own)).
  - intros g. unfold share_spec. cbn [List.length seq all_reset bind].
    assert (Ho : forall evs (g : G), exists e, all_options (doings no_functions no_functions no_functions) evs g = Ok (g, e)).
    { induction evs0 as [|[k v|k v] evs0 IH]; intros g0; cbn [all_options]; [eauto| |]; destruct (IH g0) as [e E].
      - unfold answer. cbn [doings acts no_functions bind]. rewrite E. cbn [bind]. eauto.
      - rewrite E. cbn [bind]. eauto. }
    destruct (Ho evs g) as [e ->]. cbn [bind without_options List.length seq combine filter map].
    assert (Hp : exists e2, all_positional (doings no_functions no_functions no_functions) [] pos None g = Ok (g, e2)) by (destruct pos; cbn [all_positional]; eauto).
    destruct Hp as [e2 ->]. cbn [bind]. destruct (e ++ e2); cbn [bind all_checked]; reflexivity.
Qed.

(** --file=<v> and -v, which is counted. The parse inside of --file reads three arguments, so the outer one goes on with argument number three: -v is lost. *)
Definition ex_tab2 : list hdr := [ex_h true (Some (lit "f")) (Some (lit "file")); ex_h false (Some (lit "v")) None].
Definition ex_own2 (i : nat) : option (option str -> Z -> res (Z * Z)) := match i with O => Some (fun _ g => Ok (g, 0)) | _ => Some (fun _ g => Ok (g + 1, 0)) end.
Definition ex_scan2 (i : nat) : option (option str -> gst -> Z -> res (gst * Z * Z)) :=
  match i with O => Some (fun v => ex_after ["x"; "y"; "z"]%string (fun g => Ok (g, 0))) | _ => plain_scan ex_own2 i end.
Definition ex_args2 : list str := map lit ["--file=v"; "-v"]%string.
Theorem C91_scan_skips_refuted :
  exists tab own scanf args evs pos fuel s,
  Forall good_hdr tab /\ Forall cstr args /\ reading tab false args evs pos /\ (total args < fuel)%nat /\
  (forall i F v, scanf i = Some F -> exists f f0, own i = Some f /\ quiet (F v) f0 /\ forall g : Z, f0 g = f v g) /\
  nest_seen (nest_parse tab scanf no_functions no_functions false ExTable.jo ExTable.jc fuel (lit "p" :: args) s 0 (ExTable.en 3)) = Ok (0, 0, []) /\
  share_spec (doings own no_functions no_functions) tab evs pos 0 = Ok (1, []).
Proof.
  exists ex_tab2, ex_own2, ex_scan2, ex_args2, [EvScan 0 (Some (lit "v")); EvScan 1 None], [], 40%nat, gst_init.
  split; [apply ExTable.good_hdrs_ok; reflexivity|]. split; [apply ExTable.strs_cstr_ok; reflexivity|]. split; [apply reading_iff; vm_compute; reflexivity|].
  split; [vm_compute; lia|]. split; [|split; vm_compute; reflexivity].
  intros [|i] F v HF; unfold ex_scan2, plain_scan, ex_own2 in HF; cbv iota beta in HF; apply some_inj in HF; subst F; cbv beta.
  - destruct (ex_after_quiet (G := Z) ["y"; "z"]%string [] [lit "y"; lit "z"] (fun g => Ok (g, 0)) eq_refl ltac:(vm_compute; lia) ltac:(apply reading_iff; vm_compute; reflexivity)) as (f & Hf & E).
    exists (fun _ g => Ok (g, 0)), f. auto.
  - exists (fun _ g => Ok (g + 1, 0)), (fun g => Ok (g + 1, 0)). split; [reflexivity|]. split; [apply (quiet_plain (fun g => Ok (g + 1, 0)))|reflexivity].
Qed.

(** The same option refused: the error is recorded without the text that was refused. *)
Definition ex_own3 (i : nat) : option (option str -> Z -> res (Z * Z)) := Some (fun _ g => Ok (g, 7)).
Definition ex_scan3 (i : nat) : option (option str -> gst -> Z -> res (gst * Z * Z)) := Some (fun v => ex_after ["x"; "y"; "z"]%string (fun g => Ok (g, 7))).
Theorem C91_scan_forgets_refuted :
  exists tab own scanf args evs pos fuel s,
  Forall good_hdr tab /\ Forall cstr args /\ reading tab false args evs pos /\ (total args < fuel)%nat /\
  (forall i F v, scanf i = Some F -> exists f f0, own i = Some f /\ quiet (F v) f0 /\ forall g : Z, f0 g = f v g) /\
  nest_seen (nest_parse tab scanf no_functions no_functions false ExTable.jo ExTable.jc fuel (lit "p" :: args) s 0 (ExTable.en 3)) = Ok (0, 1, [mk_err (PEntry 0) 7 None]) /\
  share_spec (doings own no_functions no_functions) tab evs pos 0 = Ok (0, [mk_err (PEntry 0) 7 (Some (lit "v"))]).
Proof.
  exists ex_tab1, ex_own3, ex_scan3, (map lit ["-f"; "v"]%string), [EvScan 0 (Some (lit "v"))], [], 40%nat, gst_init.
  split; [apply ExTable.good_hdrs_ok; reflexivity|]. split; [apply ExTable.strs_cstr_ok; reflexivity|]. split; [apply reading_iff; vm_compute; reflexivity|].
  split; [vm_compute; lia|]. split; [|split; vm_compute; reflexivity].
  intros i F v HF; unfold ex_scan3 in HF; apply some_inj in HF; subst F; cbv beta.
  destruct (ex_after_quiet (G := Z) ["y"; "z"]%string [] [lit "y"; lit "z"] (fun g => Ok (g, 7)) eq_refl ltac:(vm_compute; lia) ltac:(apply reading_iff; vm_compute; reflexivity)) as (f & Hf & E).
  exists (fun _ g => Ok (g, 7)), f. auto.
Qed.

(** An entry without options that takes up to three arguments and parses a command line without arguments for each: of the arguments 'a' and 'b' it is offered 'b' again and again. *)
Definition ex_take (v : option str) (g : list str) : res (list str * Z) :=
  match v with Some a => if (List.length g <? 3)%nat then Ok (g ++ [a], 0) else Ok (g, 5) | None => Ok (g, 6) end.
Definition ex_tab4 : list hdr := [ex_h true None None].
Definition ex_scan4 (i : nat) : option (option str -> gst -> list str -> res (gst * list str * Z)) := Some (fun v => ex_after ["x"%string] (ex_take v)).
Theorem C91_scan_repeats_refuted :
  exists tab own scanf args evs pos fuel s,
  Forall good_hdr tab /\ Forall cstr args /\ reading tab false args evs pos /\ (total args < fuel)%nat /\
  (forall i F v, scanf i = Some F -> exists f f0, own i = Some f /\ quiet (F v) f0 /\ forall g : list str, f0 g = f v g) /\
  nest_seen (nest_parse tab scanf no_functions no_functions false ExTable.jo ExTable.jc fuel (lit "p" :: args) s [] (ExTable.en 3))
    = Ok ([lit "a"; lit "b"; lit "b"], 2, [mk_err (PEntry 0) 5 (Some (lit "a")); mk_err PEnd ARG_ENOMATCH (Some (lit "b"))]) /\
  share_spec (doings own no_functions no_functions) tab evs pos [] = Ok ([lit "a"; lit "b"], []).
Proof.
  exists ex_tab4, (fun _ => Some ex_take), ex_scan4, (map lit ["a"; "b"]%string), [], (map lit ["a"; "b"]%string), 40%nat, gst_init.
  split; [apply ExTable.good_hdrs_ok; reflexivity|]. split; [apply ExTable.strs_cstr_ok; reflexivity|]. split; [apply reading_iff; vm_compute; reflexivity|].
  split; [vm_compute; lia|]. split; [|split; vm_compute; reflexivity].
  intros i F v HF; unfold ex_scan4 in HF; apply some_inj in HF; subst F; cbv beta.
  destruct (ex_after_quiet (G := list str) [] [] [] (ex_take v) eq_refl ltac:(vm_compute; lia) ltac:(constructor)) as (f & Hf & E).
  exists ex_take, f. auto.
Qed.

(** ** An example of C91_nested *)
(** The outer program: words are collected, -q sets a flag. Its check function for the words parses 'x -d', with an inner table in which -d adds ten; the inner table's
    reset function parses 'x -d -d' for a third table, in which -d adds one hundred. *)
Definition ex_g : Type := Z * list str.
Definition ex_add (n : Z) (i : nat) : option (option str -> ex_g -> res (ex_g * Z)) := Some (fun _ g => Ok ((fst g + n, snd g), 0)).
Definition ex_tabd : list hdr := [ex_h false (Some (lit "d")) None].
Definition ex_third : gst -> ex_g -> res (gst * ex_g * Z) := parsing ex_tabd (plain_scan (ex_add 100)) no_functions no_functions false ExTable.jo ExTable.jc 40 (map lit ["x"; "-d"; "-d"]%string) (ExTable.en 3).
Definition ex_third0 (g : ex_g) : res (ex_g * Z) :=
  '(g, errs) <- share_spec (doings (ex_add 100) no_functions no_functions) ex_tabd [EvScan 0 None; EvScan 0 None] [] g ;; Ok (g, Z.min 3 (zlen errs)).
Definition ex_second : gst -> ex_g -> res (gst * ex_g * Z) := parsing ex_tabd (plain_scan (ex_add 10)) no_functions (fun i => Some ex_third) false ExTable.jo ExTable.jc 40 (map lit ["x"; "-d"]%string) (ExTable.en 3).
Definition ex_second0 (g : ex_g) : res (ex_g * Z) :=
  '(g, errs) <- share_spec (doings (ex_add 10) no_functions (fun i => Some ex_third0)) ex_tabd [EvScan 0 None] [] g ;; Ok (g, Z.min 3 (zlen errs)).
Definition ex_outer : list hdr := [ex_h true None None; ex_h false (Some (lit "q")) None].
Definition ex_outer_scan (i : nat) : option (option str -> ex_g -> res (ex_g * Z)) :=
  match i with O => Some (fun v g => match v with Some a => Ok ((fst g, snd g ++ [a]), 0) | None => Ok (g, 6) end) | _ => ex_add 1 i end.
Definition ex_outer_check {A} (f : A) (i : nat) : option A := match i with O => Some f | _ => None end.
Definition ex_outer_args : list str := map lit ["a"; "-q"; "b"; "-q"]%string.
Example C91_case_quiet : quiet ex_second ex_second0.
Proof.
  assert (H3 : quiet ex_third ex_third0).
  { apply quiet_parse; try (intros; discriminate); try (intros; split; reflexivity).
    - apply (sc_end _ _ _ _ _ _ _ _ (ex_call [] 3 0 ltac:(lia) eq_refl)).
    - apply ExTable.good_hdrs_ok. reflexivity.
    - apply ExTable.strs_cstr_ok. reflexivity.
    - vm_compute. lia.
    - apply reading_iff. vm_compute. reflexivity. }
  apply quiet_parse; try (intros; discriminate); try (intros; split; reflexivity).
  - apply (sc_end _ _ _ _ _ _ _ _ (ex_call [] 3 0 ltac:(lia) eq_refl)).
  - apply ExTable.good_hdrs_ok. reflexivity.
  - apply ExTable.strs_cstr_ok. reflexivity.
  - vm_compute. lia.
  - apply reading_iff. vm_compute. reflexivity.
  - intros; split; discriminate.
  - intros i F f HF Hf. apply some_inj in HF; apply some_inj in Hf; subst F f. exact H3.
Qed.
Example C91_case_nested : forall s,
  nest_seen (nest_parse ex_outer (plain_scan ex_outer_scan) (ex_outer_check ex_second) no_functions false ExTable.jo ExTable.jc 40 (lit "p" :: ex_outer_args) s (0, []) (ExTable.en 3))
  = Ok ((212, [lit "a"; lit "b"]), 0, []).
Proof.
  intros s. rewrite (C91_nested ex_outer_scan _ _ (ex_outer_check ex_second0) no_functions false 3 ex_outer ex_outer_args _ _ _ _ _ _ _ [EvScan 1 None; EvScan 1 None] [lit "a"; lit "b"]).
  - vm_compute. reflexivity.
  - apply (sc_end _ _ _ _ _ _ _ _ (ex_call [] 3 0 ltac:(lia) eq_refl)).
  - apply ExTable.good_hdrs_ok. reflexivity.
  - apply ExTable.strs_cstr_ok. reflexivity.
  - vm_compute. lia.
  - apply reading_iff. vm_compute. reflexivity.
  - intros [|i]; split; try reflexivity; discriminate.
  - intros [|i] F f HF Hf; [|discriminate]. apply some_inj in HF; apply some_inj in Hf; subst F f. exact C91_case_quiet.
  - intros i; split; reflexivity.
  - intros; discriminate.
Qed.

Print Assumptions C91_nested.
Print Assumptions C91_as_if_alone.
Print Assumptions C91_scan_never_returns_refuted.
Print Assumptions C91_scan_skips_refuted.
Print Assumptions C91_scan_forgets_refuted.
Print Assumptions C91_scan_repeats_refuted.
