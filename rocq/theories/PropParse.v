(** C01, C04 to C12, C14 and C49: what arg_parse does, for tables of entries of any kinds (the
    library's own and user-defined ones; a kind is given by its scan, check and reset functions).

    In all of them [call cap tab en h argv a0 rest fuel] describes the call: the table [tab] has option
    strings free of the characters the scanner reserves, arg_end was made with capacity [cap] >= 1,
    [argv] is an array in the heap [h] holding the program name [a0] and the C strings [rest].
    [jo jc jp] are the contents of fresh memory, [s] the process-wide getopt variables, [posix] tells
    whether POSIXLY_CORRECT is set. [observe] keeps the table, the return value and the recorded errors. *)
From Verif Require Import Base IntModel FileModel DateModel GetoptModel ParseModel ParseSpec GetoptProofs ParseIdeal ParseProofs ParseFacts ParseObserve ParseSafe ParseLemmas ArgModel.
From Verif Require ExTable.
From Coq Require Import ZArith List Ascii String Bool Lia.
Import ListNotations.
Open Scope Z_scope.

Section Generic.
Context {B : Type}.
Context (scan : hdr -> B -> option (option str -> res (B * Z))).
Context (check : hdr -> B -> option Z).
Context (reset : hdr -> B -> res B).
Notation parse := (arg_parse scan check reset).
Notation parsed_alike := (parsed_alike scan check reset).
Notation parsed_alike_but_text := (parsed_alike_but_text scan check reset).

(** C01. Whatever the getopt variables [s], [s'] (and the contents of fresh memory, the rest of the
    heap, the previous content of arg_end and the program name) are, the outcome is the same. If no
    argument is a cluster with a dash at its end (see C12) also failures are the same. *)
Theorem C01_history_independent :
  forall posix cap tab rest jo jc jp fuel argv h s en a0 jo' jc' jp' fuel' argv' h' s' en' a0',
  call cap tab en h argv a0 rest fuel -> call cap tab en' h' argv' a0' rest fuel' ->
  (forall r, observe (parse posix jo jc jp fuel (zlen (a0 :: rest)) argv h s tab en) = Ok r <->
             observe (parse posix jo' jc' jp' fuel' (zlen (a0' :: rest)) argv' h' s' tab en') = Ok r) /\
  ((forall a, In a rest -> ~ dash_tailed a) ->
   observe (parse posix jo jc jp fuel (zlen (a0 :: rest)) argv h s tab en) =
   observe (parse posix jo' jc' jp' fuel' (zlen (a0' :: rest)) argv' h' s' tab en')).
Proof. exact (history scan check reset). Qed.

(** The same when argc is 0. *)
Theorem C01_history_independent_no_arguments :
  forall posix cap tab jo jc jp fuel argv h s en jo' jc' jp' fuel' argv' h' s' en',
  wf_end cap en -> wf_end cap en' ->
  observe (parse posix jo jc jp fuel 0 argv h s tab en) = observe (parse posix jo' jc' jp' fuel' 0 argv' h' s' tab en').
Proof. intros. rewrite (observe_empty scan check reset _ _ _ _ cap), (observe_empty scan check reset _ _ _ _ cap) by auto. reflexivity. Qed.

(** C04. A parse finds a list of errors [errs], the same for every capacity; with capacity [cap] the
    return value is the smaller of [cap] and their number, and what is recorded is [shown cap errs]. *)
Theorem C04_error_list :
  forall posix cap0 tab rest jo jc jp fuel argv h s en a0 tab' n l,
  call cap0 tab en h argv a0 rest fuel ->
  observe (parse posix jo jc jp fuel (zlen (a0 :: rest)) argv h s tab en) = Ok (tab', n, l) ->
  exists errs, n = Z.min cap0 (zlen errs) /\ l = shown cap0 errs /\
  forall cap jo jc jp fuel argv h s en a0, call cap tab en h argv a0 rest fuel ->
  observe (parse posix jo jc jp fuel (zlen (a0 :: rest)) argv h s tab en) = Ok (tab', Z.min cap (zlen errs), shown cap errs).
Proof. exact (error_list scan check reset). Qed.

(** C05. The caller's memory, the argv array included, is as before; all blocks allocated meanwhile
    have been freed. *)
Theorem C05_argv_unchanged_nothing_leaked :
  forall posix cap tab rest jo jc jp fuel argv h s en a0 h' s' tab' en',
  call cap tab en h argv a0 rest fuel ->
  parse posix jo jc jp fuel (zlen (a0 :: rest)) argv h s tab en = Ok (h', s', tab', en') ->
  (forall p b, nth_error h p = Some b -> nth_error h' p = Some b) /\
  (forall p b, (List.length h <= p)%nat -> nth_error h' p = Some b -> b = BFreed).
Proof.
  intros posix cap tab rest jo jc jp fuel argv h s en a0 h' s' tab' en' Hc Hp.
  destruct (parse_heap scan check reset _ _ _ _ _ _ _ _ _ _ _ _ _ _ _ _ _ Hc Hp) as [-> _]. split.
  - intros p b Hb. rewrite nth_error_app1; auto. apply nth_error_Some. congruence.
  - intros p b Hl Hb. rewrite nth_error_app2 in Hb by auto. apply nth_error_In in Hb. cbn in Hb. intuition congruence.
Qed.
Theorem C05_argv_unchanged_no_arguments :
  forall posix tab jo jc jp fuel argv h s en h' s' tab' en',
  parse posix jo jc jp fuel 0 argv h s tab en = Ok (h', s', tab', en') -> h' = h.
Proof.
  intros posix tab jo jc jp fuel argv h s en h' s' tab' en' H. unfold arg_parse, arg_parse_in in H. cbn [Z.eqb] in H.
  apply bind_ok in H as (t & _ & H). apply bind_ok in H as (e & _ & H). congruence.
Qed.

(** C06. The positional arguments are distributed over the entries without options ([distributes]):
    in table order each entry takes a run of the arguments, up to the first one it rejects; what is
    left at the end is reported. [tab1] is the table after the options were processed. *)
Theorem C06_positionals_in_order :
  forall posix cap tab rest evs pos jo jc jp fuel argv h s en a0 tab' n errs,
  call cap tab en h argv a0 rest fuel -> read_args posix (map e_hdr tab) rest = (evs, Finished pos) ->
  observe (parse posix jo jc jp fuel (zlen (a0 :: rest)) argv h s tab en) = Ok (tab', n, errs) ->
  exists tab0 tab1 errs1 errs2,
    ideal_reset reset tab = Ok tab0 /\ ideal_events scan evs (tab0, []) = Ok (tab1, errs1) /\
    distributes scan 0 tab1 pos None tab' errs2 /\
    (errs1 ++ errs2 <> [] -> n = Z.min cap (zlen (errs1 ++ errs2)) /\ errs = shown cap (errs1 ++ errs2)).
Proof. exact (positional_parse scan check reset). Qed.

(** Such a distribution loses nothing: the arguments are the runs taken by the entries without
    options, in table order, and then those cited by the errors. *)
Theorem C06_nothing_lost :
  forall tab pos tab' errs, distributes scan 0 tab pos None tab' errs ->
  exists runs : list (list str),
    pos = List.concat runs ++ cited errs /\ List.length runs = List.length tab /\
    forall k e run, nth_error tab k = Some e -> nth_error runs k = Some run -> run <> [] -> no_options (e_hdr e).
Proof.
  intros tab pos tab' errs H. destruct (distributes_all scan _ _ _ _ _ _ H I) as (taken & left & E & <- & runs & -> & H1 & H2).
  exists runs. auto.
Qed.

(** C07. After -- all arguments are positional. [l] is what precedes it: positional arguments and
    complete options (so the -- is not the value of an option). *)
Theorem C07_after_double_dash :
  forall posix cap tab jo jc jp fuel argv h s en a0 l post,
  Forall (good_item (map e_hdr tab)) l -> (posix = true -> positionals l = []) ->
  call cap tab en h argv a0 (cmdline l ++ lit "--" :: post) fuel ->
  observe (parse posix jo jc jp fuel (zlen (a0 :: cmdline l ++ lit "--" :: post)) argv h s tab en)
  = (st <- ideal_parse scan check reset (events l) (positionals l ++ post) tab ;; Ok (visible cap st)).
Proof. intros. apply one_pass; auto. apply read_after_dashes; auto. Qed.

(** C08. Parsing is a left to right reading of the arguments ([read_args]), without permutation. *)
Theorem C08_one_pass :
  forall posix cap jo jc jp fuel argv h s tab en a0 rest evs pos,
  call cap tab en h argv a0 rest fuel -> read_args posix (map e_hdr tab) rest = (evs, Finished pos) ->
  observe (parse posix jo jc jp fuel (zlen (a0 :: rest)) argv h s tab en)
  = (st <- ideal_parse scan check reset evs pos tab ;; Ok (visible cap st)).
Proof. exact (one_pass scan check reset). Qed.
(** Two interleavings of the same options and the same positional arguments are parsed alike. *)
Theorem C08_interleaving :
  forall t l l', Forall (good_item t) l -> Forall (good_item t) l' ->
  events l = events l' -> positionals l = positionals l' -> parsed_alike false t (cmdline l) (cmdline l').
Proof. exact (interleaving scan check reset). Qed.
(** In particular all positional arguments may be moved to the end, after --. *)
Theorem C08_positionals_last :
  forall t l, Forall (good_item t) l -> parsed_alike false t (cmdline l) (option_args l ++ lit "--" :: positionals l).
Proof. exact (positionals_last scan check reset). Qed.
(** With POSIXLY_CORRECT everything from the first positional argument on is positional. *)
Theorem C08_posix_stops :
  forall t l p rest, Forall (good_item t) l -> positionals l = [] -> is_positional p = true ->
  parsed_alike true t (cmdline l ++ p :: rest) (cmdline l ++ lit "--" :: p :: rest).
Proof. exact (posix_stops scan check reset). Qed.

(** C09. A long name that selects entry [i] (it is the name of it and of no earlier one; or it is no
    name at all, and all names it is a prefix of belong to entry [i]) makes that entry scan, with
    the value if it takes one. *)
Theorem C09_long_option_selected :
  forall posix cap tab jo jc jp fuel argv h s en a0 l post evs pos nm i hd v g,
  Forall (good_item (map e_hdr tab)) l -> (posix = true -> positionals l = []) ->
  nm <> [] -> ~ In "="%char nm -> selects (map e_hdr tab) nm i hd ->
  match long_takes hd with
  | TNo => v = None /\ g = [lit "--" ++ nm]
  | TOpt => v = None /\ g = [lit "--" ++ nm] \/ exists x, v = Some x /\ x <> [] /\ g = [lit "--" ++ nm ++ "="%char :: x]
  | TReq => exists x, v = Some x /\ x <> [] /\ (g = [lit "--" ++ nm; x] \/ g = [lit "--" ++ nm ++ "="%char :: x])
  end ->
  read_args posix (map e_hdr tab) post = (evs, Finished pos) ->
  call cap tab en h argv a0 (cmdline l ++ g ++ post) fuel ->
  observe (parse posix jo jc jp fuel (zlen (a0 :: cmdline l ++ g ++ post)) argv h s tab en)
  = (st <- ideal_parse scan check reset (events l ++ EvScan i v :: evs) (positionals l ++ pos) tab ;; Ok (visible cap st)).
Proof.
  intros posix cap tab jo jc jp fuel argv h s en a0 l post evs pos nm i hd v g Hl Hpx Hn He Hs Hv Hr Hc.
  change (EvScan i v :: evs) with ([EvScan i v] ++ evs). apply in_context; auto.
  pose proof (long_item _ nm i hd Hn He Hs) as H. destruct (long_takes hd).
  - destruct Hv as [-> ->]. exact H.
  - destruct Hv as (x & -> & Hx & [->| ->]); [exact (proj2 (H x Hx))|exact (proj1 (H x Hx))].
  - destruct Hv as [[-> ->]|(x & -> & Hx & ->)]; [exact (proj1 H)|exact (proj2 H x Hx)].
Qed.
(** A name that selects no entry is an error citing the argument. *)
Theorem C09_long_option_rejected :
  forall posix cap tab jo jc jp fuel argv h s en a0 l post evs pos body,
  Forall (good_item (map e_hdr tab)) l -> (posix = true -> positionals l = []) ->
  body <> [] -> (forall i hd, ~ selects (map e_hdr tab) (name_part body) i hd) ->
  read_args posix (map e_hdr tab) post = (evs, Finished pos) ->
  call cap tab en h argv a0 (cmdline l ++ [lit "--" ++ body] ++ post) fuel ->
  observe (parse posix jo jc jp fuel (zlen (a0 :: cmdline l ++ [lit "--" ++ body] ++ post)) argv h s tab en)
  = (st <- ideal_parse scan check reset (events l ++ EvErr ARG_ELONGOPT (Some (lit "--" ++ body)) :: evs) (positionals l ++ pos) tab ;; Ok (visible cap st)).
Proof.
  intros posix cap tab jo jc jp fuel argv h s en a0 l post evs pos body Hl Hpx Hb Hs Hr Hc.
  change (EvErr ARG_ELONGOPT (Some (lit "--" ++ body)) :: evs) with ([EvErr ARG_ELONGOPT (Some (lit "--" ++ body))] ++ evs). apply in_context; auto.
  destruct (long_item_positional body Hb). apply item_alone; auto. intros next. cbn [lit list_ascii_of_string app tl].
  rewrite read_cluster_long by auto. unfold read_long. rewrite (long_find_none _ _ Hs). reflexivity.
Qed.

(** C10. A cluster may be split after an option without value (known or not). The tables, the return
    values and the errors are the same, except that an error about the options in the rest cites the
    argument it stands in. *)
Theorem C10_cluster :
  forall posix t l x cs post, Forall (good_item t) l -> (posix = true -> positionals l = []) ->
  passes t x -> cs <> [] -> cs <> lit "-" ->
  parsed_alike_but_text posix t (cmdline l ++ ("-"%char :: x :: cs) :: post) (cmdline l ++ ["-"%char; x] :: ("-"%char :: cs) :: post).
Proof. exact (cluster_alike scan check reset). Qed.
(** A required value may be attached to the cluster or follow it. *)
Theorem C10_attached_value :
  forall posix t l xs c i hd v post, Forall (good_item t) l -> (posix = true -> positionals l = []) ->
  Forall (passes t) xs -> c <> "-"%char -> first_declaring t c i hd -> short_takes hd = TReq -> v <> [] ->
  snd (read_args posix t post) <> Hangs ->
  parsed_alike posix t (cmdline l ++ ["-"%char :: xs ++ c :: v] ++ post) (cmdline l ++ ["-"%char :: xs ++ [c]; v] ++ post).
Proof.
  intros. destruct (cluster_value t xs c i hd v) as [G1 G2]; auto. eapply items_alike; eauto.
Qed.

(** C11. *)
Theorem C11_equals_sign :
  forall posix t l nm i hd v post, Forall (good_item t) l -> (posix = true -> positionals l = []) ->
  nm <> [] -> ~ In "="%char nm -> selects t nm i hd -> long_takes hd = TReq -> v <> [] ->
  snd (read_args posix t post) <> Hangs ->
  parsed_alike posix t (cmdline l ++ [lit "--" ++ nm ++ "="%char :: v] ++ post) (cmdline l ++ [lit "--" ++ nm; v] ++ post).
Proof.
  intros posix t l nm i hd v post Hl Hpx Hn He Hs Ht Hv Hh. pose proof (long_item t nm i hd Hn He Hs) as H. rewrite Ht in H.
  destruct (H v Hv) as [G1 G2]. eapply items_alike; eauto.
Qed.

(** C12. With entries whose functions are well behaved (they keep an invariant [Inv] and return for
    values in [Val]), arg_parse returns, as long as no argument is
    a short option cluster with a dash at its end. *)
Theorem C12_terminates :
  forall Inv Val posix cap tab rest jo jc jp fuel argv h s en a0,
  safe_kinds scan reset Inv Val -> Forall (inv Inv) tab -> Forall Val rest -> call cap tab en h argv a0 rest fuel ->
  (forall a, In a rest -> ~ dash_tailed a) ->
  exists h' s' tab' en', parse posix jo jc jp fuel (zlen (a0 :: rest)) argv h s tab en = Ok (h', s', tab', en') /\ Forall (inv Inv) tab'.
Proof. exact (terminates scan check reset). Qed.
(** With such a cluster, made of options without value, it does not return. *)
Theorem C12_never_returns :
  forall posix cap tab jo jc jp argv h s en a0 l (xs a : str) (post : list str) fuel,
  Forall (good_item (map e_hdr tab)) l -> (posix = true -> positionals l = []) ->
  a = "-"%char :: xs ++ lit "-" -> xs <> [] -> Forall (passes (map e_hdr tab)) xs ->
  call cap tab en h argv a0 (cmdline l ++ a :: post) fuel ->
  forall fuel' r, parse posix jo jc jp fuel' (zlen (a0 :: cmdline l ++ a :: post)) argv h s tab en <> Ok r.
Proof. exact (hangs scan check reset). Qed.

(** C14. An argument with a bad option ([bad_option]), reached by the scan, gives a positive count. *)
Theorem C14_bad_option_reported :
  forall posix cap tab jo jc jp fuel argv h s en a0 l a post tab' n errs,
  Forall (good_item (map e_hdr tab)) l -> (posix = true -> positionals l = []) ->
  bad_option (map e_hdr tab) a (hd_error post) -> call cap tab en h argv a0 (cmdline l ++ a :: post) fuel ->
  observe (parse posix jo jc jp fuel (zlen (a0 :: cmdline l ++ a :: post)) argv h s tab en) = Ok (tab', n, errs) -> 0 < n.
Proof. exact (bad_reported scan check reset). Qed.

(** C49. *)
Theorem C49_short_option_dispatched :
  forall posix cap tab jo jc jp fuel argv h s en a0 l post evs pos c i hd v g,
  Forall (good_item (map e_hdr tab)) l -> (posix = true -> positionals l = []) ->
  c <> "-"%char -> first_declaring (map e_hdr tab) c i hd ->
  match short_takes hd with
  | TNo => v = None /\ g = [["-"%char; c]]
  | TOpt => v = None /\ g = [["-"%char; c]] \/ exists x, v = Some x /\ x <> [] /\ g = ["-"%char :: c :: x]
  | TReq => exists x, v = Some x /\ (g = [["-"%char; c]; x] \/ x <> [] /\ g = ["-"%char :: c :: x])
  end ->
  read_args posix (map e_hdr tab) post = (evs, Finished pos) ->
  call cap tab en h argv a0 (cmdline l ++ g ++ post) fuel ->
  observe (parse posix jo jc jp fuel (zlen (a0 :: cmdline l ++ g ++ post)) argv h s tab en)
  = (st <- ideal_parse scan check reset (events l ++ EvScan i v :: evs) (positionals l ++ pos) tab ;; Ok (visible cap st)).
Proof.
  intros posix cap tab jo jc jp fuel argv h s en a0 l post evs pos c i hd v g Hl Hpx Hc Hf Hv Hr Hcall.
  change (EvScan i v :: evs) with ([EvScan i v] ++ evs). apply in_context; auto.
  pose proof (short_item _ c i hd Hc Hf) as H. destruct (short_takes hd).
  - destruct Hv as [-> ->]. exact H.
  - destruct Hv as (x & -> & [->|[Hx ->]]); [exact (proj1 (H x))|exact (proj2 (H x) Hx)].
  - destruct Hv as [[-> ->]|(x & -> & Hx & ->)]; [exact (proj1 H)|exact (proj2 H x Hx)].
Qed.
End Generic.

(** ** C04, at the level of one error *)
Fixpoint register_errors (l : list err) (en : arg_end) : res arg_end :=
  match l with
  | [] => Ok en
  | e :: l' => en <- arg_register_error en (err_owner e) (err_code e) (err_argval e) ;; register_errors l' en
  end.
(** Any sequence of errors recorded after a reset. *)
Theorem C04_register_sequence :
  forall cap en l, wf_end cap en ->
  exists en', register_errors l (arg_end_resetfn en) = Ok en' /\
    end_count en' = Z.min cap (zlen l) /\
    recorded en' = (if zlen l <=? cap then l else firstn (Z.to_nat (cap - 1)) l ++ [mk_err PEnd ARG_ELIMIT None]).
Proof.
  intros cap en l H. destruct (register_all cap l (arg_end_resetfn en) [] (reset_rep cap en H)) as (en' & E & R).
  exists en'. split; [|split; [exact (r_count _ _ _ R)|exact (r_rec _ _ _ R)]].
  rewrite <- E. generalize (arg_end_resetfn en). clear. induction l as [|e l IH]; intros en; cbn; auto.
Qed.
(** Capacity 0: the first error is written in front of the array. *)
Theorem C04_capacity_zero_refuted :
  forall jz jp jv p c v, arg_register_error (arg_end_resetfn (arg_end_new jz jp jv 0)) p c v = UB OOBWrite.
Proof. reflexivity. Qed.

(** ** C01: the restriction on option characters is needed *)
(** With an option -? the outcome depends on what an earlier call left in optopt. *)
Definition question_table : list (entry (body Z)) := [arg_litn (Some (lit "?")) None 0 1 None].
Definition question_run (s : gst) :=
  observe (ExTable.parse false ExTable.jo ExTable.jc ExTable.jp 9 2 1 (ExTable.heap0 ["p"; "-?"]%string) s question_table (ExTable.en 4)).
Definition clean_state : gst := {| optind := 0; optopt := 0; optreset := false; optarg := None; place_off := 0; place := []; nonopt_start := 0;
    nonopt_end := 0; posixly := 0; getoptval := 0; nargv := [] |}.
Theorem C01_question_mark_refuted :
  exists s s' r r', question_run s = Ok r /\ question_run s' = Ok r' /\ r <> r'.
Proof.
  exists ExTable.s0, clean_state.
  destruct (question_run ExTable.s0) as [r| |] eqn:E1; [|vm_compute in E1; discriminate|vm_compute in E1; discriminate].
  destruct (question_run clean_state) as [r'| |] eqn:E2; [|vm_compute in E2; discriminate|vm_compute in E2; discriminate].
  exists r, r'. split; auto. split; auto. intros ->. rewrite <- E2 in E1. vm_compute in E1. discriminate.
Qed.

(** ** Examples: the hypotheses are met, and the results are not trivial *)
(** Table: -v/--verbose,--version; -n/--num <int>; -o/--output <file>; one or two positional strings. *)
Local Open Scope string_scope.
Local Open Scope list_scope.
Local Open Scope Z_scope.
Notation args := ExTable.args.
Definition nu (s : string) : option str := Some (lit s).
Definition seen (l : list string) :=
  match observe (ExTable.run l) with Ok (t, n, e) => Some (map (fun x => kcount (e_body x)) t, map e_body t, n, e) | _ => None end.

Definition ex_items : list item :=
  [Positional (lit "x"); Options (args ["-vn"; "12"]) [EvScan 0 None; EvScan 1 (nu "12")]; Options (args ["--out=a.c"]) [EvScan 2 (nu "a.c")]; Positional (lit "y")].
Lemma ex_items_good : Forall (good_item ExTable.hdrs) ex_items.
Proof.
  repeat constructor; cbn; discriminate.
Qed.
Example C01_case : forall s s', call 4 ExTable.tab (ExTable.en 4) (ExTable.heap0 ["p"; "x"; "-vn"; "12"]) 1 (lit "p") (args ["x"; "-vn"; "12"]) 100 /\
  observe (ExTable.parse false ExTable.jo ExTable.jc ExTable.jp 100 4 1 (ExTable.heap0 ["p"; "x"; "-vn"; "12"]) s ExTable.tab (ExTable.en 4)) =
  observe (ExTable.parse false ExTable.jo ExTable.jc ExTable.jp 100 4 1 (ExTable.heap0 ["p"; "x"; "-vn"; "12"]) s' ExTable.tab (ExTable.en 4)).
Proof.
  intros s s'. pose proof (ExTable.call_ok "p" ["x"; "-vn"; "12"] 4 93 ltac:(lia) eq_refl) as H. split; [exact H|].
  refine (proj2 (C01_history_independent _ _ _ _ _ _ _ _ _ _ _ _ _ s _ _ _ _ _ _ _ _ s' _ _ H H) _).
  intros a Ha (x & p & E & Hx). cbn in Ha. destruct Ha as [<-|[<-|[<-|[]]]]; try discriminate.
  injection E as <- E. destruct p as [|? [|? ?]]; discriminate.
Qed.
(** Errors: with capacity 4 the fifth error replaces the fourth. *)
Example C04_case : option_map (fun r => (snd (fst r), snd r)) (seen ["p"; "-x"; "-y"; "--zz"; "--ver"; "-q"; "-n"]) =
  Some (4, [mk_err PEnd 120 None; mk_err PEnd 121 None; mk_err PEnd ARG_ELONGOPT (nu "--zz"); mk_err PEnd ARG_ELIMIT None]).
Proof. vm_compute. reflexivity. Qed.
Example C05_case : exists h' s' t' e', ExTable.run ["p"; "x"; "-v"; "y"; "-n"; "3"] = Ok (h', s', t', e') /\
  nth_error h' 1 = Some (BArgv (map Some (args ["p"; "x"; "-v"; "y"; "-n"; "3"]) ++ [None])) /\ List.length h' = 5%nat.
Proof. do 4 eexists. split; [vm_compute; reflexivity|]. split; reflexivity. Qed.
(** Two strings are taken, the others reported: the first rejected by the last entry, then unexpected. *)
Example C06_case : option_map (fun r => (fst (fst (fst r)), snd r)) (seen ["p"; "a"; "b"; "c"; "d"]) =
  Some ([Some 0; Some 0; Some 0; Some 2], [mk_err (PEntry 3) ARG_ERR_MAXCOUNT (nu "c"); mk_err PEnd ARG_ENOMATCH (nu "d")]).
Proof. vm_compute. reflexivity. Qed.
Example C06_case_distributes : exists t e, ideal_positional (kscan ExTable.strtod ExTable.rexmatch Long64 unix_seps) 0 ExTable.tab (args ["a"; "b"; "c"; "d"]) None = Ok (t, e) /\
  distributes (kscan ExTable.strtod ExTable.rexmatch Long64 unix_seps) 0 ExTable.tab (args ["a"; "b"; "c"; "d"]) None t e /\ cited e = args ["c"; "d"].
Proof.
  do 2 eexists. split; [vm_compute; reflexivity|]. split; [|reflexivity].
  apply ideal_distributes. vm_compute. reflexivity.
Qed.
Example C07_case : option_map (fun r => (fst (fst (fst r)), snd (fst r))) (seen ["p"; "-v"; "--"; "-v"; "--num"]) = Some ([Some 1; Some 0; Some 0; Some 2], 0).
Proof. vm_compute. auto. Qed.
Example C07_case_value : option_map (fun r => (fst (fst (fst r)), snd (fst r))) (seen ["p"; "-o"; "--"; "-v"; "x"]) = Some ([Some 1; Some 0; Some 1; Some 1], 0).
Proof. vm_compute. auto. Qed.
Example C08_case : seen ["p"; "x"; "-vn"; "12"; "--out=a.c"; "y"] = seen ["p"; "-vn"; "12"; "x"; "y"; "--out=a.c"] /\
  seen ["p"; "x"; "-vn"; "12"; "--out=a.c"; "y"] = seen ("p" :: ["-vn"; "12"; "--out=a.c"; "--"; "x"; "y"])%string /\
  option_map (fun r => (fst (fst (fst r)), snd (fst r))) (seen ["p"; "x"; "-vn"; "12"; "--out=a.c"; "y"]) = Some ([Some 1; Some 1; Some 1; Some 2], 0).
Proof. vm_compute. auto. Qed.
Example C08_case_items : cmdline ex_items = args ["x"; "-vn"; "12"; "--out=a.c"; "y"] /\ positionals ex_items = args ["x"; "y"] /\ Forall (good_item ExTable.hdrs) ex_items.
Proof. split; [reflexivity|]. split; [reflexivity|apply ex_items_good]. Qed.
(** --verb selects entry 0; --ver too, since both names it abbreviates belong to it. *)
Example C09_case : exists hd, selects ExTable.hdrs (lit "ver") 0 hd /\ long_takes hd = TNo.
Proof.
  exists (e_hdr (nth 0 ExTable.tab (arg_rem None None))). split; [apply long_find_iff|]; reflexivity.
Qed.
Example C09_case_ambiguous : forall i hd, ~ selects (map e_hdr [arg_litn None (nu "foo") 0 1 None; @arg_litn Z None (nu "fob") 0 1 None]) (lit "fo") i hd.
Proof.
  intros i hd [H Hn _|n Hno H Hn Hp Hall].
  - destruct i as [|[|i]]; cbn in H; [injection H as <-|injection H as <-|destruct i; discriminate]; cbn in Hn; intuition discriminate.
  - assert (0 = i)%nat by (eapply (Hall 0%nat _ (lit "foo")); [reflexivity|left; reflexivity|exists (lit "o"); reflexivity]).
    assert (1 = i)%nat by (eapply (Hall 1%nat _ (lit "fob")); [reflexivity|left; reflexivity|exists (lit "b"); reflexivity]). lia.
Qed.
Example C10_case : passes ExTable.hdrs "v" /\ first_declaring ExTable.hdrs "n" 1 (e_hdr (nth 1 ExTable.tab (arg_rem None None))).
Proof. split; [split; [discriminate|right; do 2 eexists; split; reflexivity]|]. apply short_find_iff. reflexivity. Qed.
Example C10_case_run : seen ["p"; "a"; "-vn12"] = seen ["p"; "a"; "-v"; "-n12"] /\ seen ["p"; "a"; "-vn12"] = seen ["p"; "a"; "-vn"; "12"].
Proof. vm_compute. auto. Qed.
(** The text cited may differ. *)
Example C10_case_text : option_map snd (seen ["p"; "-vn"]) = Some [mk_err PEnd ARG_EMISSARG (nu "-vn")] /\
  option_map snd (seen ["p"; "-v"; "-n"]) = Some [mk_err PEnd ARG_EMISSARG (nu "-n")].
Proof. vm_compute. auto. Qed.
Example C11_case : seen ["p"; "a"; "--num=12"] = seen ["p"; "a"; "--num"; "12"] /\ selects ExTable.hdrs (lit "num") 1 (e_hdr (nth 1 ExTable.tab (arg_rem None None))).
Proof. split; [vm_compute; reflexivity|]. apply long_find_iff. reflexivity. Qed.
Example C12_case : forall fuel r, ExTable.parse false ExTable.jo ExTable.jc ExTable.jp fuel 3 1 (ExTable.heap0 ["p"; "a"; "-v-"]) ExTable.s0 ExTable.tab (ExTable.en 4) <> Ok r.
Proof.
  pose proof (ExTable.call_ok "p" ["a"; "-v-"] 4 0 ltac:(lia) eq_refl) as H.
  refine (C12_never_returns _ _ _ _ _ _ _ _ _ _ _ _ _ _ [Positional (lit "a")] (lit "v") (lit "-v-") [] _ _ _ eq_refl _ _ H); auto; try discriminate.
  - repeat constructor.
  - constructor; [exact (proj1 C10_case)|constructor].
Qed.
Example C14_case : bad_option ExTable.hdrs (lit "-vq") None /\ bad_option ExTable.hdrs (lit "--zz=1") None /\ bad_option ExTable.hdrs (lit "-vn") None /\
  bad_option ExTable.hdrs (lit "--verb=3") (Some (lit "x")) /\ bad_option ExTable.hdrs (lit "--num") None.
Proof.
  assert (P : Forall (passes ExTable.hdrs) (lit "v")) by (constructor; [exact (proj1 C10_case)|constructor]).
  repeat split.
  - apply (bad_short ExTable.hdrs (lit "v") "q" []); auto; [discriminate|]. apply (short_find_none _ _ 0). reflexivity.
  - apply (bad_long ExTable.hdrs [] (lit "zz=1")); auto; [discriminate|]. intros i hd Hs. apply long_find_iff in Hs. discriminate.
  - eapply (bad_short_missing ExTable.hdrs (lit "v") "n"); auto; [discriminate|apply short_find_iff; reflexivity|reflexivity].
  - eapply (bad_value ExTable.hdrs [] (lit "verb=3")); [constructor|apply long_find_iff; reflexivity|reflexivity|reflexivity].
  - eapply (bad_long_missing ExTable.hdrs [] (lit "num")); [constructor|discriminate|apply long_find_iff; reflexivity|reflexivity|reflexivity].
Qed.
Example C49_case : seen ["p"; "-n7"; "z"] = seen ["p"; "-n"; "7"; "z"] /\ option_map (fun r => fst (fst (fst r))) (seen ["p"; "-n7"; "z"]) = Some [Some 0; Some 1; Some 0; Some 1].
Proof. vm_compute. auto. Qed.

Print Assumptions C01_history_independent.
Print Assumptions C01_history_independent_no_arguments.
Print Assumptions C04_error_list.
Print Assumptions C05_argv_unchanged_nothing_leaked.
Print Assumptions C05_argv_unchanged_no_arguments.
Print Assumptions C06_positionals_in_order.
Print Assumptions C06_nothing_lost.
Print Assumptions C07_after_double_dash.
Print Assumptions C08_one_pass.
Print Assumptions C08_interleaving.
Print Assumptions C08_positionals_last.
Print Assumptions C08_posix_stops.
Print Assumptions C09_long_option_selected.
Print Assumptions C09_long_option_rejected.
Print Assumptions C10_cluster.
Print Assumptions C10_attached_value.
Print Assumptions C11_equals_sign.
Print Assumptions C12_terminates.
Print Assumptions C12_never_returns.
Print Assumptions C14_bad_option_reported.
Print Assumptions C49_short_option_dispatched.
Print Assumptions C04_register_sequence.
Print Assumptions C04_capacity_zero_refuted.
Print Assumptions C01_question_mark_refuted.
