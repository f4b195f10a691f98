(** C59: which command lines are accepted, and what is then stored.

    CommandSpec.v describes the command lines without saying how they are scanned. [spells]: how arguments spell occurrences of
    options and positional arguments. [shared]: every entry has between mincount and maxcount values, all of its kind, and the
    positional arguments go to the entries without options in table order, each taking as many as it can. The theorems are about
    tables of the library's own kinds on a platform with 64 bit long; parameters as in PropKinds.v. *)
From Verif Require Import Base IntModel IntSpec IntProofs FileModel FileSpec DateModel DateSpec GetoptModel ParseModel ParseSpec GetoptProofs ParseIdeal ParseProofs ParseFacts ParseObserve ParseSafe ParseLemmas ArgModel KindsSpec KindsProofs PropKinds CommandSpec CommandProofs.
From Verif Require ExTable.
From Coq Require Import ZArith List Ascii String Bool Lia.
Import ListNotations.
Open Scope Z_scope.

Section Command.
Context {D : Type}.
Context (strtod : str -> D * nat).
Context (rexmatch : str -> Z -> str -> res bool).
Context (sp : seps).
Notation lm := Long64.
Notation scan := (kscan strtod rexmatch lm sp).
Notation parse := (karg_parse strtod rexmatch lm sp).
Notation safe_value := (safe_value lm).
Notation stored := (stored strtod rexmatch lm sp).
Notation reached := (reached strtod rexmatch lm sp).
Notation shared := (shared strtod rexmatch lm sp).
Hypothesis Hd : strtod_contract strtod.
Notation ready ints := (Forall (inv (Inv rexmatch ints))).

Lemma no_error_events : forall evs (tab tab' : list (entry (body D))), ideal_events scan evs (tab, []) = Ok (tab', []) -> exists os, evs = evs_of os.
Proof.
  induction evs as [|ev evs IH]; intros tab tab' H; [exists []; auto|]. cbn [ideal_events] in H. apply bind_ok in H as ([t1 e1] & H1 & H2).
  destruct (event_grows scan ev tab [] t1 e1 H1) as (l & El). destruct (events_grow scan evs t1 e1 tab' [] H2) as (l2 & E2).
  symmetry in E2. apply app_eq_nil in E2 as [-> _]. destruct (IH t1 tab' H2) as (os & ->).
  destruct ev as [i v|c v]; [exists ((i, v) :: os); reflexivity|]. cbn in H1. discriminate.
Qed.
Lemma spelled_ok ints posix (tab : list (entry (body D))) rest os pos : spells (map e_hdr tab) posix rest os pos -> Forall (safe_value ints) rest ->
  Forall (fun o => (fst o < List.length tab)%nat /\ forall s, snd o = Some s -> safe_value ints s) os /\ Forall (safe_value ints) pos.
Proof.
  intros Hs Hv. apply spells_iff in Hs.
  pose proof (read_args_events_ok (map e_hdr tab) posix rest) as Ho. rewrite Hs in Ho. cbn [fst] in Ho.
  pose proof (kinds_safe strtod rexmatch lm sp Hd ints) as Hsafe.
  destruct (read_args_carries (safe_value ints) (safe_suffix _ _ _ _ Hsafe) _ _ _ _ _ Hv Hs) as [Hce Hcp]. split; auto.
  clear -Ho Hce. induction os as [|[i v] os IH]; constructor; cbn in Ho, Hce; inversion_clear Ho; inversion_clear Hce; auto.
  cbn in *. rewrite map_length in *. split; auto. intros s ->. auto.
Qed.

(** The parse returns 0 exactly for these command lines. *)
Theorem C59_accepted_iff :
  forall ints posix cap tab rest jo jc jp fuel argv h s en a0,
  reached ints tab -> call cap tab en h argv a0 rest fuel -> Forall (safe_value ints) rest ->
  ((exists h' s' tab' en', parse posix jo jc jp fuel (zlen (a0 :: rest)) argv h s tab en = Ok (h', s', tab', en') /\ end_count en' = 0) <->
   exists os pos runs, spells (map e_hdr tab) posix rest os pos /\ shared tab os pos runs).
Proof.
  intros ints posix cap tab rest jo jc jp fuel argv h s en a0 Ht Hc Hv. apply (reached_ready strtod rexmatch lm sp Hd) in Ht.
  pose proof (proj1 (c_end _ _ _ _ _ _ _ _ Hc)) as Hcap. split.
  - intros (h' & s' & tab' & en' & Hp & Hz).
    destruct (parse_ok_safe strtod rexmatch lm sp Hd _ _ _ _ _ _ _ _ _ _ _ _ _ _ _ _ _ _ Ht Hc Hv Hp) as (evs & pos & errs & Hr & Ei & E1 & _).
    rewrite Hz in E1. symmetry in E1. apply zero_errors in E1; auto. subst errs.
    assert (Ho : exists os, evs = evs_of os).
    { unfold ideal_parse in Ei. apply bind_ok in Ei as (t0 & _ & Ei). apply bind_ok in Ei as ([t1 e1] & Ee & Ei). apply bind_ok in Ei as ([t2 e2] & _ & Ei).
      cbn [fst snd] in *. destruct e1; [|discriminate]. eapply no_error_events; eauto. }
    destruct Ho as (os & ->). apply spells_iff in Hr. destruct (spelled_ok ints posix tab rest os pos Hr Hv) as [S1 S2].
    destruct (ideal_elim strtod rexmatch sp Hd ints tab os pos Ht S1 S2 tab' Ei) as (runs & Hs). eauto.
  - intros (os & pos & runs & Hs & Hsh). destruct (spelled_ok ints posix tab rest os pos Hs Hv) as [S1 S2].
    destruct (ideal_intro strtod rexmatch sp Hd ints tab os pos Ht S1 S2 runs Hsh) as (tab' & Ei & _). apply spells_iff in Hs.
    pose proof (one_pass scan kcheck kreset posix cap jo jc jp fuel argv h s tab en a0 rest _ pos Hc Hs) as Ho. rewrite Ei in Ho. unfold karg_parse.
    destruct (arg_parse scan kcheck kreset posix jo jc jp fuel (zlen (a0 :: rest)) argv h s tab en) as [[[[h' s'] t'] en']| |]; try discriminate.
    cbn in Ho. injection Ho as -> E1 E2. exists h', s', tab', en'. split; auto. rewrite E1. change (zlen (@nil err)) with 0. lia.
Qed.

(** And then every entry that counts has counted what it was given, and its slots hold the values in order. *)
Theorem C59_accepted_values :
  forall ints posix cap tab rest jo jc jp fuel argv h s en a0 os pos runs,
  reached ints tab -> call cap tab en h argv a0 rest fuel -> Forall (safe_value ints) rest ->
  spells (map e_hdr tab) posix rest os pos -> shared tab os pos runs ->
  exists h' s' tab' en', parse posix jo jc jp fuel (zlen (a0 :: rest)) argv h s tab en = Ok (h', s', tab', en') /\ end_count en' = 0 /\
  forall i e run, nth_error tab i = Some e -> nth_error runs i = Some run ->
    let given := given_to i os ++ map Some run in
    exists e', nth_error tab' i = Some e' /\ e_hdr e' = e_hdr e /\
      (kcount (e_body e) <> None -> kcount (e_body e') = Some (zlen given) /\ stored (e_body e) (slots_reset (e_body e)) given (slots (e_body e'))).
Proof.
  intros ints posix cap tab rest jo jc jp fuel argv h s en a0 os pos runs Ht Hc Hv Hs Hsh. apply (reached_ready strtod rexmatch lm sp Hd) in Ht.
  pose proof (proj1 (c_end _ _ _ _ _ _ _ _ Hc)) as Hcap. destruct (spelled_ok ints posix tab rest os pos Hs Hv) as [S1 S2].
  destruct (ideal_intro strtod rexmatch sp Hd ints tab os pos Ht S1 S2 runs Hsh) as (tab' & Ei & Hfin). apply spells_iff in Hs.
  pose proof (one_pass scan kcheck kreset posix cap jo jc jp fuel argv h s tab en a0 rest _ pos Hc Hs) as Ho. rewrite Ei in Ho. unfold karg_parse.
  destruct (arg_parse scan kcheck kreset posix jo jc jp fuel (zlen (a0 :: rest)) argv h s tab en) as [[[[h' s'] t'] en']| |]; try discriminate.
  cbn in Ho. injection Ho as -> E1 E2. exists h', s', tab', en'. split; auto. split; [rewrite E1; change (zlen (@nil err)) with 0; lia|exact Hfin].
Qed.

(** A command line can be read in one way only. *)
Lemma evs_of_inj : forall a b, evs_of a = evs_of b -> a = b.
Proof.
  induction a as [|[i v] a IH]; intros [|[j w] b] H; try discriminate; auto. cbn in H. injection H as -> -> H. f_equal. auto.
Qed.
Theorem C59_read_one_way :
  forall t posix rest os1 pos1 os2 pos2, spells t posix rest os1 pos1 -> spells t posix rest os2 pos2 -> os1 = os2 /\ pos1 = pos2.
Proof.
  intros t posix rest os1 pos1 os2 pos2 H1 H2. apply spells_iff in H1. apply spells_iff in H2. rewrite H1 in H2. injection H2 as H2 ->. split; auto. apply evs_of_inj; auto.
Qed.
Lemma acceptable_prefix ints (e : entry (body D)) vs ws : Inv rexmatch ints (e_hdr e) (e_body e) -> kcount (e_body e) <> None ->
  (forall s, In (Some s) (vs ++ ws) -> safe_value ints s) -> zlen (vs ++ ws) <= h_maxcount (e_hdr e) ->
  acceptable strtod rexmatch lm sp e (vs ++ ws) -> acceptable strtod rexmatch lm sp e vs.
Proof.
  intros He Hk Hs Hz Ha. destruct (reset_inv rexmatch ints _ _ He) as (b0 & E & _).
  destruct (proj2 (entry_takes strtod rexmatch sp Hd ints e b0 (vs ++ ws) He Hk E Hs) (conj Hz Ha)) as (b' & T).
  apply takes_split in T as (b1 & T1 & _). apply (entry_takes strtod rexmatch sp Hd ints e b0 vs He Hk E); eauto.
  intros s Hi. apply Hs. apply in_app_iff. auto.
Qed.
Lemma skipn_nth {A} : forall n (r : list A) x, nth_error r n = Some x -> skipn n r = x :: skipn (S n) r.
Proof.
  induction n as [|n IH]; intros [|y r] x H; try discriminate; cbn [nth_error] in H; [injection H as ->; reflexivity|]. apply IH in H. exact H.
Qed.
Lemma firstn_nth {A} : forall n (r : list A) x, nth_error r n = Some x -> firstn (S n) r = firstn n r ++ [x].
Proof.
  induction n as [|n IH]; intros [|y r] x H; try discriminate; cbn [nth_error] in H; [injection H as ->; reflexivity|].
  apply IH in H. cbn [firstn app]. f_equal. exact H.
Qed.
Theorem C59_shared_one_way :
  forall ints tab os pos runs1 runs2, reached ints tab -> Forall (fun o => forall s, snd o = Some s -> safe_value ints s) os -> Forall (safe_value ints) pos ->
  shared tab os pos runs1 -> shared tab os pos runs2 -> runs1 = runs2.
Proof.
  intros ints tab os pos runs1 runs2 Ht Hos Hpos H1 H2. apply (reached_ready strtod rexmatch lm sp Hd) in Ht.
  assert (Hlt : forall n r1 r2, (n < List.length tab)%nat -> shared tab os pos r1 -> shared tab os pos r2 -> firstn n r1 = firstn n r2 ->
    forall x1 x2, nth_error r1 n = Some x1 -> nth_error r2 n = Some x2 -> x1 ++ List.concat (skipn (S n) r1) = x2 ++ List.concat (skipn (S n) r2) /\ ~ (List.length x1 < List.length x2)%nat).
  { intros n r1 r2 Hn (P1 & L1 & S1) (P2 & L2 & S2) Ef x1 x2 N1 N2.
    assert (Ec : List.concat (skipn n r1) = List.concat (skipn n r2)).
    { apply (app_inv_head (List.concat (firstn n r1))). rewrite <- concat_app, firstn_skipn, Ef, <- concat_app, firstn_skipn. congruence. }
    rewrite (skipn_nth _ _ _ N1), (skipn_nth _ _ _ N2) in Ec. cbn [List.concat] in Ec. split; auto. intros Hlen.
    destruct (nth_error tab n) as [e|] eqn:Ee; [|apply nth_error_None in Ee; lia].
    assert (Hx : exists a w, x2 = x1 ++ a :: w /\ List.concat (skipn (S n) r1) = a :: w ++ List.concat (skipn (S n) r2)).
    { clear - Ec Hlen. revert x2 Ec Hlen. induction x1 as [|c x1 IH]; intros [|d x2] Ec Hlen; cbn [List.length] in Hlen; try lia.
      - exists d, x2. split; auto.
      - cbn [app] in Ec. injection Ec as -> Ec. destruct (IH x2 Ec ltac:(lia)) as (a & w & -> & Ew). exists a, w. auto. }
    destruct Hx as (a & w & -> & Ea).
    destruct (S2 n e _ Ee N2) as (No & Sat & _). destruct No as [No Nk]; [destruct x1; discriminate|]. destruct (S1 n e _ Ee N1) as (_ & _ & Nt).
    refine (Nt No a _ _); [rewrite Ea; reflexivity|]. destruct (Sat Nk) as [Hz Hacc].
    assert (Eg : given_to n os ++ map Some (x1 ++ a :: w) = ((given_to n os ++ map Some x1) ++ [Some a]) ++ map Some w) by (rewrite map_app, <- !app_assoc; reflexivity).
    rewrite Eg in Hz, Hacc. pose proof (zlen_nonneg (map (@Some str) w)).
    split; auto. split; [rewrite (zlen_app _ (map Some w)), (zlen_app _ [Some a]) in Hz; change (zlen [Some a]) with 1 in Hz; lia|].
    eapply (acceptable_prefix ints e); [| |intros s Hin|exact (proj2 Hz)|exact Hacc]; auto.
    - rewrite Forall_forall in Ht. apply Ht. eapply nth_error_In; eauto.
    - rewrite <- Eg in Hin. apply in_app_iff in Hin as [Hin|Hin].
      + unfold given_to in Hin. apply in_flat_map in Hin as (o & Ho & Hin). rewrite Forall_forall in Hos. apply (Hos o Ho).
        destruct (Nat.eqb (fst o) n); [|contradiction]. destruct Hin as [Hin|[]]. auto.
      + apply in_map_iff in Hin as (y & [= ->] & Hin). rewrite Forall_forall in Hpos. apply Hpos. rewrite P2. apply in_concat. eexists. split; [eapply nth_error_In; exact N2|auto]. }
  assert (Hall : forall n, (n <= List.length tab)%nat -> firstn n runs1 = firstn n runs2).
  { induction n as [|n IH]; intros Hn; auto. specialize (IH ltac:(lia)).
    destruct (nth_error runs1 n) as [x1|] eqn:N1; [|apply nth_error_None in N1; destruct H1 as (_ & L & _); lia].
    destruct (nth_error runs2 n) as [x2|] eqn:N2; [|apply nth_error_None in N2; destruct H2 as (_ & L & _); lia].
    destruct (Hlt n runs1 runs2 ltac:(lia) H1 H2 IH x1 x2 N1 N2) as [Ec Q1].
    destruct (Hlt n runs2 runs1 ltac:(lia) H2 H1 (eq_sym IH) x2 x1 N2 N1) as [_ Q2].
    rewrite (firstn_nth _ _ _ N1), (firstn_nth _ _ _ N2), IH. f_equal. f_equal.
    assert (El : List.length x1 = List.length x2) by lia. clear - Ec El. revert x2 Ec El. induction x1 as [|c x1 IH]; intros [|d x2] Ec El; try discriminate; auto.
    cbn [app List.length] in *. injection Ec as -> Ec. f_equal. apply IH; auto. }
  pose proof (Hall (List.length tab) (le_n _)) as E. destruct H1 as (_ & L1 & _), H2 as (_ & L2 & _). rewrite <- L1 in E at 1. rewrite <- L2 in E. rewrite !firstn_all in E. auto.
Qed.
End Command.

(** ** Examples *)
Local Open Scope string_scope.
Local Open Scope list_scope.
Local Open Scope Z_scope.
Notation ex_spells := (spells ExTable.hdrs false).
Notation ex_shared := (shared ExTable.strtod ExTable.rexmatch Long64 unix_seps ExTable.tab).
Definition ex_command : list string := ["-vn"; "12"; "x"; "--out=a.c"; "-v"; "y"].
Definition ex_occurrences : list occurrence := [(0%nat, None); (1%nat, Some (lit "12")); (2%nat, Some (lit "a.c")); (0%nat, None)].
(** A cluster of -v and -n with its value in the next argument, an abbreviated long option, two positional arguments. *)
Example C59_case_spells : ex_spells (map lit ex_command) ex_occurrences [lit "x"; lit "y"].
Proof.
  apply (sp_option ExTable.hdrs false (lit "vn") [lit "12"] [(0%nat, None); (1%nat, Some (lit "12"))]
    (map lit ["x"; "--out=a.c"; "-v"; "y"]) [(2%nat, Some (lit "a.c")); (0%nat, None)]); try discriminate.
  { eapply (cl_switch ExTable.hdrs); [discriminate|apply short_find_iff; vm_compute; reflexivity|reflexivity|].
    eapply (cl_next ExTable.hdrs); [discriminate|apply short_find_iff; vm_compute; reflexivity|reflexivity]. }
  apply sp_word; [reflexivity|intros cs H; discriminate H|].
  apply (sp_option ExTable.hdrs false (lit "-out=a.c") [] [(2%nat, Some (lit "a.c"))] (map lit ["-v"; "y"]) [(0%nat, None)]); try discriminate.
  { apply (cl_long ExTable.hdrs (lit "out=a.c")); [discriminate|].
    eapply (lo_equals ExTable.hdrs (lit "out")); [cbn; intuition discriminate|apply long_find_iff; vm_compute; reflexivity|discriminate|discriminate]. }
  apply (sp_option ExTable.hdrs false (lit "v") [] [(0%nat, None)] (map lit ["y"]) []); try discriminate.
  { eapply (cl_switch ExTable.hdrs); [discriminate|apply short_find_iff; vm_compute; reflexivity|reflexivity|constructor]. }
  apply sp_word; [reflexivity|intros cs H; discriminate H|constructor].
Qed.
(** The last entry gets both positional arguments. *)
Example C59_case_shared : ex_shared ex_occurrences [lit "x"; lit "y"] [[]; []; []; [lit "x"; lit "y"]].
Proof.
  split; [reflexivity|]. split; [reflexivity|].
  intros [|[|[|[|i]]]] e run; cbn [nth_error ExTable.tab]; try discriminate; try (destruct i; discriminate); intros [= <-] [= <-].
  - split; [contradiction|]. split; [|intros [H _]; discriminate H]. intros _. split; [vm_compute; split; discriminate|]. exists []. split; [reflexivity|]. intros [|[|[|k]]]; reflexivity.
  - split; [contradiction|]. split; [|intros [H _]; discriminate H]. intros _. split; [vm_compute; split; discriminate|]. exists [VInt 12; VInt 7]. split; [exact I|].
    intros [|[|k]]; [|reflexivity|destruct k; reflexivity]. exists (VInt 7), (VInt 12). split; [reflexivity|]. split; [reflexivity|].
    exists 12. split; auto. intros _. split; [|split; vm_compute; discriminate].
    exists [], (lit "12"), 12, [], 1, []. split; [reflexivity|]. split; [constructor|]. split; [|split; [constructor|split; [constructor|reflexivity]]].
    change 12 with (1 * 12). apply (number_dec [] 1 (lit "12") 12); [constructor|]. apply digits_iff; [lia|]. split; [discriminate|]. split; [repeat constructor|reflexivity].
  - split; [contradiction|]. split; [|intros [H _]; discriminate H]. intros _. split; [vm_compute; split; discriminate|].
    exists [VFile (lit "a.c") (lit "a.c") (lit ".c")]. split; [exact I|]. intros [|k]; [|destruct k; reflexivity].
    exists (VFile [] [] []), (VFile (lit "a.c") (lit "a.c") (lit ".c")). split; [reflexivity|]. split; [reflexivity|].
    exists (lit "a.c"), (lit ".c"). split; [|split; [|reflexivity]].
    + apply bn_plain; [apply lc_0; cbn; intuition discriminate|intros [H|H]; discriminate].
    + apply ext_some. exists (lit "a"), (lit "c"). split; [reflexivity|]. split; [reflexivity|]. split; [cbn; intuition discriminate|split; discriminate].
  - split; [split; [split; reflexivity|discriminate]|]. split; [|intros _ a H; discriminate H].
    intros _. split; [vm_compute; split; discriminate|]. exists [VText (lit "x"); VText (lit "y")]. split; [exact I|].
    intros [|[|k]]; [eexists; eexists; split; [reflexivity|]; split; reflexivity..|destruct k; reflexivity].
Qed.
(** So the parse returns 0 and stores all this. *)
Lemma ex_command_call : call 4 ExTable.tab (ExTable.en 4) (ExTable.heap0 ("p" :: ex_command)) 1 (lit "p") (map lit ex_command) (S (total (args ("p" :: ex_command)))).
Proof. destruct (ExTable.call_ok "p" ex_command 4 0 ltac:(lia) eq_refl) as [H1 H2 H3 H4 _]. constructor; auto. Qed.
Lemma ex_command_safe : Forall (safe_value Long64 true) (map lit ex_command).
Proof. apply safe_values; vm_compute; reflexivity. Qed.
Example C59_case : exists h' s' tab' en', ExTable.parse false ExTable.jo ExTable.jc ExTable.jp (S (total (args ("p" :: ex_command)))) (zlen (lit "p" :: map lit ex_command)) 1
    (ExTable.heap0 ("p" :: ex_command)) ExTable.s0 ExTable.tab (ExTable.en 4) = Ok (h', s', tab', en') /\ end_count en' = 0 /\
  exists e, nth_error tab' 0 = Some e /\ kcount (e_body e) = Some 2.
Proof.
  destruct (C59_accepted_values ExTable.strtod ExTable.rexmatch unix_seps ex_contract true false 4 ExTable.tab (map lit ex_command) ExTable.jo ExTable.jc ExTable.jp _ _ _ ExTable.s0 _ _
    _ _ _ ex_reached ex_command_call ex_command_safe C59_case_spells C59_case_shared) as (h' & s' & tab' & en' & E & Hz & H).
  exists h', s', tab', en'. split; [exact E|]. split; [exact Hz|]. destruct (H 0%nat _ _ eq_refl eq_refl) as (e' & H1 & _ & H2). exists e'. split; [exact H1|].
  exact (proj1 (H2 ltac:(discriminate))).
Qed.
(** A third positional argument, a value that is no integer, an unknown option, a missing value, and no positional argument at
    all: for none of these command lines there is such a reading. *)
Definition rejected (l : list string) : Prop := ~ exists os pos runs, ex_spells (map lit l) os pos /\ ex_shared os pos runs.
Lemma reject (l : list string) : forallb suffixes_convert (map lit l) = true -> ExTable.strs_cstr (map lit l) = true ->
  match ExTable.run ("p" :: l) with Ok (_, _, _, e) => negb (end_count e =? 0) | _ => true end = true -> rejected l.
Proof.
  intros H1 H2 H3 Hr. assert (Hc : call 4 ExTable.tab (ExTable.en 4) (ExTable.heap0 ("p" :: l)) 1 (lit "p") (map lit l) (S (total (args ("p" :: l))))).
  { destruct (ExTable.call_ok "p" l 4 0 ltac:(lia) H2) as [K1 K2 K3 K4 K5]. constructor; auto. }
  apply (C59_accepted_iff ExTable.strtod ExTable.rexmatch unix_seps ex_contract true false 4 ExTable.tab (map lit l) ExTable.jo ExTable.jc ExTable.jp _ _ _ ExTable.s0 _ _
    ex_reached Hc (safe_values _ H1 H2)) in Hr.
  destruct Hr as (h' & s' & t' & e' & E & Hz). unfold ExTable.run, ExTable.parse in H3.
  replace (zlen ("p" :: l)) with (zlen (lit "p" :: map lit l)) in H3 by (unfold zlen; cbn [List.length]; rewrite map_length; reflexivity).
  rewrite E in H3. rewrite Hz in H3. discriminate.
Qed.
Example C59_case_rejected : rejected ["x"; "y"; "z"] /\ rejected ["x"; "-n"; "1y"] /\ rejected ["x"; "--outs=a"] /\ rejected ["x"; "-o"] /\ rejected ["-v"].
Proof. split; [|split; [|split; [|split]]]; apply reject; vm_compute; reflexivity. Qed.
Example C59_case_one_way : forall os pos, ex_spells (map lit ex_command) os pos -> os = ex_occurrences /\ pos = [lit "x"; lit "y"].
Proof. intros os pos H. exact (C59_read_one_way _ _ _ _ _ _ _ H C59_case_spells). Qed.
(** The positional arguments cannot be shared out otherwise, say with one of them for the entry of -o. *)
Example C59_case_shared_one_way : forall runs, ex_shared ex_occurrences [lit "x"; lit "y"] runs -> runs = [[]; []; []; [lit "x"; lit "y"]].
Proof.
  intros runs H. refine (C59_shared_one_way ExTable.strtod ExTable.rexmatch unix_seps ex_contract true ExTable.tab _ _ _ _ ex_reached _ _ H C59_case_shared).
  - assert (Hs : Forall (safe_value Long64 true) (map lit ["12"; "a.c"])) by (apply safe_values; vm_compute; reflexivity).
    inversion_clear Hs as [|? ? H1 Hs']. inversion_clear Hs' as [|? ? H2 _]. unfold ex_occurrences. repeat apply Forall_cons; try apply Forall_nil; cbn [snd]; intros s [= E]; subst s; auto.
  - assert (Hs : Forall (safe_value Long64 true) (map lit ["x"; "y"])) by (apply safe_values; vm_compute; reflexivity). exact Hs.
Qed.

Print Assumptions C59_accepted_iff.
Print Assumptions C59_accepted_values.
Print Assumptions C59_read_one_way.
Print Assumptions C59_shared_one_way.
