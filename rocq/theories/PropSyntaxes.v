(** C80: a program with several syntaxes, each with a table of its own. When do two tables see the same positional arguments, and
    when can no command line be meant for both. *)
From Verif Require Import Base IntModel IntSpec IntProofs FileModel FileSpec DateModel DateSpec GetoptModel ParseModel ParseSpec GetoptProofs ParseIdeal ParseProofs ParseFacts ParseObserve ParseSafe ParseLemmas ArgModel KindsSpec KindsProofs PropKinds CommandSpec CommandProofs PropCommand.
From Verif Require RexModel PropRex PropRexTable ReparseProofs ExTable.
From Coq Require Import ZArith List Ascii String Bool Lia.
Import ListNotations.
Open Scope Z_scope.

(** ** Specification *)
(** An option that both tables know takes a value in both or in neither. *)
Definition agree (t1 t2 : list hdr) : Prop :=
  (forall c i1 h1 i2 h2, first_declaring t1 c i1 h1 -> first_declaring t2 c i2 h2 -> short_takes h1 = short_takes h2) /\
  (forall nm i1 h1 i2 h2, selects t1 nm i1 h1 -> selects t2 nm i2 h2 -> long_takes h1 = long_takes h2).

Lemma long_same t1 t2 body ws1 o1 ws2 o2 : agree t1 t2 -> long_option t1 body ws1 o1 -> long_option t2 body ws2 o2 -> List.length ws1 = List.length ws2.
Proof.
  intros [_ A] H1 H2. destruct H1 as [nm i h E S T|nm v i h E S T V|nm v i h E S T V]; inversion H2 as [nm' i' h' E' S' T'|nm' v' i' h' E' S' T' V'|nm' v' i' h' E' S' T' V']; subst; auto;
    try (exfalso; match goal with K : ~ In "="%char (_ ++ _) |- _ => apply K; apply in_app_iff; right; left; reflexivity end);
    specialize (A _ _ _ _ _ S S'); congruence.
Qed.
Lemma cluster_same t1 t2 : agree t1 t2 -> forall cs ws1 os1, cluster t1 cs ws1 os1 -> forall ws2 os2, cluster t2 cs ws2 os2 -> List.length ws1 = List.length ws2.
Proof.
  intros Ag cs ws1 os1 H1. pose proof (proj1 Ag) as A. induction H1 as [|c cs ws i h os Hc Hf Ht Hcl IH|c i h Hc Hf Ht|c v i h Hc Hf Ht Hv|c v i h Hc Hf Ht|body ws o Hb Ho]; intros ws2 os2 H2; inversion H2; subst; try congruence; auto;
    try (exfalso; match goal with F1 : first_declaring t1 _ _ _, F2 : first_declaring t2 _ _ _ |- _ => specialize (A _ _ _ _ _ F1 F2) end; congruence); eauto using long_same.
Qed.
Lemma app_same_length {A} : forall (a b c d : list A), a ++ b = c ++ d -> List.length a = List.length c -> a = c /\ b = d.
Proof. induction a as [|x a IH]; intros b [|y c] d E L; try discriminate; auto. cbn in E, L. injection E as -> E. injection L as L. destruct (IH _ _ _ E L) as [-> ->]. auto. Qed.
Lemma dashes_word cs : cs <> [] -> ~ word ("-"%char :: cs).
Proof. intros H W. apply H. apply (W cs). reflexivity. Qed.

(** Two tables that agree see the same positional arguments in every command line that both can read. *)
Theorem C80_same_positionals : forall t1 t2 posix rest os1 pos1 os2 pos2, agree t1 t2 ->
  spells t1 posix rest os1 pos1 -> spells t2 posix rest os2 pos2 -> pos1 = pos2.
Proof.
  intros t1 t2 posix rest os1 pos1 os2 pos2 Ag H1. revert os2 pos2.
  induction H1 as [|rest|a rest P W|a rest os pos P W H IH|cs ws os rest os' pos N1 N2 C H IH]; intros os2 pos2 H2; inversion H2; subst; auto; try congruence;
    try (exfalso; match goal with K : word ("-"%char :: ?cs) |- _ => apply (dashes_word cs); [discriminate || assumption|exact K] end);
    try (exfalso; match goal with K : ["-"%char] <> lit "-" |- _ => apply K; reflexivity end).
  - f_equal. eauto.
  - match goal with C1 : cluster t1 cs ws _, C2 : cluster t2 cs ?ws2 _, E : ?ws2 ++ _ = _ |- _ => pose proof (cluster_same t1 t2 Ag _ _ _ C1 _ _ C2) as L; symmetry in E; destruct (app_same_length _ _ _ _ E L) as [-> ->] end. eauto.
Qed.

Section Exclusive.
Context {D : Type}.
Context (strtod : str -> D * nat).
Context (rexmatch : str -> Z -> str -> res bool).
Context (sp : seps).
Notation lm := Long64.
Notation table := (list (entry (body D))).
Notation shared := (shared strtod rexmatch lm sp).
Notation reached := (reached strtod rexmatch lm sp).
Notation acceptable := (acceptable strtod rexmatch lm sp).
Notation safe_value := (safe_value lm).
Notation parse := (karg_parse strtod rexmatch lm sp).
Hypothesis Hd : strtod_contract strtod.

(** An entry for positional arguments. *)
Definition positional (e : entry (body D)) : Prop := no_options (e_hdr e) /\ kcount (e_body e) <> None.
(** The table requires a positional argument, and the first has to be one of [P]. *)
Definition begins (tab : table) (P : str -> Prop) : Prop :=
  exists i e, nth_error tab i = Some e /\ positional e /\ 1 <= h_mincount (e_hdr e) /\
    (forall j e', (j < i)%nat -> nth_error tab j = Some e' -> ~ positional e') /\
    (forall a vs, acceptable e (Some a :: vs) -> P a).
(** It has no entries for positional arguments. *)
Definition wordless (tab : table) : Prop := Forall (fun e => ~ positional e) tab.
Definition accepted (tab : table) posix rest : Prop := exists os pos runs, spells (map e_hdr tab) posix rest os pos /\ shared tab os pos runs.

Lemma no_occurrence tab posix rest os pos i e : spells (map e_hdr tab) posix rest os pos -> nth_error (A := entry (body D)) tab i = Some e -> no_options (e_hdr e) -> given_to i os = [].
Proof.
  intros Hs Hi Hn. destruct (given_to i os) as [|v l] eqn:E; auto. exfalso. assert (Hin : In v (given_to i os)) by (rewrite E; left; auto). clear E.
  apply spells_iff in Hs. pose proof (ReparseProofs.read_args_dispatched (map e_hdr tab) posix rest) as Hd'. rewrite Hs in Hd'. cbn [fst] in Hd'.
  unfold given_to in Hin. apply in_flat_map in Hin as ([j w] & Ho & Hin). cbn [fst snd] in Hin. destruct (Nat.eqb_spec j i) as [->|]; [|contradiction]. destruct Hin as [<-|[]].
  rewrite Forall_forall in Hd'. specialize (Hd' (EvScan i w)). destruct Hd' as (h & Hh & Ho' & _); [apply in_map_iff; exists (i, w); auto|].
  rewrite nth_error_map, Hi in Hh. injection Hh as <-. auto.
Qed.
Lemma first_run : forall (i : nat) (runs : list (list str)) a run, (forall j r, (j < i)%nat -> nth_error runs j = Some r -> r = []) -> nth_error runs i = Some (a :: run) ->
  exists pos, List.concat runs = a :: pos.
Proof.
  induction i as [|i IH]; intros [|r runs] a run H N; try discriminate.
  - injection N as ->. cbn. eauto.
  - cbn [List.concat]. rewrite (H 0%nat r) by (reflexivity || lia). cbn [app]. eapply IH; [|exact N]. intros j x Hj Hx. apply (H (S j)); [lia|exact Hx].
Qed.
Lemma begins_first tab P posix rest os pos runs : begins tab P -> spells (map e_hdr tab) posix rest os pos -> shared tab os pos runs -> exists a pos', pos = a :: pos' /\ P a.
Proof.
  intros (i & e & Hi & (Hn & Hk) & Hm & Hb & Hp) Hs (E & L & H). pose proof (no_occurrence _ _ _ _ _ _ _ Hs Hi Hn) as Hg.
  assert ((i < List.length runs)%nat) by (rewrite L; apply nth_error_Some; congruence). destruct (nth_error runs i) as [run|] eqn:Er; [|apply nth_error_None in Er; lia].
  destruct (H i e run Hi Er) as (_ & Hsat & _). rewrite Hg in Hsat. cbn [app] in Hsat. destruct (Hsat Hk) as [Hz Ha].
  destruct run as [|a run]; [change (zlen (map Some [])) with 0 in Hz; lia|].
  destruct (first_run i runs a run) as (pos' & Ep); auto.
  - intros j r Hj Hr. destruct (nth_error tab j) as [e'|] eqn:Ee; [|apply nth_error_None in Ee; lia]. destruct (H j e' r Ee Hr) as (H1 & _). destruct r; auto. exfalso. apply (Hb j e' Hj Ee). apply H1. discriminate.
  - exists a, pos'. split; [congruence|]. eapply Hp. exact Ha.
Qed.
Lemma wordless_none tab os pos runs : wordless tab -> shared tab os pos runs -> pos = [].
Proof.
  intros Hw (-> & L & H). assert (Hr : forall run, In run runs -> run = []).
  { intros run Hi. apply In_nth_error in Hi as (i & Hi). assert ((i < List.length tab)%nat) by (rewrite <- L; apply nth_error_Some; congruence).
    destruct (nth_error tab i) as [e|] eqn:Ee; [|apply nth_error_None in Ee; lia]. destruct (H i e run Ee Hi) as (H1 & _). destruct run; auto. exfalso.
    unfold wordless in Hw. rewrite Forall_forall in Hw. apply (Hw e); [eapply nth_error_In; eauto|]. apply H1. discriminate. }
  clear -Hr. induction runs as [|r rs IH]; auto. cbn. rewrite (Hr r) by (left; auto). apply IH. intros x Hx. apply Hr. right. auto.
Qed.

(** Tables that agree and want different first words, or one a word and the other none, have no command line in common. *)
Theorem C80_exclusive : forall ints1 ints2 posix cap1 cap2 tab1 tab2 rest jo1 jc1 jp1 fuel1 argv1 h1 s1 en1 a1 jo2 jc2 jp2 fuel2 argv2 h2 s2 en2 a2 (P1 : str -> Prop),
  reached ints1 tab1 -> call cap1 tab1 en1 h1 argv1 a1 rest fuel1 -> Forall (safe_value ints1) rest ->
  reached ints2 tab2 -> call cap2 tab2 en2 h2 argv2 a2 rest fuel2 -> Forall (safe_value ints2) rest ->
  agree (map e_hdr tab1) (map e_hdr tab2) -> begins tab1 P1 -> wordless tab2 \/ (exists P2, begins tab2 P2 /\ forall a, P1 a -> P2 a -> False) ->
  forall h1' s1' tab1' en1' h2' s2' tab2' en2',
  parse posix jo1 jc1 jp1 fuel1 (zlen (a1 :: rest)) argv1 h1 s1 tab1 en1 = Ok (h1', s1', tab1', en1') -> end_count en1' = 0 ->
  parse posix jo2 jc2 jp2 fuel2 (zlen (a2 :: rest)) argv2 h2 s2 tab2 en2 = Ok (h2', s2', tab2', en2') -> end_count en2' <> 0.
Proof.
  intros ints1 ints2 posix cap1 cap2 tab1 tab2 rest jo1 jc1 jp1 fuel1 argv1 h1 s1 en1 a1 jo2 jc2 jp2 fuel2 argv2 h2 s2 en2 a2 P1 R1 C1 V1 R2 C2 V2 Ag B1 B2 h1' s1' tab1' en1' h2' s2' tab2' en2' E1 Z1 E2 Z2.
  destruct (proj1 (C59_accepted_iff strtod rexmatch sp Hd ints1 posix cap1 tab1 rest jo1 jc1 jp1 fuel1 argv1 h1 s1 en1 a1 R1 C1 V1)) as (os1 & pos1 & runs1 & S1 & K1); [eauto 8|].
  destruct (proj1 (C59_accepted_iff strtod rexmatch sp Hd ints2 posix cap2 tab2 rest jo2 jc2 jp2 fuel2 argv2 h2 s2 en2 a2 R2 C2 V2)) as (os2 & pos2 & runs2 & S2 & K2); [eauto 8|].
  pose proof (C80_same_positionals _ _ _ _ _ _ _ _ Ag S1 S2) as <-. destruct (begins_first _ _ _ _ _ _ _ B1 S1 K1) as (a & pos & -> & Pa).
  destruct B2 as [W|(P2 & B2 & X)].
  - apply (wordless_none _ _ _ _ W) in K2. discriminate.
  - destruct (begins_first _ _ _ _ _ _ _ B2 S2 K2) as (b & pos' & [= <- <-] & Pb). eauto.
Qed.

End Exclusive.

(** ** Deciding [agree] *)
Definition agreeb (t1 t2 : list hdr) : bool :=
  forallb (fun h1 => forallb (fun h2 =>
    (negb (existsb (fun c => declares c h2) (match h_shortopts h1 with Some s => s | None => [] end)) || (match short_takes h1, short_takes h2 with TNo, TNo | TOpt, TOpt | TReq, TReq => true | _, _ => false end)) &&
    (match h_longopts h1, h_longopts h2 with Some _, Some _ => match long_takes h1, long_takes h2 with TNo, TNo | TOpt, TOpt | TReq, TReq => true | _, _ => false end | _, _ => true end))%bool t2) t1.
Lemma agreeb_sound t1 t2 : agreeb t1 t2 = true -> agree t1 t2.
Proof.
  intros H. unfold agreeb in H. rewrite forallb_forall in H.
  assert (H' : forall h1 h2, In h1 t1 -> In h2 t2 -> _) by (intros h1 h2 I1 I2; specialize (H h1 I1); rewrite forallb_forall in H; exact (H h2 I2)). clear H.
  split.
  - intros c i1 h1 i2 h2 (N1 & D1 & _) (N2 & D2 & _). apply nth_error_In in N1, N2. specialize (H' _ _ N1 N2). apply andb_prop in H' as [H' _]. apply orb_prop in H' as [H'|H'].
    + exfalso. apply negb_true_iff in H'. assert (X : existsb (fun c => declares c h2) (match h_shortopts h1 with Some s => s | None => [] end) = true); [|congruence].
      apply existsb_exists. exists c. split; [|exact D2]. unfold declares in D1. destruct (h_shortopts h1) as [so|]; [|discriminate]. apply existsb_exists in D1 as (x & Hx & E). apply ceqb_eq in E. congruence.
    + destruct (short_takes h1), (short_takes h2); congruence.
  - intros nm i1 h1 i2 h2 S1 S2.
    assert (K : forall t i h, selects t nm i h -> In h t /\ h_longopts h <> None).
    { intros t i h S. destruct S as [N I _|n _ N I _ _]; (split; [eapply nth_error_In; eauto|]); intros E; unfold hdr_names in I; rewrite E in I; contradiction. }
    destruct (K _ _ _ S1) as [I1 L1]. destruct (K _ _ _ S2) as [I2 L2]. specialize (H' _ _ I1 I2). apply andb_prop in H' as [_ H']. destruct (h_longopts h1), (h_longopts h2); try congruence.
    destruct (long_takes h1), (long_takes h2); congruence.
Qed.

(** ** Examples *)
Notation word w := (arg_rexn None None (lit w) None 1 1 0 None).
Definition ex_add : list (entry (body Z)) := [arg_litn (ExTable.o "v") (ExTable.o "verbose") 0 1 None; word "add"; arg_filen None None None 1 2 None; arg_filen (ExTable.o "o") None None 0 1 None].
Definition ex_sub : list (entry (body Z)) := [word "sub"; arg_filen (ExTable.o "o") None None 0 1 None; arg_strn None None None 0 3 None].
Definition ex_opts : list (entry (body Z)) := [arg_litn None (ExTable.o "help") 0 1 None].
Example C80_case_agree : agree (map e_hdr ex_add) (map e_hdr ex_sub) /\ agree (map e_hdr ex_add) (map e_hdr ex_opts).
Proof. split; apply agreeb_sound; vm_compute; reflexivity. Qed.
Notation ex_begins := (begins ExTable.strtod ExTable.rexmatch unix_seps).
Lemma word_only w a vs : acceptable ExTable.strtod ExTable.rexmatch Long64 unix_seps (word w) (Some a :: vs) -> a = lit w.
Proof.
  intros (l & _ & H). specialize (H 0%nat). cbn [nth_error] in H. destruct H as (v0 & v & _ & _ & H & _). unfold ExTable.rexmatch in H. cbn in H. injection H as H. symmetry. apply str_eqb_eq. exact H.
Qed.
Example C80_case_begins : ex_begins ex_add (fun a => a = lit "add") /\ ex_begins ex_sub (fun a => a = lit "sub") /\ wordless ex_opts.
Proof.
  split; [|split].
  - exists 1%nat. eexists. split; [reflexivity|]. split; [split; [split; reflexivity|discriminate]|]. split; [cbn; lia|]. split; [|apply word_only].
    intros j e Hj He. destruct j; [|lia]. injection He as <-. intros [[H _] _]. discriminate.
  - exists 0%nat. eexists. split; [reflexivity|]. split; [split; [split; reflexivity|discriminate]|]. split; [cbn; lia|]. split; [|apply word_only]. intros j e Hj. lia.
  - constructor; [|constructor]. intros [[_ H] _]. discriminate.
Qed.
Notation ex_parse l tab := (ExTable.parse false ExTable.jo ExTable.jc ExTable.jp (S (total (map lit l))) (zlen (lit "prog" :: map lit l)) 1 (ExTable.heap0 ("prog"%string :: l)) ExTable.s0 tab (ExTable.en 4)).
Notation errors r := (match r with Ok (_, en) => Some (end_count en) | _ => None end).
Example C80_case_words : errors (ex_parse ["-o"; "x"; "add"; "-v"; "y"]%string ex_add) = Some 0 /\ errors (ex_parse ["-o"; "x"; "add"; "-v"; "y"]%string ex_sub) = Some 1 /\
  errors (ex_parse ["-o"; "x"; "add"; "-v"; "y"]%string ex_opts) <> Some 0.
Proof. vm_compute. repeat split; discriminate. Qed.

(** Without [agree] one command line may be right for both: here -o is a switch of one table and takes a value in the other. *)
Definition ex_switch : list (entry (body Z)) := [arg_litn (ExTable.o "o") None 0 1 None; word "add"; arg_filen None None None 1 2 None].
Theorem C80_disagreeing_refuted : exists l, ex_begins ex_switch (fun a => a = lit "add") /\ ex_begins ex_sub (fun a => a = lit "sub") /\
  errors (ex_parse l ex_switch) = Some 0 /\ errors (ex_parse l ex_sub) = Some 0.
Proof.
  exists ["-o"; "add"; "sub"]%string. split; [|split; [apply C80_case_begins|vm_compute; auto]].
  exists 1%nat. eexists. split; [reflexivity|]. split; [split; [split; reflexivity|discriminate]|]. split; [cbn; lia|]. split; [|apply word_only].
  intros j e Hj He. destruct j; [|lia]. injection He as <-. intros [[H _] _]. discriminate.
Qed.

Print Assumptions C80_same_positionals.
Print Assumptions C80_exclusive.
Print Assumptions C80_disagreeing_refuted.
