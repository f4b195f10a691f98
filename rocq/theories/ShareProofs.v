(** The parse of ShareModel.v is that of ShareSpec.v. *)
From Verif Require Import Base IntModel GetoptModel PermuteProofs ParseModel ParseSpec LongOnlySpec LongOnlyFacts OptTables GetoptProofs ParseIdeal ParseProofs ParseFacts ParseObserve ShareModel ShareSpec.
From Coq Require Import ZArith List Ascii String Bool Lia.
Import ListNotations.
Open Scope Z_scope.

(** ** What a turn of the loop of arg_parse_tagged amounts to *)
Definition turn (tab : list hdr) (copt : Z) (s : gst) : res (list event) :=
  if copt =? 0 then
    e <- aget tab (getoptval s) ;;
    l <- match optarg s with
         | Some [] => if h_hasvalue e then a <- nargv_get s (optind s - 1) ;; Ok [EvErr ARG_EMISSARG a] else Ok []
         | _ => Ok []
         end ;;
    Ok (l ++ [EvScan (Z.to_nat (getoptval s)) (optarg s)])
  else if copt =? 63 then
    if optopt s =? 0 then a <- nargv_get s (optind s - 1) ;; Ok [EvErr ARG_ELONGOPT a]
    else Ok [EvErr (optopt s) None]
  else if copt =? 58 then a <- nargv_get s (optind s - 1) ;; Ok [EvErr ARG_EMISSARG a]
  else
    let i := find_shortoption tab 0 (chr copt) in
    if i =? -1 then Ok [EvErr copt None]
    else _ <- aget tab i ;; Ok [EvScan (Z.to_nat i) (optarg s)].

(** The turns of a loop that comes to its end. *)
Inductive turns (tab : list hdr) (posix longonly : bool) (nargc : Z) (so : str) (lo : list lopt) : nat -> gst -> gst -> list event -> Prop :=
| turns_end f s s' : getopt_in longonly posix (S (List.length (nargv s))) nargc so lo s = Ok (-1, s') -> turns tab posix longonly nargc so lo (S f) s s' []
| turns_more f s c s1 ev s' evs : getopt_in longonly posix (S (List.length (nargv s))) nargc so lo s = Ok (c, s1) -> c <> -1 ->
    turn tab c s1 = Ok ev -> turns tab posix longonly nargc so lo f s1 s' evs -> turns tab posix longonly nargc so lo (S f) s s' (ev ++ evs).

Lemma turn_len tab c s ev : turn tab c s = Ok ev -> (List.length ev <= 2)%nat.
Proof.
  unfold turn. intros H. destruct (c =? 0).
  - apply bind_ok in H as (e & _ & H). apply bind_ok in H as (l & Hl & H). injection H as <-. rewrite app_length. cbn.
    destruct (optarg s) as [[|x y]|]; try (injection Hl as <-; cbn; lia). destruct (h_hasvalue e); [|injection Hl as <-; cbn; lia].
    apply bind_ok in Hl as (a & _ & Hl). injection Hl as <-. cbn. lia.
  - destruct (c =? 63).
    + destruct (optopt s =? 0); [apply bind_ok in H as (a & _ & H)|]; injection H as <-; cbn; lia.
    + destruct (c =? 58); [apply bind_ok in H as (a & _ & H); injection H as <-; cbn; lia|].
      cbv zeta in H. destruct (_ =? -1); [|apply bind_ok in H as (a & _ & H)]; injection H as <-; cbn; lia.
Qed.
Lemma turns_len tab posix longonly nargc so lo f s s' evs : turns tab posix longonly nargc so lo f s s' evs -> (List.length evs <= 2 * f)%nat.
Proof. induction 1; [cbn; lia|]. rewrite app_length. pose proof (turn_len _ _ _ _ H1). lia. Qed.

Lemma aget_range {A} (l : list A) i x : aget l i = Ok x -> 0 <= i /\ nth_error l (Z.to_nat i) = Some x.
Proof. unfold aget. destruct (Z.ltb_spec i 0); [discriminate|]. destruct (nth_error l (Z.to_nat i)) as [y|] eqn:E; [|discriminate]. intros H'. injection H' as ->. auto. Qed.

(** *** For entries with contents of their own *)
Section Private.
Context {B : Type}.
Context (scan : hdr -> B -> option (option str -> res (B * Z))).
Lemma aget_map (tab : list (entry B)) i : aget (map e_hdr tab) i = (e <- aget tab i ;; Ok (e_hdr e)).
Proof. unfold aget. destruct (i <? 0); [reflexivity|]. rewrite nth_error_map. destruct (nth_error tab (Z.to_nat i)); reflexivity. Qed.

Lemma dispatch_turn c s tab en : dispatch scan c s tab en = (ev <- turn (map e_hdr tab) c s ;; run scan ev tab en).
Proof.
  unfold dispatch, turn. destruct (c =? 0).
  - rewrite aget_map. destruct (aget tab (getoptval s)) as [e| |] eqn:E; cbn [bind]; try reflexivity.
    destruct (aget_range _ _ _ E) as [Hp _].
    assert (Hone : forall en, run scan [EvScan (Z.to_nat (getoptval s)) (optarg s)] tab en = call_scan scan tab (getoptval s) (optarg s) en).
    { intros en0. rewrite run_one. cbn [apply_event]. rewrite Z2Nat.id by lia. reflexivity. }
    destruct (optarg s) as [[|x y]|]; cbn [bind app]; rewrite ?Hone; auto.
    destruct (h_hasvalue (e_hdr e)); cbn [bind app]; rewrite ?Hone; auto.
    destruct (nargv_get s (optind s - 1)) as [a| |]; cbn [bind app]; auto.
    change (run scan (EvErr ARG_EMISSARG a :: [EvScan (Z.to_nat (getoptval s)) (Some [])]) tab en) with
      ('(tab, en) <- apply_event scan (EvErr ARG_EMISSARG a) tab en ;; run scan [EvScan (Z.to_nat (getoptval s)) (Some [])] tab en).
    cbn [apply_event]. destruct (arg_register_error en PEnd ARG_EMISSARG a); cbn [bind]; rewrite ?Hone; reflexivity.
  - destruct (c =? 63).
    + destruct (optopt s =? 0).
      * destruct (nargv_get s (optind s - 1)); cbn [bind]; auto. rewrite run_one. reflexivity.
      * cbn [bind]. rewrite run_one. reflexivity.
    + destruct (c =? 58); [destruct (nargv_get s (optind s - 1)); cbn [bind]; auto; rewrite run_one; reflexivity|].
      cbv zeta. destruct (Z.eqb_spec (find_shortoption (map e_hdr tab) 0 (chr c)) (-1)); [cbn [bind]; rewrite run_one; reflexivity|].
      rewrite aget_map. unfold call_scan at 1. destruct (aget tab (find_shortoption (map e_hdr tab) 0 (chr c))) as [e| |] eqn:E; cbn [bind]; try reflexivity.
      destruct (aget_range _ _ _ E) as [Hp _]. rewrite run_one. cbn [apply_event]. rewrite Z2Nat.id by lia. unfold call_scan. rewrite E. reflexivity.
Qed.

Lemma loop_turns posix longonly nargc so lo F : forall s tab en sf tab' en',
  tagged_loop scan posix longonly F nargc so lo s tab en = Ok (sf, tab', en') ->
  exists evs, turns (map e_hdr tab) posix longonly nargc so lo F s sf evs /\ run scan evs tab en = Ok (tab', en').
Proof.
  induction F as [|F IH]; intros s tab en sf tab' en' H; [discriminate|]. cbn [tagged_loop] in H.
  apply bind_ok in H as ([c s1] & Hg & H). destruct (Z.eqb_spec c (-1)) as [->|Hc].
  - injection H as <- <- <-. exists []. split; [constructor; auto|reflexivity].
  - apply bind_ok in H as ([t1 e1] & Hd & H). rewrite dispatch_turn in Hd. apply bind_ok in Hd as (ev & Hev & Hd).
    destruct (IH _ _ _ _ _ _ H) as (evs & Ht & Hr). rewrite (run_hdr scan _ _ _ _ _ Hd) in Ht.
    exists (ev ++ evs). split; [econstructor; eauto|]. rewrite run_app, Hd. exact Hr.
Qed.
Lemma turns_loop posix longonly nargc so lo F s sf evs (tab : list (entry B)) : turns (map e_hdr tab) posix longonly nargc so lo F s sf evs ->
  forall tab0 en, map e_hdr tab0 = map e_hdr tab -> tagged_loop scan posix longonly F nargc so lo s tab0 en = ('(tab, en) <- run scan evs tab0 en ;; Ok (sf, tab, en)).
Proof.
  induction 1 as [f s s' Hg|f s c s1 ev s' evs Hg Hc Hev Ht IH]; intros tab0 en Htab; cbn [tagged_loop]; rewrite Hg; cbn [bind].
  - reflexivity.
  - destruct (Z.eqb_spec c (-1)); [contradiction|]. rewrite dispatch_turn, Htab, Hev. cbn [bind]. rewrite run_app.
    destruct (run scan ev tab0 en) as [[t e]| |] eqn:E; cbn [bind]; auto. apply IH. rewrite (run_hdr scan _ _ _ _ _ E). exact Htab.
Qed.
End Private.

(** *** A table whose entries refuse everything shows all turns in its list of errors *)
Definition refuse (h : hdr) (b : unit) : option (option str -> res (unit * Z)) := Some (fun _ => Ok (tt, 1)).
Definition mark (ev : event) : err := match ev with EvScan i v => mk_err (PEntry i) 1 v | EvErr c v => mk_err PEnd c v end.
Lemma mark_inj : forall l l', map mark l = map mark l' -> l = l'.
Proof.
  induction l as [|x l IH]; intros [|y l'] H; try discriminate; auto. cbn [map] in H. injection H as H1 H2. f_equal; auto.
  destruct x, y; unfold mark, mk_err in H1; injection H1; intros; subst; try discriminate; reflexivity.
Qed.
Definition mute (tab : list hdr) : list (entry unit) := map (fun h => {| e_hdr := h; e_body := tt |}) tab.
Lemma mute_hdr tab : map e_hdr (mute tab) = tab.
Proof. unfold mute. rewrite map_map. cbn. apply map_id. Qed.
Lemma lupd_same {A} (l : list A) : forall i x, nth_error l i = Some x -> lupd l i x = l.
Proof. induction l as [|y l IH]; intros [|i] x H; cbn in *; try discriminate; [injection H as ->; reflexivity|rewrite IH; auto]. Qed.
Lemma refuse_events evs : forall tab errs st, ideal_events refuse evs (tab, errs) = Ok st -> st = (tab, errs ++ map mark evs).
Proof.
  induction evs as [|ev evs IH]; intros tab errs st H; cbn [ideal_events] in H; [injection H as <-; rewrite app_nil_r; reflexivity|].
  apply bind_ok in H as (st1 & H1 & H). destruct ev as [i v|c v]; cbn [ideal_event] in H1.
  - destruct (nth_error tab i) as [e|] eqn:E; [|discriminate]. cbn in H1. injection H1 as <-.
    assert (Eb : set_body tt e = e) by (destruct e as [? []]; reflexivity). rewrite Eb, lupd_same in H by exact E.
    rewrite (IH _ _ _ H). rewrite <- app_assoc. reflexivity.
  - injection H1 as <-. rewrite (IH _ _ _ H), <- app_assoc. reflexivity.
Qed.
Definition big_end (n : nat) : arg_end :=
  {| end_max := Z.of_nat (S n); end_count := 0; end_error := repeat 0 (S n); end_parent := repeat PEnd (S n); end_argval := repeat None (S n) |}.
Lemma big_end_wf n : wf_end (Z.of_nat (S n)) (big_end n).
Proof. unfold wf_end, zlen. cbn [big_end end_max end_error end_parent end_argval]. rewrite !repeat_length. lia. Qed.
Lemma refuse_run n evs tab t en : (List.length evs <= n)%nat -> run refuse evs tab (arg_end_resetfn (big_end n)) = Ok (t, en) -> t = tab /\ recorded en = map mark evs.
Proof.
  intros Hl H. pose proof (sim_events refuse (Z.of_nat (S n)) evs tab [] _ (reset_rep _ _ (big_end_wf n))) as Hs. rewrite H in Hs.
  destruct (ideal_events refuse evs (tab, [])) as [st| |] eqn:E; cbn in Hs; try contradiction.
  apply refuse_events in E. subst st. destruct Hs as [Eq HR]. cbn [fst snd app] in Eq, HR. split; auto. rewrite (r_rec _ _ _ HR).
  unfold shown, zlen. rewrite map_length. match goal with |- context[?x <=? ?y] => destruct (Z.leb_spec x y) end; [reflexivity|lia].
Qed.

(** So the turns are the events that the reading of the arguments finds. *)
Lemma turns_read posix longonly tab nargc s a0 rest evs pos : Forall good_hdr tab -> Forall cstr rest -> nargc = zlen (a0 :: rest) ->
  read_args_in longonly posix tab rest = (evs, Finished pos) ->
  exists sf, final nargc sf pos /\ forall F, (List.length evs < F)%nat ->
    turns tab posix longonly nargc (opts tab) (lo tab) F (set_getoptval 0 (set_nargv (a0 :: rest) (set_optind 0 s))) sf evs.
Proof.
  intros Hg Hc Hn Hr. pose proof (read_args_in_events_ok longonly tab posix rest) as Hok. rewrite Hr in Hok. cbn [fst] in Hok.
  destruct (loop_finishes refuse posix longonly tab Hg nargc s a0 rest evs pos Hc Hn Hr) as (sf & Hf & Hl). exists sf. split; [exact Hf|].
  intros F HF. set (n := (List.length evs + 2 * F)%nat).
  specialize (Hl F (mute tab) (arg_end_resetfn (big_end n)) (mute_hdr tab) HF).
  assert (Hrun : exists t en, run refuse evs (mute tab) (arg_end_resetfn (big_end n)) = Ok (t, en)).
  { pose proof (sim_events refuse (Z.of_nat (S n)) evs (mute tab) [] _ (reset_rep _ _ (big_end_wf n))) as Hs.
    assert (Hi : forall l t errs, map e_hdr t = tab -> Forall (ok_event tab) l -> exists st, ideal_events refuse l (t, errs) = Ok st).
    { induction l as [|ev l IH]; intros t errs Ht Hl'; cbn [ideal_events]; [eauto|]. inversion Hl'; subst. destruct ev as [i v|c v]; cbn [ideal_event].
      - cbn in H1. destruct (nth_error t i) as [e|] eqn:E; [|apply nth_error_None in E; rewrite map_length in H1; lia]. cbn [refuse bind].
        apply IH; auto. assert (Eb : set_body tt e = e) by (destruct e as [? []]; reflexivity). rewrite Eb, lupd_same by exact E. reflexivity.
      - cbn [bind]. apply IH; auto. }
    destruct (Hi evs (mute tab) [] (mute_hdr tab) Hok) as [st E]. rewrite E in Hs. destruct (run refuse evs _ _) as [[t en]| |]; cbn in Hs; try contradiction. eauto. }
  destruct Hrun as (t & en & E). rewrite E in Hl. cbn [bind] in Hl.
  destruct (loop_turns refuse _ _ _ _ _ _ _ _ _ _ _ _ Hl) as (evs' & Ht & Hr'). rewrite mute_hdr in Ht.
  pose proof (turns_len _ _ _ _ _ _ _ _ _ _ Ht) as Hlen.
  destruct (refuse_run n evs _ _ _ ltac:(unfold n; lia) E) as [_ E1]. destruct (refuse_run n evs' _ _ _ ltac:(unfold n; lia) Hr') as [_ E2].
  assert (evs' = evs) as -> by (apply mark_inj; congruence). exact Ht.
Qed.
Lemma turns_in tab posix longonly nargc so lo f s sf evs : turns tab posix longonly nargc so lo f s sf evs -> forall i v, In (EvScan i v) evs -> (i < List.length tab)%nat.
Proof.
  intros Ht. induction Ht as [|f s c s1 ev s' evs Hg Hc Hev Ht IH]; [contradiction|]. intros i v Hi. apply in_app_or in Hi as [Hi|Hi]; [|eauto].
    unfold turn in Hev. destruct (c =? 0).
    - apply bind_ok in Hev as (e & He & Hev). apply bind_ok in Hev as (l & Hl & Hev). injection Hev as <-. apply in_app_or in Hi as [Hi|Hi].
      + exfalso. destruct (optarg s1) as [[|x y]|]; try (injection Hl as <-; contradiction). destruct (h_hasvalue e); [|injection Hl as <-; contradiction].
        apply bind_ok in Hl as (a & _ & Hl). injection Hl as <-. destruct Hi as [Hi|[]]; discriminate.
      + destruct Hi as [Hi|[]]. injection Hi as <- _. apply aget_range in He as [_ He]. apply nth_error_Some. congruence.
    - destruct (c =? 63).
      + exfalso. destruct (optopt s1 =? 0); [apply bind_ok in Hev as (a & _ & Hev)|]; injection Hev as <-; destruct Hi as [Hi|[]]; discriminate.
      + destruct (c =? 58); [exfalso; apply bind_ok in Hev as (a & _ & Hev); injection Hev as <-; destruct Hi as [Hi|[]]; discriminate|].
        cbv zeta in Hev. destruct (_ =? -1); [injection Hev as <-; destruct Hi as [Hi|[]]; discriminate|].
        apply bind_ok in Hev as (e & He & Hev). injection Hev as <-. destruct Hi as [Hi|[]]. injection Hi as <- _. apply aget_range in He as [_ He]. apply nth_error_Some. congruence.
Qed.
(** And if the reading of the arguments does not come to an end, the loop does not. *)
Lemma turns_hang posix longonly tab nargc s a0 rest evs : Forall good_hdr tab -> Forall cstr rest -> nargc = zlen (a0 :: rest) ->
  read_args_in longonly posix tab rest = (evs, Hangs) ->
  forall F sf evs', ~ turns tab posix longonly nargc (opts tab) (lo tab) F (set_getoptval 0 (set_nargv (a0 :: rest) (set_optind 0 s))) sf evs'.
Proof.
  intros Hg Hc Hn Hr F sf evs' Ht.
  set (deaf := fun (_ : hdr) (_ : unit) => @None (option str -> res (unit * Z))).
  destruct (loop_hangs deaf posix longonly tab Hg nargc s a0 rest evs Hc Hn Hr F) as (l & _ & Hl).
  specialize (Hl (mute tab) (arg_end_resetfn (big_end 0)) (mute_hdr tab)).
  assert (Hl2 := turns_loop deaf posix longonly nargc (opts tab) (lo tab) F (set_getoptval 0 (set_nargv (a0 :: rest) (set_optind 0 s))) sf evs' (mute tab)).
  rewrite mute_hdr in Hl2. specialize (Hl2 Ht (mute tab) (arg_end_resetfn (big_end 0)) (mute_hdr tab)).
  rewrite Hl2 in Hl. 
  assert (Hrun : forall l, (forall i v, In (EvScan i v) l -> (i < List.length tab)%nat) -> forall en errs, rep 1 en errs -> exists en', run deaf l (mute tab) en = Ok (mute tab, en') /\ exists errs', rep 1 en' errs').
  { clear. induction l as [|ev l IH]; intros Hi en errs HR; cbn [run]; [eauto|]. destruct ev as [i v|c v]; cbn [apply_event].
    - unfold call_scan, aget. destruct (Z.ltb_spec (Z.of_nat i) 0); [lia|]. rewrite Nat2Z.id.
      destruct (nth_error (mute tab) i) as [e|] eqn:E.
      2:{ apply nth_error_None in E. unfold mute in E. rewrite map_length in E. specialize (Hi i v (or_introl eq_refl)). lia. }
      cbn [bind deaf]. eapply IH; eauto. intros; eapply Hi; right; eauto.
    - destruct (register_rep 1 en errs PEnd c v HR) as (en' & -> & HR'). cbn [bind]. eapply IH; eauto. intros; eapply Hi; right; eauto. }
  pose proof (turns_in _ _ _ _ _ _ _ _ _ _ Ht) as Hin.
  destruct (Hrun evs' Hin _ [] (reset_rep 1 _ (big_end_wf 0))) as (en' & E & _). rewrite E in Hl. cbn [bind] in Hl.
  destruct (run deaf l _ _) as [[? ?]| |]; discriminate.
Qed.

(** ** Entries that share the state of the program *)
(** What the calls of ShareSpec.v are. *)
Definition acts {G} (scanf : nat -> option (option str -> G -> res (G * Z))) (checkf : nat -> option (G -> res (G * Z))) (resetf : nat -> option (G -> res G))
  (k : fcall) : option (G -> res (G * Z)) :=
  match k with
  | CReset i => match resetf i with Some f => Some (fun g => g <- f g ;; Ok (g, 0)) | None => None end
  | CScan i v => match scanf i with Some f => Some (f v) | None => None end
  | CCheck i => checkf i
  end.

Section Shared.
Context {G : Type}.
Context (tab : list hdr).
Context (scanf : nat -> option (option str -> G -> res (G * Z))).
Context (checkf : nat -> option (G -> res (G * Z))).
Context (resetf : nat -> option (G -> res G)).
Context (cap : Z).
Notation act := (acts scanf checkf resetf).

(** One event. *)
Definition one (ev : event) (g : G) (en : arg_end) : res (G * arg_end) :=
  match ev with
  | EvScan i v => call_scanfn tab scanf (Z.of_nat i) v g en
  | EvErr c v => en <- arg_register_error en PEnd c v ;; Ok (g, en)
  end.
Fixpoint every (evs : list event) (g : G) (en : arg_end) : res (G * arg_end) :=
  match evs with
  | [] => Ok (g, en)
  | ev :: evs' => '(g, en) <- one ev g en ;; every evs' g en
  end.
Lemma every_app e1 e2 g en : every (e1 ++ e2) g en = ('(g, en) <- every e1 g en ;; every e2 g en).
Proof. revert g en; induction e1 as [|a e1 IH]; intros; cbn [app every bind]; auto. destruct (one a g en) as [[? ?]| |]; cbn [bind]; auto. Qed.
Lemma every_one e g en : every [e] g en = one e g en.
Proof. cbn [every]. destruct (one e g en) as [[? ?]| |]; reflexivity. Qed.

Lemma switch_turn c s g en : switch tab scanf c s g en = (ev <- turn tab c s ;; every ev g en).
Proof.
  unfold switch, turn. destruct (c =? 0).
  - destruct (aget tab (getoptval s)) as [e| |] eqn:E; cbn [bind]; try reflexivity.
    destruct (aget_range _ _ _ E) as [Hp _].
    assert (Hone : forall en, every [EvScan (Z.to_nat (getoptval s)) (optarg s)] g en = call_scanfn tab scanf (getoptval s) (optarg s) g en).
    { intros en0. rewrite every_one. cbn [one]. rewrite Z2Nat.id by lia. reflexivity. }
    destruct (optarg s) as [[|x y]|]; cbn [bind app]; rewrite ?Hone; auto.
    destruct (h_hasvalue e); cbn [bind app]; rewrite ?Hone; auto.
    destruct (nargv_get s (optind s - 1)) as [a| |]; cbn [bind app]; auto.
    change (every (EvErr ARG_EMISSARG a :: [EvScan (Z.to_nat (getoptval s)) (Some [])]) g en) with
      ('(g, en) <- one (EvErr ARG_EMISSARG a) g en ;; every [EvScan (Z.to_nat (getoptval s)) (Some [])] g en).
    cbn [one]. destruct (arg_register_error en PEnd ARG_EMISSARG a); cbn [bind]; rewrite ?Hone; reflexivity.
  - destruct (c =? 63).
    + destruct (optopt s =? 0).
      * destruct (nargv_get s (optind s - 1)); cbn [bind]; auto. rewrite every_one. reflexivity.
      * cbn [bind]. rewrite every_one. reflexivity.
    + destruct (c =? 58); [destruct (nargv_get s (optind s - 1)); cbn [bind]; auto; rewrite every_one; reflexivity|].
      cbv zeta. destruct (Z.eqb_spec (find_shortoption tab 0 (chr c)) (-1)); [cbn [bind]; rewrite every_one; reflexivity|].
      unfold call_scanfn at 1. destruct (aget tab (find_shortoption tab 0 (chr c))) as [e| |] eqn:E; cbn [bind]; try reflexivity.
      destruct (aget_range _ _ _ E) as [Hp _]. rewrite every_one. cbn [one]. rewrite Z2Nat.id by lia. unfold call_scanfn. rewrite E. reflexivity.
Qed.
Lemma turns_tagged posix longonly nargc so lo F s sf evs : turns tab posix longonly nargc so lo F s sf evs ->
  forall g en, tagged tab scanf posix longonly F nargc so lo s g en = ('(g, en) <- every evs g en ;; Ok (sf, g, en)).
Proof.
  induction 1 as [f s s' Hg|f s c s1 ev s' evs Hg Hc Hev Ht IH]; intros g en; cbn [tagged]; rewrite Hg; cbn [bind].
  - reflexivity.
  - destruct (Z.eqb_spec c (-1)); [contradiction|]. rewrite switch_turn, Hev. cbn [bind]. rewrite every_app.
    destruct (every ev g en) as [[g1 e1]| |] eqn:E; cbn [bind]; auto.
Qed.
Lemma tagged_turns posix longonly nargc so lo F : forall s g en sf g' en',
  tagged tab scanf posix longonly F nargc so lo s g en = Ok (sf, g', en') -> exists evs, turns tab posix longonly nargc so lo F s sf evs.
Proof.
  induction F as [|F IH]; intros s g en sf g' en' H; [discriminate|]. cbn [tagged] in H.
  apply bind_ok in H as ([c s1] & Hg & H). destruct (Z.eqb_spec c (-1)) as [->|Hc].
  - injection H as <- <- <-. exists []. constructor; auto.
  - apply bind_ok in H as ([g1 e1] & Hd & H). rewrite switch_turn in Hd. apply bind_ok in Hd as (ev & Hev & Hd).
    destruct (IH _ _ _ _ _ _ H) as (evs & Ht). exists (ev ++ evs). econstructor; eauto.
Qed.

(** The specification and the model, with the errors recorded so far. *)
Definition Rg (errs : list err) (st : G * list err) (st' : G * arg_end) : Prop := fst st = fst st' /\ rep cap (snd st') (errs ++ snd st).

Lemma sim_answer k o v f g errs en : act k = Some f -> rep cap en errs ->
  sim (Rg errs) (answer act k o v g) ('(g, c) <- f g ;; if c =? 0 then Ok (g, en) else en <- arg_register_error en o c v ;; Ok (g, en)).
Proof.
  intros Hk HR. unfold answer. rewrite Hk. eapply sim_bind; [apply sim_refl|]. intros [g1 c] ? <-. destruct (c =? 0).
  - split; cbn; [auto|]. rewrite app_nil_r. auto.
  - destruct (register_rep cap en errs o c v HR) as (en' & -> & HR'). split; cbn; auto.
Qed.
Lemma sim_every evs : Forall (ok_event tab) evs -> forall g errs en, rep cap en errs -> sim (Rg errs) (all_options act evs g) (every evs g en).
Proof.
  induction 1 as [|ev evs Hev Hevs IH]; intros g errs en HR; cbn [all_options every].
  - split; cbn; [auto|]. rewrite app_nil_r. auto.
  - destruct ev as [i v|c v]; cbn [one].
    + cbn in Hev. unfold call_scanfn, aget. destruct (Z.ltb_spec (Z.of_nat i) 0); [lia|]. rewrite Nat2Z.id.
      destruct (nth_error tab i) as [h|] eqn:E; [|apply nth_error_None in E; lia]. cbn [bind].
      assert (H1 : sim (Rg errs) (answer act (CScan i v) (PEntry i) v g)
        (match scanf i with None => Ok (g, en) | Some f => '(g, c) <- f v g ;; if c =? 0 then Ok (g, en) else en <- arg_register_error en (PEntry i) c v ;; Ok (g, en) end)).
      { destruct (scanf i) as [f|] eqn:Es.
        - apply (sim_answer (CScan i v) (PEntry i) v (f v)); auto. cbn. rewrite Es. reflexivity.
        - unfold answer. cbn [acts]. rewrite Es. split; cbn; [auto|]. rewrite app_nil_r. auto. }
      eapply sim_bind; [exact H1|]. intros [g1 e1] [g1' en1] [Eg HR1]. cbn in Eg, HR1. subst g1'.
      pose proof (IH g1 _ _ HR1) as H2. destruct (all_options act evs g1) as [[g2 e2]| |], (every evs g1 en1) as [[g2' en2]| |]; cbn in H2 |- *; try contradiction; auto.
      destruct H2 as [Eg HR2]. cbn in Eg, HR2. split; cbn; auto. rewrite app_assoc. exact HR2.
    + destruct (register_rep cap en errs PEnd c v HR) as (en1 & -> & HR1). cbn [bind].
      pose proof (IH g _ _ HR1) as H2. destruct (all_options act evs g) as [[g2 e2]| |], (every evs g en1) as [[g2' en2]| |]; cbn in H2 |- *; try contradiction; auto.
      destruct H2 as [Eg HR2]. cbn in Eg, HR2. split; cbn; auto. rewrite <- app_assoc in HR2. exact HR2.
Qed.

(** The entries without options from number [i] on. *)
Definition takers (i : nat) (todo : list hdr) : list nat := map fst (filter (fun p => positional_hdr (snd p)) (combine (seq i (List.length todo)) todo)).
Lemma takers_cons i h todo : takers i (h :: todo) = if positional_hdr h then i :: takers (S i) todo else takers (S i) todo.
Proof. unfold takers. cbn [List.length seq combine filter snd]. destruct (positional_hdr h); reflexivity. Qed.

Lemma sim_untagged : forall todo i args rej g en errs fuel, rep cap en errs -> (args = [] -> rej = None) -> (List.length todo + List.length args < fuel)%nat ->
  sim (Rg errs) (all_positional act (takers i todo) args rej g) (untagged scanf fuel i todo args (pend_of rej) g en).
Proof.
  assert (Hnil : forall is rej g, all_positional act is [] rej g = Ok (g, [])) by (intros [|? ?]; reflexivity).
  induction todo as [|h todo IH]; intros i args rej g en errs fuel HR Hrej Hf.
  - destruct fuel as [|fuel]; [lia|]. cbn [takers List.length seq combine filter map untagged].
    destruct args as [|a args].
    + rewrite Hrej by auto. rewrite Hnil. cbn. split; cbn; rewrite ?app_nil_r; auto.
    + cbn [all_positional]. destruct rej as [e|]; cbn [pend_of].
      * destruct (register_rep cap en errs (err_owner e) (err_code e) (err_argval e) HR) as (en1 & -> & HR1). cbn [bind tl].
        destruct (sim_rest cap args en1 _ HR1) as (en2 & -> & HR2). cbn [bind]. split; cbn; auto. rewrite <- app_assoc in HR2. destruct e; exact HR2.
      * cbn [bind]. destruct (sim_rest cap (a :: args) en _ HR) as (en2 & -> & HR2). cbn [bind]. split; cbn; auto.
  - rewrite takers_cons. destruct (positional_hdr h) eqn:EP.
    + assert (EP' : h_longopts h = None /\ h_shortopts h = None).
      { unfold positional_hdr in EP. destruct (h_shortopts h), (h_longopts h); try discriminate; auto. }
      destruct EP' as [Ea Eb].
      revert rej g fuel Hrej Hf. induction args as [|a args IHa]; intros rej g fuel Hrej Hf; (destruct fuel as [|fuel]; [lia|]).
      * rewrite Hnil. cbn. split; cbn; rewrite ?app_nil_r; auto.
      * cbn [all_positional offer untagged acts]. rewrite Ea, Eb. destruct (scanf i) as [f|] eqn:Es.
        -- destruct (f (Some a) g) as [[g1 c]| |]; cbn [bind]; try reflexivity; auto.
           destruct (c =? 0); cbn [bind].
           ++ specialize (IHa None g1 fuel ltac:(auto) ltac:(cbn [List.length] in *; lia)). cbn [pend_of] in IHa.
              replace (bind (offer act i args None g1) (fun '(g, args, rej) => all_positional act (takers (S i) todo) args rej g)) with (all_positional act (i :: takers (S i) todo) args None g1); auto.
              destruct args; [cbn [all_positional offer bind]; rewrite Hnil; reflexivity|reflexivity].
           ++ apply (IH (S i) (a :: args) (Some (mk_err (PEntry i) c (Some a)))); auto; [discriminate|cbn [List.length] in *; lia].
        -- cbn [bind]. apply IH; auto. cbn [List.length] in *. lia.
    + destruct args as [|a args]; (destruct fuel as [|fuel]; [lia|]).
      * rewrite Hnil. cbn. split; cbn; rewrite ?app_nil_r; auto.
      * cbn [untagged]. match goal with |- sim _ _ ?n => replace n with (untagged scanf fuel (S i) todo (a :: args) (pend_of rej) g en) end.
        2:{ unfold positional_hdr in EP. destruct (h_shortopts h), (h_longopts h); try discriminate; auto. }
        apply IH; auto. cbn [List.length] in *. lia.
Qed.
Lemma sim_check_all : forall t i g en errs, rep cap en errs -> sim (Rg errs) (all_checked act (seq i (List.length t)) g) (check_all checkf i t g en).
Proof.
  induction t as [|h t IH]; intros i g en errs HR; cbn [List.length seq all_checked check_all].
  - split; cbn; [auto|]. rewrite app_nil_r. auto.
  - assert (H1 : sim (Rg errs) (answer act (CCheck i) (PEntry i) None g)
        (match checkf i with Some f => '(g, c) <- f g ;; if c =? 0 then Ok (g, en) else en <- arg_register_error en (PEntry i) c None ;; Ok (g, en) | None => Ok (g, en) end)).
    { destruct (checkf i) as [f|] eqn:Es; [apply sim_answer; auto|]. unfold answer. cbn [acts]. rewrite Es. split; cbn; [auto|]. rewrite app_nil_r. auto. }
    eapply sim_bind; [exact H1|]. intros [g1 e1] [g1' en1] [Eg HR1]. cbn in Eg, HR1. subst g1'.
    pose proof (IH (S i) g1 _ _ HR1) as H2. destruct (all_checked act (seq (S i) (List.length t)) g1) as [[g2 e2]| |], (check_all checkf (S i) t g1 en1) as [[g2' en2]| |]; cbn in H2 |- *; try contradiction; auto.
    destruct H2 as [Eg HR2]. cbn in Eg, HR2. split; cbn; auto. rewrite app_assoc. exact HR2.
Qed.
Lemma reset_all_ok : forall t i g, reset_all resetf i t g = all_reset act (seq i (List.length t)) g.
Proof.
  induction t as [|h t IH]; intros i g; cbn [List.length seq all_reset reset_all]; [reflexivity|]. unfold answer. cbn [acts].
  destruct (resetf i) as [f|]; cbn [bind]; [|apply IH]. destruct (f g); cbn [bind]; auto.
Qed.
(** ** arg_parse *)
Context (posix : bool).
Context (junko : nat -> rawopt) (junkc : nat -> ascii) (junkp : nat -> option str).
Notation parse_in := (share_parse_in tab scanf checkf resetf posix junko junkc junkp).
Definition Rshare (h : heap) (st : G * list err) (st' : heap * gst * G * arg_end) : Prop :=
  let '(h', s', g', en') := st' in h' = h /\ fst st = g' /\ rep cap en' (snd st).

Lemma share_finishes longonly fuel argv h s g en a0 rest evs pos :
  wf_end cap en -> Forall good_hdr tab -> Forall cstr rest ->
  holds h argv (a0 :: rest) ->
  read_args_in longonly posix tab rest = (evs, Finished pos) -> (List.length evs < fuel)%nat ->
  sim (Rshare (h ++ [BFreed; BFreed; BFreed])) (share_spec act tab evs pos g)
      (parse_in longonly fuel (zlen (a0 :: rest)) argv h s g en).
Proof.
  intros Hen Hgood Hcs [l Hl] Hread Hfuel.
  pose proof (read_args_in_events_ok longonly tab posix rest) as Hok. rewrite Hread in Hok. cbn [fst] in Hok.
  unfold share_spec, share_parse_in. rewrite reset_all_ok.
  destruct (all_reset act (seq 0 (List.length tab)) g) as [g0| |]; cbn [bind]; try reflexivity.
  set (args := a0 :: rest) in *. set (argc := zlen args).
  assert (Hargc : 0 < argc) by (unfold argc, args; rewrite zlen_cons; pose proof (zlen_nonneg rest); lia).
  destruct (Z.eqb_spec argc 0); [lia|].
  unfold halloc at 1.
  replace (Z.to_nat argc) with (List.length args) by (unfold argc, zlen; lia).
  assert (Hlj : List.length (fresh junkp (argc + 1)) = S (List.length args)).
  { unfold fresh. rewrite map_length, seq_length. unfold argc, zlen. lia. }
  rewrite (copy_loop_ok0 argv h args (fresh junkp (argc + 1)) l []) by (auto; lia). cbn [bind].
  assert (Hsk : exists j, skipn (List.length args) (fresh junkp (argc + 1)) = [j]).
  { pose proof (skipn_length (List.length args) (fresh junkp (argc + 1))) as Hk. rewrite Hlj in Hk.
    destruct (skipn (List.length args) (fresh junkp (argc + 1))) as [|j [|? ?]]; cbn [List.length] in Hk; [lia|eauto|lia]. }
  destruct Hsk as [j ->].
  unfold hset at 1. rewrite nth_error_snoc.
  rewrite aset_app' by (unfold argc, zlen; rewrite map_length; reflexivity). cbn [bind].
  rewrite lupd_app_0.
  unfold share_parse_tagged.
  assert (Hlong : Forall good_longopts tab) by (eapply Forall_impl; [|exact Hgood]; intros ? []; auto).
  assert (Hshort : Forall good_shortopts tab) by (eapply Forall_impl; [|exact Hgood]; intros ? []; auto).
  rewrite (alloc_longoptions_ok _ _ _ Hlong). cbn [bind]. unfold halloc.
  rewrite (alloc_shortoptions_ok _ _ (short_string_cstr _ Hshort)). cbn [bind].
  replace (Z.to_nat argc) with (List.length args) by (unfold argc, zlen; lia).
  rewrite <- !app_assoc. cbn [app].
  rewrite (load_args_ok0 _ (List.length h) args [None]) by (cbn; rewrite nth_error_app2, Nat.sub_diag by lia; reflexivity).
  cbn [bind].
  destruct (turns_read posix longonly tab argc s a0 rest evs pos Hgood Hcs eq_refl Hread) as (sf & (Hlen & dnf & Hdn & Hnargv & Hind) & Hturns).
  specialize (Hturns fuel Hfuel). unfold opts, lo in Hturns. fold args in Hturns.
  rewrite (turns_tagged _ _ _ _ _ _ _ _ _ Hturns). clear Hturns.
  pose proof (sim_every evs Hok g0 [] (arg_end_resetfn en) (reset_rep cap en Hen)) as Hev.
  destruct (all_options act evs g0) as [[g1 errs1]| |];
    destruct (every evs g0 (arg_end_resetfn en)) as [[g1' en1]| |]; cbn in Hev; try contradiction; cbn [bind].
  2:{ cbn. auto. } 2:{ cbn. auto. }
  destruct Hev as [E1 HR1]. cbn in E1, HR1. subst g1'.
  (* store the permuted arguments back and free the option tables *)
  assert (Hsl : List.length (nargv sf) = List.length args) by (unfold argc, zlen in Hlen; lia).
  rewrite store_args_ok0 by (rewrite map_length; lia). cbn [bind].
  unfold hfree at 1.
  rewrite nth_error_app2 by (rewrite app_length; cbn [List.length]; lia).
  assert (Ex : (List.length (h ++ [BArgv (map Some args ++ [None]); BTemp]) - List.length h = 2)%nat) by (rewrite app_length; cbn [List.length]; lia).
  rewrite Ex. cbn [nth_error bind].
  replace (List.length (h ++ [BArgv (map Some args ++ [None]); BTemp])) with (List.length h + 2)%nat by (rewrite app_length; reflexivity).
  rewrite lupd_app_r. cbn [lupd].
  unfold hfree at 1. rewrite nth_error_app2 by (rewrite app_length; cbn [List.length]; lia).
  assert (Ey : (List.length (h ++ [BArgv (map Some args ++ [None])]) - List.length h = 1)%nat) by (rewrite app_length; cbn [List.length]; lia).
  rewrite Ey. cbn [nth_error bind].
  replace (List.length (h ++ [BArgv (map Some args ++ [None])])) with (List.length h + 1)%nat by (rewrite app_length; reflexivity).
  rewrite lupd_app_r. cbn [lupd bind].
  (* the positional arguments *)
  assert (Hposn : Z.to_nat (argc - optind sf) = List.length pos).
  { rewrite Hind. rewrite <- Hlen, Hnargv. unfold zlen. rewrite app_length. lia. }
  rewrite Hposn, Hind. 
  rewrite (load_args_ok _ (List.length h) pos dnf [None]).
  2:{ rewrite nth_error_app2, Nat.sub_diag by lia. cbn [nth_error map app]. rewrite Hnargv, map_app, <- app_assoc. reflexivity. }
  cbn [bind].
  assert (Hp := sim_untagged tab 0 pos None g1 en1 errs1 (S (List.length tab + List.length pos)) HR1 ltac:(auto) ltac:(lia)).
  cbn [pend_of] in Hp. change (takers 0 tab) with (without_options tab) in Hp.
  destruct (all_positional act (without_options tab) pos None g1) as [[g2 errs2]| |];
    destruct (untagged scanf _ 0 tab pos None g1 en1) as [[g2' en2]| |]; cbn in Hp; try contradiction; cbn [bind]; auto.
  destruct Hp as [E2 HR2]. cbn in E2, HR2. subst g2'.
  assert (Hcount : (end_count en2 =? 0) = match errs1 ++ errs2 with [] => true | _ => false end).
  { rewrite (r_count _ _ _ HR2). pose proof (r_cap _ _ _ HR2). destruct (errs1 ++ errs2) as [|x y].
    { change (zlen (@nil err)) with 0. apply Z.eqb_eq. lia. }
    rewrite zlen_cons. pose proof (zlen_nonneg y). apply Z.eqb_neq. lia. }
  rewrite Hcount.
  assert (Hfr : forall X, hfree (h ++ [BArgv X; BFreed; BFreed]) (List.length h) = Ok (h ++ [BFreed; BFreed; BFreed])).
  { intros X. unfold hfree. rewrite nth_error_app2, Nat.sub_diag by lia. cbn [nth_error].
    rewrite lupd_app_0. reflexivity. }
  destruct (errs1 ++ errs2) as [|x y].
  - pose proof (sim_check_all tab 0 g2 _ _ HR2) as Hc.
    destruct (all_checked act (seq 0 (List.length tab)) g2) as [[g3 e3]| |], (check_all checkf 0 tab g2 en2) as [[g3' en3]| |]; cbn in Hc |- *; try contradiction; auto.
    rewrite Hfr. cbn. destruct Hc as [E3 HR3]. cbn in E3, HR3. auto.
  - cbn [bind]. rewrite Hfr. cbn. auto.
Qed.

Lemma share_empty longonly fuel argv h s g en : wf_end cap en ->
  sim (Rshare h) (g <- all_reset act (seq 0 (List.length tab)) g ;; all_checked act (seq 0 (List.length tab)) g) (parse_in longonly fuel 0 argv h s g en).
Proof.
  intros Hen. unfold share_parse_in. rewrite reset_all_ok. eapply sim_bind; [apply sim_refl|]. intros g1 ? <-. change (0 =? 0) with true. cbn iota.
  pose proof (sim_check_all tab 0 g1 _ _ (reset_rep cap en Hen)) as Hc.
  destruct (all_checked act (seq 0 (List.length tab)) g1) as [[g3 e3]| |], (check_all checkf 0 tab g1 (arg_end_resetfn en)) as [[g3' en3]| |]; cbn in Hc |- *; try contradiction; auto.
Qed.

Lemma share_hangs longonly fuel argv h s g en a0 rest evs :
  Forall good_hdr tab -> Forall cstr rest -> holds h argv (a0 :: rest) ->
  read_args_in longonly posix tab rest = (evs, Hangs) ->
  forall r, parse_in longonly fuel (zlen (a0 :: rest)) argv h s g en <> Ok r.
Proof.
  intros Hgood Hcs [l Hl] Hread r Hp. unfold share_parse_in in Hp. apply bind_ok in Hp as (g0 & _ & Hp). revert Hp.
  set (args := a0 :: rest) in *. set (argc := zlen args).
  assert (Hargc : 0 < argc) by (unfold argc, args; rewrite zlen_cons; pose proof (zlen_nonneg rest); lia).
  destruct (Z.eqb_spec argc 0); [lia|].
  unfold halloc at 1.
  replace (Z.to_nat argc) with (List.length args) by (unfold argc, zlen; lia).
  assert (Hlj : List.length (fresh junkp (argc + 1)) = S (List.length args)).
  { unfold fresh. rewrite map_length, seq_length. unfold argc, zlen. lia. }
  rewrite (copy_loop_ok0 argv h args (fresh junkp (argc + 1)) l []) by (auto; lia). cbn [bind].
  assert (Hsk : exists j, skipn (List.length args) (fresh junkp (argc + 1)) = [j]).
  { pose proof (skipn_length (List.length args) (fresh junkp (argc + 1))) as Hk. rewrite Hlj in Hk.
    destruct (skipn (List.length args) (fresh junkp (argc + 1))) as [|j [|? ?]]; cbn [List.length] in Hk; [lia|eauto|lia]. }
  destruct Hsk as [j ->].
  unfold hset at 1. rewrite nth_error_snoc.
  rewrite aset_app' by (unfold argc, zlen; rewrite map_length; reflexivity). cbn [bind].
  rewrite lupd_app_0.
  unfold share_parse_tagged.
  assert (Hlong : Forall good_longopts tab) by (eapply Forall_impl; [|exact Hgood]; intros ? []; auto).
  assert (Hshort : Forall good_shortopts tab) by (eapply Forall_impl; [|exact Hgood]; intros ? []; auto).
  rewrite (alloc_longoptions_ok _ _ _ Hlong). cbn [bind]. unfold halloc.
  rewrite (alloc_shortoptions_ok _ _ (short_string_cstr _ Hshort)). cbn [bind].
  replace (Z.to_nat argc) with (List.length args) by (unfold argc, zlen; lia).
  rewrite <- !app_assoc. cbn [app].
  rewrite (load_args_ok0 _ (List.length h) args [None]) by (cbn; rewrite nth_error_app2, Nat.sub_diag by lia; reflexivity).
  cbn [bind].
  intros Hp. apply bind_ok in Hp as ([[[h1 s1] g1] en1] & Ht & _). apply bind_ok in Ht as ([[s2 g2] en2] & Ht & _).
  apply tagged_turns in Ht as (evs' & Ht). eapply (turns_hang posix longonly tab argc s a0 rest evs); eauto.
Qed.
End Shared.
