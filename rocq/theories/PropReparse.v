(** C51: parsing the same command line again gives the same result. C52: which values scan functions get.

    [steady h b] (ReparseProofs.v): entries for which a parse can be repeated. A date format must mention
    the hour before AM or PM, and an arg_str must require its value. The refutations at the end show that
    both are needed. *)
From Verif Require Import Base IntModel IntSpec FileModel FileSpec DateModel DateSpec GetoptModel ParseModel ParseSpec GetoptProofs ParseIdeal ParseProofs ParseFacts ParseObserve ParseSafe ParseLemmas ArgModel KindsSpec KindsProofs ReparseProofs PropKinds.
From Verif Require PropParse ExTable.
From Coq Require Import ZArith List Ascii String Bool Lia.
Import ListNotations.
Open Scope Z_scope.

(** C52. [may_scan h v]: an entry that requires a value is never scanned without one, an option that
    takes none never with one, and an entry without options always with one. *)
Definition may_scan (h : hdr) (v : option str) : Prop :=
  (no_options h -> v <> None) /\
  (~ no_options h -> (v = None -> h_hasvalue h = false \/ h_hasoptvalue h = true) /\ (v <> None -> h_hasvalue h = true \/ h_hasoptvalue h = true)).
Section Scans.
Context {B : Type}.
Context (scan1 scan2 : hdr -> B -> option (option str -> res (B * Z))).
Context (check : hdr -> B -> option Z).
Context (reset : hdr -> B -> res B).
(** Scan functions that do the same in these cases. *)
Definition same_scans : Prop := forall h b,
  match scan1 h b, scan2 h b with
  | None, None => True
  | Some f1, Some f2 => forall v, may_scan h v -> f1 v = f2 v
  | _, _ => False
  end.
Hypothesis Hsame : same_scans.
Lemma same_events evs : forall st, Forall (dispatched (map e_hdr (fst st))) evs -> ideal_events scan1 evs st = ideal_events scan2 evs st.
Proof.
  induction evs as [|ev evs IH]; intros [tab errs] H; cbn [ideal_events fst] in *; auto. inversion_clear H as [|? ? H1 H2].
  assert (E : ideal_event scan1 ev (tab, errs) = ideal_event scan2 ev (tab, errs)).
  { destruct ev as [i v|c v]; cbn; auto. destruct (nth_error tab i) as [e|] eqn:Ei; auto. destruct H1 as (hd & Hi & Hno & Hv).
    rewrite (map_nth_error _ _ _ Ei) in Hi. injection Hi as <-. pose proof (Hsame (e_hdr e) (e_body e)) as Hs.
    destruct (scan1 (e_hdr e) (e_body e)), (scan2 (e_hdr e) (e_body e)); try contradiction; auto. rewrite Hs; auto. split; [contradiction|auto]. }
  rewrite <- E. destruct (ideal_event scan1 ev (tab, errs)) as [[t e]| |] eqn:E1; auto. cbn [bind]. apply IH. cbn [fst].
  replace (map e_hdr t) with (map e_hdr tab); auto. clear - E1. destruct ev as [i v|c v]; cbn in E1; [|congruence].
  destruct (nth_error tab i) as [x|] eqn:Ei; [|discriminate]. destruct (scan1 (e_hdr x) (e_body x)); [|congruence].
  apply bind_ok in E1 as ([b c] & _ & E1). injection E1 as <- _. symmetry. apply map_lupd_hdr; auto.
Qed.
Lemma same_feed h i : no_options h -> forall args b rej, feed scan1 h i b args rej = feed scan2 h i b args rej.
Proof.
  intros Hn. induction args as [|a args IH]; intros b rej; cbn [feed]; auto. pose proof (Hsame h b) as Hs.
  destruct (scan1 h b), (scan2 h b); try contradiction; auto. rewrite Hs by (split; [discriminate|contradiction]).
  destruct (r0 (Some a)) as [[b' c]| |]; auto. cbn [bind]. destruct (c =? 0); auto.
Qed.
Lemma same_positional : forall tab i args rej, ideal_positional scan1 i tab args rej = ideal_positional scan2 i tab args rej.
Proof.
  induction tab as [|e tab IH]; intros i args rej; destruct args as [|a args]; cbn [ideal_positional]; auto.
  destruct (positional_hdr (e_hdr e)) eqn:Ep.
  - apply positional_hdr_iff in Ep. rewrite same_feed by auto. destruct (feed scan2 (e_hdr e) i (e_body e) (a :: args) rej) as [[[b l] r]| |]; auto. cbn [bind]. rewrite IH. auto.
  - rewrite IH. auto.
Qed.
Theorem C52_scan_gets_value_iff_declared :
  forall posix cap tab rest jo jc jp fuel argv h s en a0, call cap tab en h argv a0 rest fuel ->
  forall r, observe (arg_parse scan1 check reset posix jo jc jp fuel (zlen (a0 :: rest)) argv h s tab en) = Ok r <->
            observe (arg_parse scan2 check reset posix jo jc jp fuel (zlen (a0 :: rest)) argv h s tab en) = Ok r.
Proof.
  intros posix cap tab rest jo jc jp fuel argv h s en a0 Hc r.
  destruct (read_args posix (map e_hdr tab) rest) as [evs [pos|]] eqn:Hr.
  - rewrite !(one_pass _ check reset posix cap jo jc jp fuel argv h s tab en a0 rest evs pos Hc Hr).
    replace (ideal_parse scan1 check reset evs pos tab) with (ideal_parse scan2 check reset evs pos tab); [reflexivity|].
    unfold ideal_parse. destruct (ideal_reset reset tab) as [t0| |] eqn:E0; auto. cbn [bind]. rewrite same_events.
    + destruct (ideal_events scan2 evs (t0, [])) as [[t1 e1]| |]; auto. cbn [bind]. rewrite same_positional. auto.
    + cbn [fst]. rewrite (ideal_reset_hdr _ _ _ E0). pose proof (read_args_dispatched (map e_hdr tab) posix rest) as H. rewrite Hr in H. exact H.
  - assert (N : forall sc r, observe (arg_parse sc check reset posix jo jc jp fuel (zlen (a0 :: rest)) argv h s tab en) <> Ok r).
    { intros sc r0 E. destruct (arg_parse sc check reset posix jo jc jp fuel (zlen (a0 :: rest)) argv h s tab en) as [x| |] eqn:Ex; try discriminate.
      eapply (observe_hangs sc check reset posix jo jc jp cap fuel argv h s tab en a0 rest evs Hc Hr); eauto. }
    split; intros E; exfalso; eapply N; eauto.
Qed.
End Scans.

Section Kinds.
Context {D : Type}.
Context (strtod : str -> D * nat).
Context (rexmatch : str -> Z -> str -> res bool).
Context (lm : long_model) (sp : seps).
Notation scan := (kscan strtod rexmatch lm sp).
Notation parse := (karg_parse strtod rexmatch lm sp).
Notation reached := (reached strtod rexmatch lm sp).

Lemma reset_nth (t t0 : list (entry (body D))) : ideal_reset kreset t = Ok t0 ->
  forall i e, nth_error t i = Some e -> exists b, nth_error t0 i = Some (set_body b e) /\ kreset (e_hdr e) (e_body e) = Ok b.
Proof.
  revert t0. induction t as [|e t IH]; intros t0 E i e0 Hi; [destruct i; discriminate|].
  cbn in E. apply bind_ok in E as (b & Eb & E). apply bind_ok in E as (t1 & Et & E). injection E as <-.
  destruct i; cbn in *; [injection Hi as <-; eauto|eauto].
Qed.
(** A relation between tables, entry by entry. *)
Lemma tabR_intro (R : nat -> hdr -> body D -> body D -> Prop) : forall t1 t2 k, List.length t1 = List.length t2 ->
  (forall i e1 e2, nth_error t1 i = Some e1 -> nth_error t2 i = Some e2 -> e_hdr e1 = e_hdr e2 /\ R (k + i)%nat (e_hdr e1) (e_body e1) (e_body e2)) -> tabR R k t1 t2.
Proof.
  induction t1 as [|[h1 b1] t1 IH]; intros [|[h2 b2] t2] k Hl H; try discriminate; [constructor|].
  destruct (H 0%nat _ _ eq_refl eq_refl) as [E HR]. cbn in E, HR. subst h2. rewrite Nat.add_0_r in HR. constructor; auto. apply IH; [cbn in Hl; lia|].
  intros i e1 e2 H1 H2. replace (S k + i)%nat with (k + S i)%nat by lia. apply H; auto.
Qed.
Lemma hdr_nth (t t' : list (entry (body D))) : map e_hdr t' = map e_hdr t -> forall i e, nth_error t i = Some e -> exists e', nth_error t' i = Some e' /\ e_hdr e' = e_hdr e.
Proof.
  intros E i e Hi. assert (H : nth_error (map e_hdr t') i = Some (e_hdr e)) by (rewrite E; apply map_nth_error; auto).
  destruct (nth_error t' i) as [e'|] eqn:E'.
  - exists e'. split; auto. rewrite (map_nth_error _ _ _ E') in H. congruence.
  - exfalso. apply nth_error_None in E'. assert (i < List.length (map e_hdr t'))%nat by (apply nth_error_Some; congruence). rewrite map_length in *. lia.
Qed.

(** C51. [jo2 … a2] is the second call: its fresh memory, getopt variables, error table and program
    name may be others. *)
Theorem C51_parse_again :
  forall ints posix cap tab rest jo jc jp fuel argv h s en a0 h' s' tab' en',
  strtod_contract strtod -> reached ints tab -> Forall (fun e => steady (e_hdr e) (e_body e)) tab ->
  call cap tab en h argv a0 rest fuel -> Forall (safe_value lm ints) rest ->
  parse posix jo jc jp fuel (zlen (a0 :: rest)) argv h s tab en = Ok (h', s', tab', en') ->
  forall jo2 jc2 jp2 fuel2 argv2 h2 s2 en2 a2, call cap tab' en2 h2 argv2 a2 rest fuel2 ->
  observe (parse posix jo2 jc2 jp2 fuel2 (zlen (a2 :: rest)) argv2 h2 s2 tab' en2) = Ok (tab', end_count en', recorded en').
Proof.
  intros ints posix cap tab rest jo jc jp fuel argv h s en a0 h' s' tab' en' Hd Ht Hst Hc Hv Hp jo2 jc2 jp2 fuel2 argv2 h2 s2 en2 a2 Hc2.
  apply (reached_ready strtod rexmatch lm sp Hd) in Ht.
  destruct (parse_ok_safe strtod rexmatch lm sp Hd _ _ _ _ _ _ _ _ _ _ _ _ _ _ _ _ _ _ Ht Hc Hv Hp) as (evs & pos & errs & Hr & Ei & E1 & E2 & Ht' & Hh').
  assert (Hr2 : read_args posix (map e_hdr tab') rest = (evs, Finished pos)) by (rewrite Hh'; auto).
  unfold karg_parse. rewrite (one_pass scan kcheck kreset posix cap jo2 jc2 jp2 fuel2 argv2 h2 s2 tab' en2 a2 rest evs pos Hc2 Hr2).
  cut (ideal_parse scan kcheck kreset evs pos tab' = Ok (tab', errs)); [intros ->; cbn [bind]; unfold visible; cbn [fst snd]; congruence|].
  pose proof (kinds_safe strtod rexmatch lm sp Hd ints) as Hsafe.
  destruct (read_args_carries (safe_value lm ints) (safe_suffix _ _ _ _ Hsafe) _ _ _ _ _ Hv Hr) as [Hce Hcp].
  pose proof (read_args_dispatched (map e_hdr tab) posix rest) as Hdis. rewrite Hr in Hdis. cbn [fst] in Hdis.
  set (hs := map e_hdr tab) in *.
  assert (Hok : Forall (ok_ev (okv lm ints hs)) evs).
  { rewrite Forall_forall in *. intros ev Hev. specialize (Hce ev Hev). specialize (Hdis ev Hev). destruct ev as [i v|c v]; [|exact I]. cbn in Hce, Hdis |- *.
    destruct Hdis as (hd & Hhd & _ & Hno & _). split; [intros x ->; exact Hce|]. intros hd' Hhd' Hnone. assert (hd' = hd) by congruence. subst hd'. auto. }
  assert (Hokp : Forall (fun a => forall i, okv lm ints hs i (Some a)) pos).
  { eapply Forall_impl; [|exact Hcp]. intros a Ha i. split; [intros x [= <-]; auto|discriminate]. }
  unfold ideal_parse in Ei |- *. apply bind_ok in Ei as (t0 & E0 & Ei). apply bind_ok in Ei as ([t1 e1] & Ee & Ei). apply bind_ok in Ei as ([t2 e2] & Ep & Ei). cbn [fst snd] in *. injection Ei as -> Ei.
  destruct (reset_safe scan kreset _ _ Hsafe tab' Ht') as (u0 & F0 & Hu0). rewrite F0. cbn [bind].
  destruct (reset_safe scan kreset _ _ Hsafe tab Ht) as (t0' & E0' & Ht0). rewrite E0 in E0'. injection E0' as <-.
  pose proof (ideal_reset_hdr _ _ _ E0) as H0. pose proof (ideal_reset_hdr _ _ _ F0) as G0. fold hs in H0.
  set (blank := @arg_rem D None None).
  (* kinds are kept *)
  assert (Kinds : forall i e e', nth_error t0 i = Some e -> nth_error tab' i = Some e' -> same_kind (e_body e) (e_body e')).
  { set (B0 := fun i => e_body (nth i t0 blank)).
    assert (T0 : tabR (Rkind rexmatch ints B0) 0 t0 t0).
    { apply tabR_intro; auto. intros i e1' e2' Hi1 Hi2. assert (e2' = e1') by congruence. subst e2'. split; auto. split; auto. cbn. unfold B0.
      rewrite (nth_error_nth _ _ blank Hi1). split; [apply same_kind_refl|]. rewrite Forall_forall in Ht0. apply Ht0. eapply nth_error_In; eauto. }
    destruct (pair_events scan (Rkind rexmatch ints B0) (okv lm ints hs) (kind_scan strtod rexmatch lm sp Hd ints hs B0) evs t0 t0 [] t1 e1 T0 Hok Ee) as (t1' & Ee' & T1).
    destruct (pair_positional scan (Rkind rexmatch ints B0) (okv lm ints hs) (kind_scan strtod rexmatch lm sp Hd ints hs B0) t1 t1' 0 pos None tab' e2 T1 Hokp Ep) as (t2' & _ & T2).
    intros i e e' Hi Hi'. destruct (tabR_nth _ _ _ _ T2 i e' Hi') as (b2 & _ & _ & HB & _). cbn in HB. unfold B0 in HB. rewrite (nth_error_nth _ _ blank Hi) in HB. auto. }
  set (S2 := fun i => slots_reset (e_body (nth i tab' blank))).
  assert (Len : List.length t0 = List.length u0).
  { rewrite <- (map_length e_hdr t0), <- (map_length e_hdr u0), H0, G0, Hh'. auto. }
  assert (T0 : tabR (Rtwin rexmatch ints hs S2) 0 t0 u0).
  { apply tabR_intro; auto. intros i x1 x2 Hi1 Hi2. cbn [Nat.add].
    assert (Hi : nth_error hs i = Some (e_hdr x1)) by (rewrite <- H0; apply map_nth_error; auto).
    assert (Hi' : nth_error hs i = Some (e_hdr x2)) by (rewrite <- Hh', <- G0; apply map_nth_error; auto).
    assert (Eh : e_hdr x1 = e_hdr x2) by congruence. split; auto. split; auto.
    destruct (hdr_nth t0 tab ltac:(fold hs; auto) i x1 Hi1) as (e & He & Heh).
    destruct (hdr_nth u0 tab' ltac:(auto) i x2 Hi2) as (e' & He' & Heh').
    destruct (reset_nth _ _ E0 i e He) as (b & Hb1 & Hb2). destruct (reset_nth _ _ F0 i e' He') as (b' & Hb1' & Hb2').
    rewrite Hi1 in Hb1. injection Hb1 as ->. rewrite Hi2 in Hb1'. injection Hb1' as ->. cbn [e_hdr e_body set_body] in *.
    pose proof (Kinds i _ _ Hi1 He') as Hk. cbn in Hk.
    assert (I1 : Inv rexmatch ints (e_hdr e) (e_body e)) by (rewrite Forall_forall in Ht; apply Ht; eapply nth_error_In; eauto).
    assert (I2 : Inv rexmatch ints (e_hdr e') (e_body e')) by (rewrite Forall_forall in Ht'; apply Ht'; eapply nth_error_In; eauto).
    destruct (reset_inv rexmatch ints _ _ I1) as (bx & Ex & Jx & Nx & Cx). rewrite Hb2 in Ex. injection Ex as <-.
    destruct (reset_inv rexmatch ints _ _ I2) as (by' & Ey & Jy & Ny & Cy). rewrite Hb2' in Ey. injection Ey as <-.
    destruct (reset_slots rexmatch ints _ _ _ I1 Hb2) as [_ K1]. destruct (reset_slots rexmatch ints _ _ _ I2 Hb2') as [Sl K2].
    assert (Cz : forall x : body D, kcount x = None \/ kcount x <> None) by (intros x; destruct (kcount x); [right; discriminate|auto]).
    assert (Cb : kcount b = None \/ kcount b = Some 0) by (destruct (Cz (e_body e)); auto).
    assert (Cb' : kcount b' = None \/ kcount b' = Some 0) by (destruct (Cz (e_body e')); auto).
    assert (Kbb : same_kind b b') by (eapply same_kind_trans; eauto).
    assert (Mk : mark b = 0%nat) by (unfold mark; destruct Cb as [->| ->]; auto).
    constructor; auto.
    - rewrite Eh. auto.
    - rewrite Forall_forall in Hst. apply (steady_kind _ (e_body e)); auto. apply Hst. eapply nth_error_In; eauto.
    - destruct b, b'; cbn in Kbb; try contradiction; auto; destruct Cb as [Cb|Cb]; try discriminate; destruct Cb' as [Cb'|Cb']; try discriminate; congruence.
    - intros k _. unfold S2. rewrite (nth_error_nth _ _ blank He'), Sl. auto.
    - intros k y1 Hk'. rewrite Mk in Hk'. lia. }
  destruct (pair_events scan (Rtwin rexmatch ints hs S2) (okv lm ints hs) (twin_scan strtod rexmatch lm sp Hd ints hs S2) evs t0 u0 [] t1 e1 T0 Hok Ee) as (u1 & Fe & T1).
  rewrite Fe. cbn [bind fst snd].
  destruct (pair_positional scan (Rtwin rexmatch ints hs S2) (okv lm ints hs) (twin_scan strtod rexmatch lm sp Hd ints hs S2) t1 u1 0 pos None tab' e2 T1 Hokp Ep) as (u2 & Fp & T2).
  rewrite Fp. cbn [bind fst snd].
  assert (u2 = tab').
  { apply ReparseProofs.nth_ext. intros i. destruct (nth_error tab' i) as [e|] eqn:Ei'.
    - destruct (tabR_nth _ _ _ _ T2 i e Ei') as (b2 & Hb2 & _ & Tw). rewrite Hb2. cbn in Tw. apply twin_final in Tw; [subst b2; destruct e; auto|].
      unfold S2. rewrite (nth_error_nth _ _ blank Ei'). auto.
    - apply nth_error_None in Ei'. apply nth_error_None. assert (L : List.length u2 = List.length tab') by (clear - T2; induction T2; cbn; auto). lia. }
  subst u2. rewrite Ei. reflexivity.
Qed.
End Kinds.

(** ** The restrictions are needed *)
Local Open Scope string_scope.
Local Open Scope list_scope.
Local Open Scope Z_scope.
Definition twice (tab : list (entry (body Z))) (l : list string) :=
  let go t := observe (ExTable.parse false ExTable.jo ExTable.jc ExTable.jp 40 (zlen l) 1 (ExTable.heap0 l) ExTable.s0 t (ExTable.en 4)) in
  match go tab with
  | Ok (t, n, e) => match go t with Ok (t', n', e') => Some (map (fun x => slots (e_body x)) t, n, map (fun x => slots (e_body x)) t', n') | _ => None end
  | _ => None
  end.
(** Format %p: the first parse turns hour 0 into 12, the second one finds 12 too late for PM. *)
Theorem C51_ampm_refuted :
  exists tab t t', reached ExTable.strtod ExTable.rexmatch Long64 unix_seps false tab /\ twice tab ["p"; "PM"] = Some (t, 0, t', 1).
Proof.
  exists [arg_daten None None (Some (lit "%p")) None 1 1 None]. do 2 eexists. split; [|vm_compute; reflexivity].
  apply reached_new. repeat constructor; cbn; try discriminate; lia.
Qed.
(** An arg_str with an optional value and a default: the second parse has lost the default. *)
Theorem C51_default_refuted :
  exists tab t t', reached ExTable.strtod ExTable.rexmatch Long64 unix_seps false tab /\ twice tab ["p"; "-s"] = Some (t, 0, t', 0) /\
  t = [[VText (lit "dflt")]] /\ t' = [[VText []]].
Proof.
  exists [mkentry (e_hdr (with_optvalue (@arg_strn Z (Some (lit "s")) None None 0 1 None))) (KStr {| str_count := 0; str_sval := [lit "dflt"] |})].
  do 2 eexists. split; [|split; [vm_compute; reflexivity|split; reflexivity]].
  eapply reached_preset; [apply (reached_new _ _ _ _ _ [with_optvalue (arg_strn (Some (lit "s")) None None 0 1 None)])|].
  - repeat constructor; cbn; try discriminate; lia.
  - repeat constructor.
Qed.

(** ** Examples *)
Example C51_case_steady : Forall (fun e => steady (e_hdr e) (e_body e)) ExTable.tab.
Proof. repeat constructor. Qed.
(** With errors: a value rejected, too many strings. *)
Example C51_case : twice ExTable.tab ["p"; "x"; "-vn"; "12"; "-n"; "zz"; "--out=d/a.c"; "y"; "z"] =
  let t := [[]; [VInt 12; VInt 7]; [VFile (lit "d/a.c") (lit "a.c") (lit ".c")]; [VText (lit "x"); VText (lit "y")]] in Some (t, 2, t, 2).
Proof. vm_compute. reflexivity. Qed.
(** A date, twice into the same slot. *)
Example C51_case_date : let tab := [@arg_daten Z None None (Some (lit "%I:%M %p")) None 1 2 None] in
  Forall (fun e => steady (e_hdr e) (e_body e)) tab /\ exists t, twice tab ["p"; "03:15 PM"] = Some (t, 0, t, 0).
Proof. split; [repeat constructor|]. eexists. vm_compute. reflexivity. Qed.

(** A user-defined kind whose scan function would crash on a missing value is safe behind a required one. *)
Definition careless (h : hdr) (b : body Z) : option (option str -> res (body Z * Z)) :=
  match b with
  | KInt p => Some (fun v => match v with None => UB NullDeref | Some s => lift KInt (arg_int_scanfn Long64 (h_maxcount h) p (Some s)) end)
  | _ => kscan ExTable.strtod ExTable.rexmatch Long64 unix_seps h b
  end.
Example C52_case : observe (arg_parse careless kcheck kreset false ExTable.jo ExTable.jc ExTable.jp 40 5 1 (ExTable.heap0 ["p"; "-v"; "-n"; "8"; "x"]) ExTable.s0 ExTable.tab (ExTable.en 4))
  = observe (arg_parse (kscan ExTable.strtod ExTable.rexmatch Long64 unix_seps) kcheck kreset false ExTable.jo ExTable.jc ExTable.jp 40 5 1 (ExTable.heap0 ["p"; "-v"; "-n"; "8"; "x"]) ExTable.s0 ExTable.tab (ExTable.en 4)) /\
  may_scan (e_hdr (nth 1 ExTable.tab (arg_rem None None))) (Some (lit "8")) /\ ~ may_scan (e_hdr (nth 1 ExTable.tab (arg_rem None None))) None.
Proof.
  split; [vm_compute; reflexivity|]. split.
  - split; [discriminate|]. intros _. split; [discriminate|]. intros _. left. reflexivity.
  - intros [_ H]. destruct H as [H _]; [intros [H _]; discriminate|]. destruct (H eq_refl); discriminate.
Qed.

Print Assumptions C52_scan_gets_value_iff_declared.
Print Assumptions C51_parse_again.
Print Assumptions C51_ampm_refuted.
Print Assumptions C51_default_refuted.
