(** The getopt_long loop of arg_parse_tagged reads the command line in one pass: refinement of
    [tagged_loop] to [read_args]. *)
From Verif Require Import Base IntModel GetoptModel PermuteProofs ParseModel ParseSpec LongOnlySpec OptTables.
From Coq Require Import ZArith List Ascii String Bool Lia.
Import ListNotations.
Open Scope Z_scope.

(** ** Characters as ints *)
Lemma chr_sc c : chr (sc c) = c.
Proof. destruct c as [[] [] [] [] [] [] [] []]; reflexivity. Qed.
Lemma sc_inj c d : sc c = sc d -> c = d.
Proof. intros H. rewrite <- (chr_sc c), <- (chr_sc d), H. reflexivity. Qed.


Section Loop.
Context {B : Type}.
Context (scan : hdr -> B -> option (option str -> res (B * Z))).
Context (posix : bool).
Context (longonly : bool).           (* built with ARG_LONG_ONLY? *)
Context (hs : list hdr).
Hypothesis Hgood : Forall good_hdr hs.

Definition opts : str := ":"%char :: short_string hs.
Definition lo : list lopt := lopts_of hs 0.

Lemma Hshort : Forall good_shortopts hs.
Proof. eapply Forall_impl; [|exact Hgood]. intros h [H _]. exact H. Qed.

(** Effects of the events on the table and the error list. *)
Definition apply_event (ev : event) (tab : list (entry B)) (en : arg_end) : res (list (entry B) * arg_end) :=
  match ev with
  | EvScan i v => call_scan scan tab (Z.of_nat i) v en
  | EvErr c v => en <- arg_register_error en PEnd c v ;; Ok (tab, en)
  end.
Fixpoint run (evs : list event) (tab : list (entry B)) (en : arg_end) : res (list (entry B) * arg_end) :=
  match evs with
  | [] => Ok (tab, en)
  | ev :: evs' => '(tab, en) <- apply_event ev tab en ;; run evs' tab en
  end.

Lemma run_app e1 e2 tab en : run (e1 ++ e2) tab en = ('(tab, en) <- run e1 tab en ;; run e2 tab en).
Proof.
  revert tab en; induction e1; intros; simpl; auto.
  destruct (apply_event a tab en) as [[t e]| |]; cbn [bind]; auto.
Qed.
Lemma run_one e tab en : run [e] tab en = apply_event e tab en.
Proof. simpl. destruct (apply_event e tab en) as [[? ?]| |]; reflexivity. Qed.

(** Scanning does not change headers. *)
Lemma map_lupd_hdr (tab : list (entry B)) i e b : nth_error tab i = Some e ->
  map e_hdr (lupd tab i (set_body b e)) = map e_hdr tab.
Proof.
  revert i; induction tab; destruct i; simpl; intros; try discriminate; auto.
  - injection H as ->. reflexivity.
  - f_equal. auto.
Qed.
Lemma call_scan_hdr tab i v en tab' en' : call_scan scan tab i v en = Ok (tab', en') -> map e_hdr tab' = map e_hdr tab.
Proof.
  unfold call_scan. intros H. apply bind_ok in H as (e & He & H).
  destruct (scan (e_hdr e) (e_body e)); [|congruence].
  apply bind_ok in H as ([b c] & Hb & H). apply bind_ok in H as (t & Ht & H).
  assert (t = tab') by (destruct (c =? 0); [congruence|apply bind_ok in H as (? & _ & H); congruence]). subst t.
  unfold aget in He. destruct (i <? 0) eqn:E0; [discriminate|].
  destruct (nth_error tab (Z.to_nat i)) eqn:En; [|discriminate]. injection He as <-.
  unfold aset in Ht. destruct ((0 <=? i) && _); [|discriminate]. injection Ht as <-.
  apply map_lupd_hdr; auto.
Qed.
Lemma apply_event_hdr ev tab en tab' en' : apply_event ev tab en = Ok (tab', en') -> map e_hdr tab' = map e_hdr tab.
Proof.
  destruct ev; simpl; intros H; [eapply call_scan_hdr; eauto|].
  apply bind_ok in H as (? & _ & H). congruence.
Qed.
Lemma run_hdr evs : forall tab en tab' en', run evs tab en = Ok (tab', en') -> map e_hdr tab' = map e_hdr tab.
Proof.
  induction evs; simpl; intros; [congruence|].
  apply bind_ok in H as ([t e] & H1 & H). rewrite (IHevs _ _ _ _ H). eapply apply_event_hdr; eauto.
Qed.

Variable nargc : Z.

Notation loop := (tagged_loop scan posix longonly).
Notation start gf := (gi_start nargc (Some lo) longonly gf opts (negb posix) false).
Notation gscan := (gi_scan nargc (Some lo) longonly opts).

(** What happens after a getopt_long call. *)
Definition K (F : nat) (m : res (Z * gst)) (tab : list (entry B)) (en : arg_end) : res (gst * list (entry B) * arg_end) :=
  '(copt, s) <- m ;;
  if copt =? -1 then Ok (s, tab, en)
  else '(tab, en) <- dispatch scan copt s tab en ;; loop F nargc opts lo s tab en.

Lemma loop_S F s tab en :
  loop (S F) nargc opts lo s tab en = K F (getopt_in longonly posix (S (List.length (nargv s))) nargc opts lo s) tab en.
Proof. reflexivity. Qed.

Definition calm (s : gst) : Prop :=
  optreset s = false /\ posixly s = (if posix then 1 else 0) /\ 0 < optind s.

Lemma getopt_calm gf s : calm s -> getopt_in longonly posix gf nargc opts lo s = start gf (set_optarg None s).
Proof.
  intros (H1 & H2 & H3). transitivity (getopt_internal posix nargc (Some lo) longonly gf opts true s).
  { unfold getopt_in. destruct longonly; reflexivity. }
  unfold getopt_internal.
  destruct (Z.eqb_spec (optind s) 0); [lia|]. cbv zeta.
  destruct s; cbn in *; subst. destruct posix; reflexivity.
Qed.

(** Fields left alone while one argument is being read. *)
Definition frame (s s' : gst) : Prop :=
  nargv s' = nargv s /\ nonopt_start s' = nonopt_start s /\ nonopt_end s' = nonopt_end s /\
  posixly s' = posixly s /\ optreset s' = optreset s.

(** In the middle of argument [a], with [cs] left of it. *)
Record mid (pre : list str) (a : str) (rest : list str) (cs : str) (s : gst) : Prop := {
  m_calm : calm s;
  m_argv : nargv s = pre ++ a :: rest;
  m_ind : optind s = zlen pre;
  m_argc : nargc = zlen (nargv s);
  m_off : 0 < place_off s;
  m_place : place s = cs;
  m_arg : optarg s = None
}.

Lemma nargv_get_app s pre x rest : nargv s = pre ++ x :: rest -> nargv_get s (zlen pre) = Ok (Some x).
Proof.
  intros H. unfold nargv_get. rewrite H. destruct (Z.eqb_spec (zlen pre) (zlen (pre ++ x :: rest))).
  - rewrite zlen_app, zlen_cons in e. pose proof (zlen_nonneg rest). lia.
  - unfold aget. pose proof (zlen_nonneg pre). destruct (Z.ltb_spec (zlen pre) 0); [lia|].
    unfold zlen. rewrite Nat2Z.id. rewrite nth_error_app2, Nat.sub_diag by lia. reflexivity.
Qed.
Lemma nargv_get_end s : nargv_get s (zlen (nargv s)) = Ok None.
Proof. unfold nargv_get. rewrite Z.eqb_refl. reflexivity. Qed.

Lemma split_eq_parts s : split_eq s = (name_part s, value_part s).
Proof. induction s as [|c s IH]; simpl; auto. destruct (ceqb c "="); auto. rewrite IH. reflexivity. Qed.

Lemma sc_zero c : sc c = 0 -> c = NUL.
Proof. intros H. apply sc_inj. rewrite H. reflexivity. Qed.

Local Arguments dispatch : simpl never.
Local Arguments long_occurrence : simpl never.
Local Arguments run : simpl never.
Local Arguments nargv_get : simpl never.

Ltac fin :=
  split; [unfold frame; cbn; repeat split; auto
         | split; [cbn; lia | split; [first [discriminate | auto] | intros; first [discriminate | auto]]]].

(** parse_long_options and the dispatch of its result. *)
Lemma step_long exactly pre a rest body s :
  mid pre a rest body s ->
  (exactly = true -> long_lookup longonly exactly hs (name_part body) <> Unknown) ->
  forall ev used, read_found (long_lookup longonly exactly hs (name_part body)) a body (hd_error rest) = (ev, used) ->
  exists copt s', parse_long_options opts lo exactly longonly s = Ok (copt, s') /\ copt <> -1 /\
    (forall tab en, map e_hdr tab = hs -> dispatch scan copt s' tab en = run ev tab en) /\
    frame s s' /\ optind s' = optind s + 1 + (if used then 1 else 0) /\ ev <> [] /\ (used = true -> rest <> []).
Proof.
  intros M Hkn ev used. unfold read_found, parse_long_options.
  rewrite (m_place _ _ _ _ _ M). rewrite split_eq_parts.
  pose proof (search_lookup (name_part body) exactly longonly hs) as HL. fold lo in HL.
  destruct (long_search (name_part body) exactly longonly lo 0 None false) as [[mtch exact] second] eqn:ES.
  assert (Eprev : forall s', nargv s' = nargv s -> nargv_get s' (optind s + 1 - 1) = Ok (Some a)).
  { intros s' H. rewrite (m_ind _ _ _ _ _ M). replace (zlen pre + 1 - 1) with (zlen pre) by lia.
    eapply nargv_get_app. rewrite H. apply M. }
  assert (Hbad : forall s', frame s s' -> optind s' = optind s + 1 -> optopt s' = 0 ->
     (forall tab en, map e_hdr tab = hs -> dispatch scan 63 s' tab en = run [EvErr ARG_ELONGOPT (Some a)] tab en)).
  { intros s' (F1 & _) Hi Ho tab en _. rewrite run_one. unfold dispatch. cbn [Z.eqb]. rewrite Ho.
    cbn [Z.eqb]. rewrite Hi, Eprev by auto. reflexivity. }
  destruct (long_lookup longonly exactly hs (name_part body)) as [i h| |] eqn:EF.
  - (* found *)
    destruct HL as (Ex & k & n & ->). rewrite Ex. clear Ex ES Hkn.
    cbn [lo_has_arg lo_flag lo_val mk_lopt].
    assert (Hocc : forall s' v x, nargv s' = nargv s -> optarg s' = v -> getoptval s' = Z.of_nat i ->
        (v = Some [] -> nargv_get s' (optind s' - 1) = Ok (Some x)) ->
        forall tab en, map e_hdr tab = hs -> dispatch scan 0 s' tab en = run (long_occurrence i h v x) tab en).
    { intros s' v x Hn Hv Hg Hx tab en Ht. unfold dispatch. cbn [Z.eqb]. rewrite Hg, Hv.
      pose proof (long_lookup_nth _ _ _ _ _ _ EF) as Hnth. rewrite <- Ht in Hnth.
      rewrite nth_error_map in Hnth. destruct (nth_error tab i) as [e|] eqn:Ee; [|discriminate].
      cbn in Hnth. injection Hnth as <-.
      assert (Eg : aget tab (Z.of_nat i) = Ok e).
      { unfold aget. destruct (Z.ltb_spec (Z.of_nat i) 0); [lia|]. rewrite Nat2Z.id, Ee. reflexivity. }
      rewrite Eg. cbn [bind].
      unfold long_occurrence. destruct v as [[|c v]|]; cbn [bind]; try (rewrite run_one; reflexivity).
      destruct (h_hasvalue (e_hdr e)); cbn [bind].
      - rewrite Hx by auto. cbn [bind]. change ([EvErr ARG_EMISSARG (Some x); EvScan i (Some [])]) with ([EvErr ARG_EMISSARG (Some x)] ++ [EvScan i (Some [])]).
        rewrite run_app, run_one. unfold apply_event.
        destruct (arg_register_error en PEnd ARG_EMISSARG (Some x)); cbn [bind]; auto. rewrite run_one. reflexivity.
      - rewrite run_one. reflexivity. }
    assert (Hocc_ne : forall v x, long_occurrence i h v x <> []).
    { intros v x. unfold long_occurrence. destruct v as [[|? ?]|]; try discriminate. destruct (h_hasvalue h); discriminate. }
    destruct s as [Oi Oo Or Oa Po Pl Ns Ne Px Gv Nv]; cbn in *.
    pose proof (m_ind _ _ _ _ _ M) as Mi. pose proof (m_arg _ _ _ _ _ M) as Ma. pose proof (m_argv _ _ _ _ _ M) as Mv.
    pose proof (m_argc _ _ _ _ _ M) as Mc. cbn in *. subst Oa.
    unfold long_takes, long_has_arg. destruct (h_hasoptvalue h) eqn:Ho; [|destruct (h_hasvalue h) eqn:Hv].
    + (* optional value *)
      cbn [Z.eqb Pos.eqb orb]. destruct (value_part body) as [v|] eqn:Ev; intros [= <- <-]; cbn.
      * eexists _, _; split; [reflexivity|]. split; [discriminate|]. split; [|fin].
        eapply Hocc; cbn; auto; intros; eapply Eprev; reflexivity.
      * eexists _, _; split; [reflexivity|]. split; [discriminate|]. split; [|fin].
        eapply Hocc; cbn; auto; intros; discriminate.
    + (* required value *)
      cbn [Z.eqb Pos.eqb orb]. destruct (value_part body) as [v|] eqn:Ev.
      * intros [= <- <-]; cbn.
        eexists _, _; split; [reflexivity|]. split; [discriminate|]. split; [|fin].
        eapply Hocc; cbn; auto; intros; eapply Eprev; reflexivity.
      * destruct rest as [|v rest]; cbn [hd_error]; intros [= <- <-]; cbn.
        -- replace (nargv_get _ (Oi + 1)) with (@Ok (option str) None); cycle 1.
           { symmetry. replace (Oi + 1) with (zlen Nv) by (rewrite Mv, Mi, zlen_app, zlen_cons, zlen_nil; lia).
             apply (nargv_get_end {| optind := Oi + 1; optopt := Oo; optreset := Or; optarg := None; place_off := Po; place := Pl; nonopt_start := Ns; nonopt_end := Ne; posixly := Px; getoptval := Gv; nargv := Nv |}). }
           cbn. eexists _, _; split; [reflexivity|]. split; [discriminate|].
           split; [|fin].
           intros tab en _. unfold dispatch. cbn [Z.eqb Pos.eqb]. cbn [optind set_optind set_optopt set_optarg].
           replace (Oi + 1 + 1 - 1 - 1) with (Oi + 1 - 1) by lia. rewrite Eprev by reflexivity. cbn [bind].
           rewrite run_one. reflexivity.
        -- assert (En : forall s', nargv s' = Nv -> nargv_get s' (Oi + 1) = Ok (Some v)).
           { intros s' H. replace (Oi + 1) with (zlen (pre ++ [a])) by (rewrite zlen_app, zlen_cons, zlen_nil; lia).
             eapply nargv_get_app. rewrite H, Mv, <- app_assoc. reflexivity. }
           rewrite En by reflexivity. cbn. eexists _, _; split; [reflexivity|]. split; [discriminate|].
           split; [|fin].
           eapply Hocc; cbn; auto. intros _. replace (Oi + 1 + 1 - 1) with (Oi + 1) by lia. apply En; reflexivity.
    + (* no value *)
      cbn [Z.eqb Pos.eqb orb]. destruct (value_part body) as [v|] eqn:Ev; intros [= <- <-]; cbn.
      * eexists _, _; split; [reflexivity|]. split; [discriminate|]. split; [|fin].
        apply Hbad; cbn; auto. repeat split; auto.
      * eexists _, _; split; [reflexivity|]. split; [discriminate|]. split; [|fin].
        eapply Hocc; cbn; auto; intros; discriminate.
  - (* ambiguous *)
    intros [= <- <-]. rewrite HL.
    eexists _, _; split; [reflexivity|]. split; [discriminate|]. split; [|fin].
    apply Hbad; cbn; auto. repeat split; auto.
  - (* not found *)
    intros [= <- <-]. destruct HL as [-> ->]. destruct exactly; [exfalso; exact (Hkn eq_refl eq_refl)|].
    eexists _, _; split; [reflexivity|]. split; [discriminate|]. split; [|fin].
    apply Hbad; cbn; auto. repeat split; auto.
Qed.

(** A name that is not found, when a short option may be meant. *)
Lemma step_unknown body s : place s = body -> long_lookup longonly true hs (name_part body) = Unknown ->
  parse_long_options opts lo true longonly s = Ok (-1, s).
Proof.
  intros Hp HU. unfold parse_long_options. rewrite Hp, split_eq_parts.
  pose proof (search_lookup (name_part body) true longonly hs) as HL. fold lo in HL. rewrite HU in HL.
  destruct (long_search (name_part body) true longonly lo 0 None false) as [[mtch exact] second].
  destruct HL as [-> ->]. destruct s; cbn in *. unfold set_optind; cbn. do 3 f_equal. lia.
Qed.

(** One getopt_long call in the middle of a cluster. Either the cluster goes on, or the argument is
    finished. *)
Definition goes_on (s s' : gst) (cs : str) : Prop :=
  frame s s' /\ optind s' = optind s /\ place s' = cs /\ 0 < place_off s'.
Definition finished (s s' : gst) (used : bool) : Prop :=
  frame s s' /\ optind s' = optind s + 1 + (if used then 1 else 0) /\ place s' = [].

Lemma plain_sc c : plain_short c -> sc c <> -1 /\ sc c <> 0 /\ sc c <> 63 /\ sc c <> 58.
Proof.
  intros (H1 & H2 & H3 & H4 & H5).
  repeat split; intros E.
  - apply H4. apply sc_inj. rewrite E. reflexivity.
  - apply H5. apply sc_inj. rewrite E. reflexivity.
  - apply H3. apply sc_inj. rewrite E. reflexivity.
  - apply H1. apply sc_inj. rewrite E. reflexivity.
Qed.

Lemma short_find_plain c i h : short_find hs 0 c = Some (i, h) -> plain_short c.
Proof.
  pose proof Hshort as HS. generalize 0%nat at 1. revert HS. clear Hgood.
  induction hs as [|h0 t IH]; intros HS k H; cbn [short_find] in H; [discriminate|].
  inversion HS as [|? ? Hh HS']; subst.
  unfold declares in H. destruct (h_shortopts h0) as [so|] eqn:E.
  - destruct (mem c so) eqn:Em.
    + apply mem_in in Em. unfold good_shortopts in Hh. rewrite E in Hh. auto.
    + eauto.
  - eauto.
Qed.

(** The dispatch of a recognised short option. *)
Lemma dispatch_short c i h s' : short_find hs 0 c = Some (i, h) ->
  forall tab en, map e_hdr tab = hs -> dispatch scan (sc c) s' tab en = run [EvScan i (optarg s')] tab en.
Proof.
  intros HF tab en Ht. destruct (plain_sc c (short_find_plain _ _ _ HF)) as (N1 & N2 & N3 & N4).
  unfold dispatch. rewrite run_one. cbn [apply_event].
  destruct (Z.eqb_spec (sc c) 0); [congruence|]. destruct (Z.eqb_spec (sc c) 63); [congruence|].
  destruct (Z.eqb_spec (sc c) 58); [congruence|].
  rewrite chr_sc. rewrite Ht. change 0 with (Z.of_nat 0). rewrite find_shortoption_spec, HF.
  destruct (Z.eqb_spec (Z.of_nat i) (-1)); [lia|]. reflexivity.
Qed.

(** A short option. *)
Lemma step_short pre a rest c cs s :
  mid pre a rest (c :: cs) s -> c <> NUL -> c <> "-"%char ->
  forall ev r,
  match short_find hs 0 c with
  | None => let '(ev, r) := read_cluster_in longonly hs a cs (hd_error rest) in (EvErr (sc c) None :: ev, r)
  | Some (i, h) =>
      match short_takes h with
      | TNo => let '(ev, r) := read_cluster_in longonly hs a cs (hd_error rest) in (EvScan i None :: ev, r)
      | TOpt => ([EvScan i (match cs with [] => None | _ => Some cs end)], Some false)
      | TReq =>
          match cs with
          | [] => match hd_error rest with
                  | Some v => ([EvScan i (Some v)], Some true)
                  | None => ([EvErr ARG_EMISSARG (Some a)], Some false)
                  end
          | _ => ([EvScan i (Some cs)], Some false)
          end
      end
  end = (ev, r) ->
  exists copt s' ev1 ev2, gi_short nargc (Some lo) longonly opts s = Ok (copt, s') /\ copt <> -1 /\
    (forall tab en, map e_hdr tab = hs -> dispatch scan copt s' tab en = run ev1 tab en) /\
    ev = ev1 ++ ev2 /\ ev1 <> [] /\
    ((cs <> [] /\ goes_on s s' cs /\ read_cluster_in longonly hs a cs (hd_error rest) = (ev2, r)) \/
     (exists used, r = Some used /\ finished s s' used /\ ev2 = [] /\ (used = true -> rest <> []))).
Proof.
  intros M Hnul Hnd ev r. pose proof (m_off _ _ _ _ _ M) as Hoff.
  unfold gi_short. rewrite (m_place _ _ _ _ _ M).
  destruct (ceqb_spec c "-"); [congruence|]. cbn [andb].
  set (s1 := set_place (place_off s + 1) cs s).
  set (atend := match cs with [] => true | _ => false end).
  pose proof (m_argc _ _ _ _ _ M) as Hargc. pose proof (m_argv _ _ _ _ _ M) as Hargv. pose proof (m_ind _ _ _ _ _ M) as Hind.
  assert (Hoptarg : optarg s1 = None) by (apply (m_arg _ _ _ _ _ M)).
  assert (Hadv : forall s', frame s s' -> optind s' = (if atend then optind s + 1 else optind s) -> place s' = cs ->
            0 < place_off s' -> forall ev r,
            (let '(ev, r) := read_cluster_in longonly hs a cs (hd_error rest) in (ev, r)) = (ev, r) ->
            (cs <> [] /\ goes_on s s' cs /\ read_cluster_in longonly hs a cs (hd_error rest) = (ev, r)) \/
            (exists used, r = Some used /\ finished s s' used /\ ev = [] /\ (used = true -> rest <> []))).
  { intros s' Hf Hi Hp Ho ev0 r0 HR. destruct cs as [|c' cs'].
    - right. cbn in HR. injection HR as <- <-. exists false. unfold finished. cbn in Hi. repeat split; auto; try apply Hf; try lia; try discriminate.
    - left. split; [discriminate|]. split; [unfold goes_on; auto|].
      destruct (read_cluster_in longonly hs a (c' :: cs') (hd_error rest)). auto. }
  assert (Hbad : forall ev r, (let '(ev, r) := read_cluster_in longonly hs a cs (hd_error rest) in (EvErr (sc c) None :: ev, r)) = (ev, r) ->
    exists copt s' ev1 ev2,
      Ok (BADCH, set_optopt (sc c) (if atend then set_optind (optind s1 + 1) s1 else s1)) = Ok (copt, s') /\ copt <> -1 /\
      (forall tab en, map e_hdr tab = hs -> dispatch scan copt s' tab en = run ev1 tab en) /\
      ev = ev1 ++ ev2 /\ ev1 <> [] /\
      ((cs <> [] /\ goes_on s s' cs /\ read_cluster_in longonly hs a cs (hd_error rest) = (ev2, r)) \/
       (exists used, r = Some used /\ finished s s' used /\ ev2 = [] /\ (used = true -> rest <> [])))).
  { intros ev0 r0. destruct (read_cluster_in longonly hs a cs (hd_error rest)) as [ev2 r2] eqn:ER. intros [= <- <-].
    eexists _, _, [EvErr (sc c) None], ev2. split; [reflexivity|]. split; [discriminate|]. split; [|split; [reflexivity|split; [discriminate|]]].
    - intros tab en _. unfold dispatch, BADCH. cbn [Z.eqb Pos.eqb]. cbn [optopt set_optopt].
      destruct (Z.eqb_spec (sc c) 0) as [E0|]; [exfalso; apply Hnul; apply sc_zero; auto|].
      rewrite run_one. reflexivity.
    - apply Hadv; destruct atend; cbn; auto; try lia; try (unfold frame; cbn; repeat split; auto; fail). }
  destruct (short_find hs 0 c) as [[i h]|] eqn:EF.
  + pose proof (short_find_plain _ _ _ EF) as HP. destruct (plain_sc c HP) as (N1 & _).
    destruct (ceqb_spec c ":") as [->|Hcolon]; [destruct HP; congruence|]. cbn [orb].
    pose proof (short_lookup hs c Hshort Hcolon 0) as HL. rewrite EF in HL. destruct HL as (tl_ & EL & HT).
    assert (EO : strchr opts c = Some (c :: tl_)).
    { unfold opts. cbn [strchr]. destruct (ceqb_spec ":" c); [congruence|]. auto. }
    rewrite EO. cbn [tl].
    assert (EW : (ceqb c "W" && ceqb (hd0 tl_) ";") = false).
    { apply andb_false_iff. right. apply ceqb_neq. destruct (short_takes h); simpl in HT; destruct HT as [HT1 HT2]; try rewrite HT1; auto; discriminate. }
    rewrite EW.
    destruct (short_takes h); simpl in HT.
    * (* no value *)
      destruct HT as [HT1 HT2]. destruct (ceqb_spec (hd0 tl_) ":"); [congruence|]. cbn [negb].
      destruct (read_cluster_in longonly hs a cs (hd_error rest)) as [ev2 r2] eqn:ER. intros [= <- <-].
      eexists _, _, [EvScan i None], ev2. split; [reflexivity|]. split; [exact N1|]. split; [|split; [reflexivity|split; [discriminate|]]].
      -- intros tab en Ht. rewrite (dispatch_short c i h) by auto. destruct atend; cbn [optarg set_optind]; rewrite Hoptarg; reflexivity.
      -- apply Hadv; destruct atend; cbn; auto; try lia; try (unfold frame; cbn; repeat split; auto; fail).
    * (* required value *)
      destruct HT as [HT1 HT2]. rewrite HT1. change (ceqb ":" ":") with true. cbn [negb].
      destruct cs as [|c' cs'].
      -- cbn [atend negb]. destruct (ceqb_spec (hd0 (tl tl_)) ":"); [congruence|]. cbn [negb].
         cbn [optind set_optind set_optarg]. change (optind s1) with (optind s).
         destruct rest as [|v rest]; cbn [hd_error]; intros [= <- <-].
         ++ destruct (Z.leb_spec nargc (optind s + 1)) as [_|Hlt].
            2:{ rewrite Hargc, Hargv, Hind, zlen_app, zlen_cons, zlen_nil in Hlt. lia. }
            eexists _, _, [EvErr ARG_EMISSARG (Some a)], []. split; [reflexivity|]. split; [discriminate|]. split; [|split; [reflexivity|split; [discriminate|]]].
            ** intros tab en _. unfold dispatch, BADARG, opts. change (ceqb ":" ":") with true. cbn [Z.eqb Pos.eqb].
               cbn [optind set_optind set_optopt set_optarg EMSG set_place]. rewrite Hind.
               replace (zlen pre + 1 - 1) with (zlen pre) by lia.
               erewrite nargv_get_app by (cbn; exact Hargv). cbn [bind]. rewrite run_one. reflexivity.
            ** right. exists false. split; auto. split; [|split; [auto|discriminate]].
               unfold finished, frame; cbn. repeat split; auto; lia.
         ++ destruct (Z.leb_spec nargc (optind s + 1)) as [Hle|_].
            { rewrite Hargc, Hargv, Hind, zlen_app, !zlen_cons in Hle. pose proof (zlen_nonneg rest). lia. }
            replace (optind s + 1) with (zlen (pre ++ [a])) by (rewrite zlen_app, zlen_cons, zlen_nil; lia).
            erewrite nargv_get_app by (cbn; rewrite Hargv, (app_assoc pre [a] (v :: rest)) || (rewrite Hargv; change (a :: v :: rest) with ([a] ++ v :: rest); rewrite app_assoc; reflexivity)).
            cbn [bind].
            eexists _, _, [EvScan i (Some v)], []. split; [reflexivity|]. split; [exact N1|]. split; [|split; [reflexivity|split; [discriminate|]]].
            ** intros tab en Ht. rewrite (dispatch_short c i h) by auto. reflexivity.
            ** right. exists true. split; auto. split; [|split; [auto|discriminate]].
               unfold finished, frame; cbn. rewrite zlen_app, zlen_cons, zlen_nil. repeat split; auto; lia.
      -- intros [= <- <-]. cbn [atend negb].
         eexists _, _, [EvScan i (Some (c' :: cs'))], []. split; [reflexivity|]. split; [exact N1|]. split; [|split; [reflexivity|split; [discriminate|]]].
         ++ intros tab en Ht. rewrite (dispatch_short c i h) by auto. reflexivity.
         ++ right. exists false. split; auto. split; [|split; [auto|discriminate]].
            unfold finished, frame; cbn. repeat split; auto; lia.
    * (* optional value *)
      destruct HT as [HT1 HT2]. rewrite HT1. change (ceqb ":" ":") with true. cbn [negb].
      destruct cs as [|c' cs']; intros [= <- <-]; cbn [atend negb].
      -- rewrite HT2. change (ceqb ":" ":") with true. cbn [negb].
         eexists _, _, [EvScan i None], []. split; [reflexivity|]. split; [exact N1|]. split; [|split; [reflexivity|split; [discriminate|]]].
         ++ intros tab en Ht. rewrite (dispatch_short c i h) by auto. reflexivity.
         ++ right. exists false. split; auto. split; [|split; [auto|discriminate]].
            unfold finished, frame; cbn. repeat split; auto; lia.
      -- eexists _, _, [EvScan i (Some (c' :: cs'))], []. split; [reflexivity|]. split; [exact N1|]. split; [|split; [reflexivity|split; [discriminate|]]].
         ++ intros tab en Ht. rewrite (dispatch_short c i h) by auto. reflexivity.
         ++ right. exists false. split; auto. split; [|split; [auto|discriminate]].
            unfold finished, frame; cbn. repeat split; auto; lia.
  + (* unknown *)
    intros HR. destruct (ceqb_spec c ":") as [->|Hcolon]; cbn [orb].
    * apply Hbad; auto.
    * pose proof (short_lookup hs c Hshort Hcolon 0) as HL. rewrite EF in HL.
      assert (EO : strchr opts c = None).
      { unfold opts. cbn [strchr]. destruct (ceqb_spec ":" c); [congruence|]. auto. }
      rewrite EO. apply Hbad; auto.
Qed.

Lemma step_cluster pre a rest c cs s :
  mid pre a rest (c :: cs) s -> c <> NUL -> ~ (c = "-"%char /\ cs = []) ->
  forall ev r, read_cluster_in longonly hs a (c :: cs) (hd_error rest) = (ev, r) ->
  exists copt s' ev1 ev2, gscan s = Ok (copt, s') /\ copt <> -1 /\
    (forall tab en, map e_hdr tab = hs -> dispatch scan copt s' tab en = run ev1 tab en) /\
    ev = ev1 ++ ev2 /\ ev1 <> [] /\
    ((cs <> [] /\ goes_on s s' cs /\ read_cluster_in longonly hs a cs (hd_error rest) = (ev2, r)) \/
     (exists used, r = Some used /\ finished s s' used /\ ev2 = [] /\ (used = true -> rest <> []))).
Proof.
  intros M Hnul Hnd ev r. cbn [read_cluster_in].
  unfold gi_scan. rewrite (m_ind _ _ _ _ _ M).
  rewrite (nargv_get_app s pre a rest (m_argv _ _ _ _ _ M)). cbn [bind].
  pose proof (m_off _ _ _ _ _ M) as Hoff. destruct (Z.eqb_spec (place_off s) 0); [lia|]. cbn [negb andb].
  rewrite (m_place _ _ _ _ _ M). cbn [hd0 tl].
  destruct (ceqb_spec c "-") as [->|Hc]; cbn [orb].
  - (* a long option *)
    destruct cs as [|c' cs']; [exfalso; auto|]. set (cs := c' :: cs') in *.
    destruct (read_found (long_lookup longonly false hs (name_part cs)) a cs (hd_error rest)) as [ev0 used] eqn:EL. intros [= <- <-].
    assert (M' : mid pre a rest cs (set_place (place_off s + 1) cs s)).
    { destruct M as [(C1 & C2 & C3) ? ? ? ? ? ?]. constructor; cbn; auto; try lia. repeat split; auto. }
    destruct (step_long false pre a rest cs _ M' ltac:(discriminate) ev0 used EL) as (copt & s' & E & Hm1 & Hd & Hf & Hi & Hne & Hu).
    change (match place (set_place (place_off s + 1) cs s) with [] => Ok (BADARG opts, set_place (place_off s + 1) cs s) | _ :: _ => _ end)
      with ('(r, s) <- parse_long_options opts lo false longonly (set_place (place_off s + 1) cs s);;
            (if negb (r =? -1) then Ok (r, EMSG s) else gi_short nargc (Some lo) longonly opts s)).
    rewrite E. cbn [bind]. destruct (Z.eqb_spec copt (-1)); [congruence|]. cbn [negb].
    exists copt, (EMSG s'), ev0, []. split; [reflexivity|]. split; auto. split; [|split; [rewrite app_nil_r; auto|split; auto]].
    + intros tab en Ht. rewrite <- (Hd tab en Ht). reflexivity.
    + right. exists used. split; auto. split; [|auto].
      destruct Hf as (F1 & F2 & F3 & F4 & F5). unfold finished, frame. cbn in *. repeat split; auto.
  - (* not a dash *)
    assert (Hs : longonly = false \/ (longonly = true /\ as_long hs a (c :: cs) (hd_error rest) = None) \/
      (longonly = true /\ exists f, as_long hs a (c :: cs) (hd_error rest) = Some (read_found f a (c :: cs) (hd_error rest)) /\
        f = long_lookup longonly (declared hs c) hs (name_part (c :: cs)) /\ (declared hs c = true -> f <> Unknown))).
    { assert (Hlo : longonly = true \/ longonly = false) by (destruct longonly; auto). destruct Hlo as [Elo|]; [right|auto].
      unfold as_long. cbn [hd0]. rewrite Elo.
      destruct (long_lookup true (declared hs c) hs (name_part (c :: cs))) as [i h| |] eqn:EL.
      - right. split; auto. eexists. split; [reflexivity|]. split; auto. discriminate.
      - right. split; auto. eexists. split; [reflexivity|]. split; auto. discriminate.
      - destruct (declared hs c); [left; auto|right]. split; auto. eexists. split; [reflexivity|]. split; auto. discriminate. }
    assert (Hdecl : negb (ceqb c ":") && match strchr opts c with Some _ => true | None => false end = declared hs c).
    { unfold declared. destruct (ceqb_spec c ":") as [->|Hcolon]; cbn [negb andb].
      - destruct (short_find hs 0 ":") as [[i h]|] eqn:EF; [|reflexivity].
        pose proof (short_find_plain _ _ _ EF) as (HP & _). congruence.
      - pose proof (short_lookup hs c Hshort Hcolon 0) as HL. unfold opts. cbn [strchr].
        destruct (ceqb_spec ":" c); [congruence|]. destruct (short_find hs 0 c) as [[i h]|].
        + destruct HL as (tl_ & -> & _). reflexivity.
        + rewrite HL. reflexivity. }
    destruct Hs as [Elo|[[Elo EA]|(Elo & f & EA & Ef & Hkn)]].
    + replace (if longonly then as_long hs a (c :: cs) (hd_error rest) else None) with (@None (list event * bool)) by (rewrite Elo; reflexivity).
      match goal with |- context [if false || longonly then ?x else ?y] => replace (if false || longonly then x else y) with y by (rewrite Elo; reflexivity) end.
      apply (step_short pre); auto.
    + replace (if longonly then as_long hs a (c :: cs) (hd_error rest) else None) with (as_long hs a (c :: cs) (hd_error rest)) by (rewrite Elo; reflexivity).
      match goal with |- context [if false || longonly then ?x else ?y] => replace (if false || longonly then x else y) with x by (rewrite Elo; reflexivity) end.
      rewrite EA, Hdecl.
      unfold as_long in EA. cbn [hd0] in EA.
      destruct (long_lookup true (declared hs c) hs (name_part (c :: cs))) eqn:EL; try discriminate.
      destruct (declared hs c) eqn:ED; [|discriminate].
      rewrite (step_unknown (c :: cs) s) by (rewrite ?Elo; auto; apply M). cbn [bind]. change (-1 =? -1) with true. cbn [negb].
      apply (step_short pre); auto.
    + replace (if longonly then as_long hs a (c :: cs) (hd_error rest) else None) with (as_long hs a (c :: cs) (hd_error rest)) by (rewrite Elo; reflexivity).
      match goal with |- context [if false || longonly then ?x else ?y] => replace (if false || longonly then x else y) with x by (rewrite Elo; reflexivity) end.
      rewrite EA, Hdecl.
      destruct (read_found f a (c :: cs) (hd_error rest)) as [ev0 used] eqn:ER. intros [= <- <-].
      subst f. destruct (step_long (declared hs c) pre a rest (c :: cs) s M Hkn ev0 used ER) as (copt & s' & E & Hm1 & Hd & Hf & Hi & Hne & Hu).
      rewrite E. cbn [bind]. destruct (Z.eqb_spec copt (-1)); [congruence|]. cbn [negb].
      exists copt, (EMSG s'), ev0, []. split; [reflexivity|]. split; auto. split; [|split; [rewrite app_nil_r; auto|split; auto]].
      * intros tab en Ht. rewrite <- (Hd tab en Ht). reflexivity.
      * right. exists used. split; auto. split; [|auto].
        destruct Hf as (F1 & F2 & F3 & F4 & F5). unfold finished, frame. cbn in *. repeat split; auto.
Qed.

(** The state when scanning is over: the operands are the arguments from optind on. *)
Definition final (sf : gst) (pos : list str) : Prop :=
  zlen (nargv sf) = nargc /\ exists dnf, dnf <> [] /\ nargv sf = dnf ++ pos /\ optind sf = zlen dnf.

(** Events name entries of the table. *)
Definition ok_event (ev : event) : Prop :=
  match ev with EvScan i _ => (i < List.length hs)%nat | EvErr _ _ => True end.

Lemma long_occurrence_ok i h v a : (i < List.length hs)%nat -> Forall ok_event (long_occurrence i h v a).
Proof.
  intros H. unfold long_occurrence. destruct v as [[|]|]; repeat constructor; auto.
  destruct (h_hasvalue h); repeat constructor; auto.
Qed.
Lemma read_found_ok lo' ex nm a body next : Forall ok_event (fst (read_found (long_lookup lo' ex hs nm) a body next)).
Proof.
  unfold read_found. destruct (long_lookup lo' ex hs nm) as [i h| |] eqn:E; [|repeat constructor|repeat constructor].
  assert (Hi : (i < List.length hs)%nat) by (apply nth_error_Some; rewrite (long_lookup_nth _ _ _ _ _ _ E); discriminate).
  destruct (long_takes h), (value_part body); cbn; try apply long_occurrence_ok; auto; try (repeat constructor; fail).
  destruct next; cbn; [apply long_occurrence_ok; auto|repeat constructor].
Qed.
Lemma as_long_found a c cs next ev used : as_long hs a (c :: cs) next = Some (ev, used) ->
  read_found (long_lookup true (declared hs c) hs (name_part (c :: cs))) a (c :: cs) next = (ev, used).
Proof.
  unfold as_long. cbn [hd0]. destruct (long_lookup true (declared hs c) hs (name_part (c :: cs))); try congruence.
  destruct (declared hs c); congruence.
Qed.
Lemma read_cluster_events_ok a cs next : Forall ok_event (fst (read_cluster_in longonly hs a cs next)).
Proof.
  induction cs as [|c cs IH]; cbn [read_cluster_in]; [constructor|].
  destruct (ceqb c "-").
  - destruct cs as [|c' cs']; [constructor|]. pose proof (read_found_ok longonly false (name_part (c' :: cs')) a (c' :: cs') next) as H.
    destruct (read_found _ a (c' :: cs') next). exact H.
  - destruct (if longonly then as_long hs a (c :: cs) next else None) as [[ev used]|] eqn:EA.
    { destruct longonly; [|discriminate]. apply as_long_found in EA. cbn [fst].
      pose proof (read_found_ok true (declared hs c) (name_part (c :: cs)) a (c :: cs) next) as H. rewrite EA in H. exact H. }
    destruct (short_find hs 0 c) as [[i h]|] eqn:E.
    + assert (Hi : (i < List.length hs)%nat).
      { apply short_find_nth in E as [_ E]. rewrite Nat.sub_0_r in E. apply nth_error_Some. rewrite E. discriminate. }
      destruct (short_takes h).
      * destruct (read_cluster_in longonly hs a cs next). constructor; auto.
      * destruct cs; [|repeat constructor; auto]. destruct next; repeat constructor; auto.
      * repeat constructor; auto.
    + destruct (read_cluster_in longonly hs a cs next). constructor; auto. exact I.
Qed.
Lemma read_args_in_events_ok px args : Forall ok_event (fst (read_args_in longonly px hs args)).
Proof.
  remember (List.length args) as n eqn:En. revert args En. induction n as [n IHn] using lt_wf_ind.
  intros [|a rest] ->; cbn [read_args_in]; [constructor|].
  assert (IH : forall r, (List.length r <= List.length rest)%nat -> Forall ok_event (fst (read_args_in longonly px hs r))).
  { intros r Hr. eapply IHn; [|reflexivity]. cbn. lia. }
  destruct (is_positional a).
  - destruct px; [constructor|]. cbn. apply IH. lia.
  - destruct (str_eqb a (lit "--")); [constructor|].
    pose proof (read_cluster_events_ok a (tl a) (hd_error rest)) as HC.
    destruct (read_cluster_in longonly hs a (tl a) (hd_error rest)) as [ev [[]|]]; cbn in HC |- *; auto.
    + destruct rest as [|v rest]; auto. cbn. apply Forall_app. split; auto. apply IH. cbn. lia.
    + apply Forall_app. split; auto.
Qed.

(** Events of a cluster with a dash at its end: no values. *)
Definition quiet (ev : event) : Prop :=
  match ev with EvScan i v => (i < List.length hs)%nat /\ v = None | EvErr _ _ => True end.
Lemma read_cluster_quiet a next : forall cs ev, read_cluster_in longonly hs a cs next = (ev, None) -> Forall quiet ev.
Proof.
  induction cs as [|c cs IH]; cbn [read_cluster_in]; intros ev H; [discriminate|].
  destruct (ceqb c "-").
  - destruct cs; [injection H as <-; constructor|]. destruct (read_found _ a _ next). discriminate.
  - destruct (if longonly then as_long hs a (c :: cs) next else None) as [[? ?]|]; [discriminate|].
    destruct (short_find hs 0 c) as [[i h]|] eqn:E.
    + destruct (short_takes h).
      * destruct (read_cluster_in longonly hs a cs next) as [ev' r] eqn:Er. injection H as <- ->. constructor; [|apply IH; auto].
        apply short_find_nth in E as [_ E]. rewrite Nat.sub_0_r in E. cbn. split; auto. apply nth_error_Some. rewrite E. discriminate.
      * destruct cs; [destruct next|]; discriminate.
      * discriminate.
    + destruct (read_cluster_in longonly hs a cs next) as [ev' r] eqn:Er. injection H as <- ->. constructor; [exact I|apply IH; auto].
Qed.
Definition from (evs : list event) (ev : event) : Prop := In ev evs \/ quiet ev.

(** From state [s], the loop has the effect of the events [evs] and then ends as told. *)
Definition Kreads (m : res (Z * gst)) (evs : list event) (out : outcome) : Prop :=
  match out with
  | Finished pos => exists sf, final sf pos /\ forall F tab en, map e_hdr tab = hs -> (List.length evs <= F)%nat ->
      K F m tab en = ('(tab, en) <- run evs tab en ;; Ok (sf, tab, en))
  | Hangs => forall F, exists l, Forall (from evs) l /\ forall tab en, map e_hdr tab = hs ->
      K F m tab en = ('(tab, en) <- run l tab en ;; OutOfFuel)
  end.
Definition reads (s : gst) (evs : list event) (out : outcome) : Prop :=
  Kreads (getopt_in longonly posix (S (List.length (nargv s))) nargc opts lo s) evs out.

Lemma kstep copt s' ev1 evs out : copt <> -1 -> ev1 <> [] ->
  (forall tab en, map e_hdr tab = hs -> dispatch scan copt s' tab en = run ev1 tab en) ->
  reads s' evs out -> Kreads (Ok (copt, s')) (ev1 ++ evs) out.
Proof.
  intros Hc Hne Hd HR. unfold reads in HR. destruct out as [pos|]; cbn [Kreads] in *.
  - destruct HR as (sf & Hf & HR). exists sf. split; auto. intros F tab en Ht HF.
    unfold K. cbn [bind]. destruct (Z.eqb_spec copt (-1)); [congruence|].
    rewrite Hd by auto. rewrite run_app.
    destruct (run ev1 tab en) as [[tab' en']| |] eqn:ER; cbn [bind]; auto.
    rewrite app_length in HF. destruct ev1 as [|e ev1]; [congruence|]. cbn [List.length] in HF.
    destruct F as [|F]; [lia|]. rewrite loop_S. apply HR; [|lia].
    rewrite (run_hdr _ _ _ _ _ ER). auto.
  - intros [|F].
    + exists ev1. split; [apply Forall_forall; intros x Hx; left; apply in_or_app; auto|]. intros tab en Ht. unfold K. cbn [bind]. destruct (Z.eqb_spec copt (-1)); [congruence|].
      rewrite Hd by auto. destruct (run ev1 tab en) as [[? ?]| |]; reflexivity.
    + destruct (HR F) as (l & Hl & HF). exists (ev1 ++ l). split.
      { apply Forall_app. split; [apply Forall_forall; intros x Hx; left; apply in_or_app; auto|].
        eapply Forall_impl; [|exact Hl]. intros x [Hx|Hx]; [left; apply in_or_app; auto|right; auto]. }
      intros tab en Ht. unfold K. cbn [bind]. destruct (Z.eqb_spec copt (-1)); [congruence|].
      rewrite Hd by auto. rewrite run_app. destruct (run ev1 tab en) as [[tab' en']| |] eqn:ER; cbn [bind]; auto.
      rewrite loop_S. apply HF. rewrite (run_hdr _ _ _ _ _ ER). auto.
Qed.

Lemma start_mid gf s c cs : optreset s = false -> place s = c :: cs -> start (S gf) s = gscan s.
Proof. intros H1 H2. cbn [gi_start]. rewrite H1, H2. reflexivity. Qed.

Lemma mid_next pre a rest cs c s s' :
  mid pre a rest (c :: cs) s -> goes_on s s' cs -> mid pre a rest cs (set_optarg None s').
Proof.
  intros [(C1 & C2 & C3) M2 M3 M4 M5 M6 M7] ((F1 & F2 & F3 & F4 & F5) & G2 & G3 & G4).
  constructor; cbn; auto; try congruence.
  - unfold calm. cbn. rewrite F4, F5, G2. auto.
Qed.

(** Reading the rest of one argument. *)
Lemma read_cluster_ok cs : forall pre a rest s ev used evs out,
  mid pre a rest cs s -> cs <> [] -> cstr cs ->
  read_cluster_in longonly hs a cs (hd_error rest) = (ev, Some used) ->
  (used = true -> rest <> [] ) ->
  (forall s', frame s s' -> optind s' = optind s + 1 + (if used then 1 else 0) -> place s' = [] -> reads s' evs out) ->
  Kreads (gscan s) (ev ++ evs) out.
Proof.
  induction cs as [|c cs IH]; intros pre a rest s ev used evs out M Hne Hcs HR Hu HN; [congruence|].
  assert (Hnul : c <> NUL) by (intros ->; apply Hcs; left; reflexivity).
  assert (Hcs' : cstr cs) by (intros H; apply Hcs; right; exact H).
  destruct (step_cluster pre a rest c cs s M Hnul) with (ev := ev) (r := Some used)
    as (copt & s' & ev1 & ev2 & E & Hc & Hd & -> & Hne1 & HC); auto.
  { intros [-> ->]. cbn in HR. discriminate. }
  rewrite E, <- app_assoc. apply kstep; auto.
  destruct HC as [(Hne2 & HG & HR2)|(used' & [= <-] & (HF & HI & HP) & -> & _)].
  - unfold reads.
    assert (Hcalm : calm s').
    { destruct M as [(C1 & C2 & C3) M2 M3 M4 M5 M6 M7]. destruct HG as ((F1 & F2 & F3 & F4 & F5) & G2 & G3 & G4).
      unfold calm. rewrite F4, F5, G2. auto. }
    rewrite getopt_calm by auto. destruct cs as [|c' cs']; [congruence|].
    rewrite start_mid with (c := c') (cs := cs'); [|apply Hcalm|apply HG].
    apply IH with (pre := pre) (a := a) (rest := rest) (used := used); auto.
    + eapply mid_next; eauto.
    + intros s2 (F1 & F2 & F3 & F4 & F5) HI HP. destruct HG as ((G1 & G2 & G3 & G4 & G5) & G6 & G7 & G8).
      cbn in *. apply HN; auto.
      * unfold frame. repeat split; congruence.
      * lia.
  - apply HN; auto.
Qed.

(** Between arguments: [dn] processed, [non] operands skipped, [op] options read after them. *)
Record inv (dn non op rest : list str) (s : gst) : Prop := {
  i_calm : calm s;
  i_argv : nargv s = dn ++ non ++ op ++ rest;
  i_dn : dn <> [];
  i_ind : optind s = zlen dn + zlen non + zlen op;
  i_argc : nargc = zlen (nargv s);
  i_place : place s = [];
  i_posix : posix = true -> non = [];
  i_non : (non = [] /\ op = [] /\ nonopt_start s = -1 /\ nonopt_end s = -1) \/
          (non <> [] /\ op = [] /\ nonopt_start s = zlen dn /\ nonopt_end s = -1) \/
          (non <> [] /\ op <> [] /\ nonopt_start s = zlen dn /\ nonopt_end s = zlen dn + zlen non)
}.

Lemma zlen_nil' {A} : zlen (@nil A) = 0. Proof. reflexivity. Qed.

(** Entering an argument that is an option. *)
Lemma start_option gf s a : optreset s = false -> place s = [] -> nargv_get s (optind s) = Ok (Some a) ->
  optind s < nargc -> is_positional a = false -> str_eqb a (lit "--") = false ->
  start (S gf) s =
  gscan (set_place 1 (tl a) (if negb (nonopt_start s =? -1) && (nonopt_end s =? -1)
                             then set_nonopt (nonopt_start s) (optind s) (set_optreset false s) else set_optreset false s)).
Proof.
  intros H1 H2 H3 H4 Hp Hd. cbn [gi_start]. rewrite H2, orb_true_r.
  cbn [optind set_optreset]. destruct (Z.leb_spec nargc (optind s)); [lia|].
  change (nargv_get (set_optreset false s) (optind s)) with (nargv_get s (optind s)). rewrite H3. cbn [bind].
  unfold is_positional in Hp. destruct a as [|c [|c' a]]; try discriminate.
  cbn [hd0 tl]. destruct (ceqb_spec c "-") as [->|]; [|discriminate]. cbn [negb orb].
  destruct (ceqb_spec c' "-") as [->|]; cbn [andb]; auto.
  destruct a; cbn [tl]; auto. cbn in Hd. discriminate.
Qed.

Lemma read_found_nonext f a body ev : read_found f a body None = (ev, true) -> False.
Proof. unfold read_found. destruct f as [i h| |]; try congruence. destruct (long_takes h), (value_part body); congruence. Qed.
Lemma read_cluster_nonext a cs : forall ev, read_cluster_in longonly hs a cs None = (ev, Some true) -> False.
Proof.
  induction cs as [|c cs IH]; cbn [read_cluster_in]; intros ev H; [congruence|].
  destruct (ceqb c "-").
  - destruct cs as [|c' cs]; [congruence|].
    destruct (read_found _ a (c' :: cs) None) as [? u] eqn:ER. injection H as _ ->. eapply read_found_nonext; eauto.
  - destruct (if longonly then as_long hs a (c :: cs) None else None) as [[? u]|] eqn:EA.
    { destruct longonly; [|discriminate]. injection H as _ ->. apply as_long_found in EA. eapply read_found_nonext; eauto. }
    destruct (short_find hs 0 c) as [[? h]|].
    + destruct (short_takes h).
      * destruct (read_cluster_in longonly hs a cs None) as [ev' r'] eqn:E. injection H as _ ->. eapply IH; reflexivity.
      * destruct cs; congruence.
      * congruence.
    + destruct (read_cluster_in longonly hs a cs None) as [ev' r'] eqn:E. injection H as _ ->. eapply IH; reflexivity.
Qed.

Local Arguments zlen : simpl never.
Ltac zl := rewrite ?zlen_app, ?zlen_cons; change (zlen (@nil str)) with 0 in *; lia.

Local Ltac lent := match goal with I : inv _ _ _ _ _ |- _ => cbn; rewrite (i_argc _ _ _ _ _ I), (i_argv _ _ _ _ _ I); unfold zlen; rewrite ?app_length; cbn [List.length app]; rewrite ?app_length; cbn [List.length]; unfold str; lia end.

Lemma main n : forall dn non op rest s gf evs out,
  (List.length rest <= n)%nat ->
  inv dn non op rest s -> optarg s = None -> Forall cstr rest -> (List.length rest < gf)%nat ->
  read_args_in longonly posix hs rest = (evs, out) ->
  Kreads (start gf s) evs (match out with Finished pos => Finished (non ++ pos) | Hangs => Hangs end).
Proof.
  induction n as [|n IHn]; intros dn non op rest s gf evs out Hn I Ha Hcs Hgf HR.
  all: destruct gf as [|gf]; [lia|].
  all: assert (Hend : rest = [] -> Kreads (start (S gf) s) evs (match out with Finished pos => Finished (non ++ pos) | Hangs => Hangs end));
    [ intros ->; cbn in HR; injection HR as <- <-; cbn [gi_start]; rewrite (i_place _ _ _ _ _ I), orb_true_r;
      cbn [optind set_optreset nonopt_end nonopt_start EMSG set_place nargv];
      destruct (Z.leb_spec nargc (optind s)) as [_|Hlt];
      [|exfalso; rewrite (i_argc _ _ _ _ _ I), (i_argv _ _ _ _ _ I), (i_ind _ _ _ _ _ I), !zlen_app, zlen_nil' in Hlt; lia];
      destruct (i_non _ _ _ _ _ I) as [(-> & -> & -> & ->)|[(Hno & -> & -> & ->)|(Hno & Hop & -> & ->)]]
    | ].
  1,5: cbn; eexists; split; [|intros; cbn; reflexivity]; split; [lent|]; exists dn; cbn; split; [apply I|]; split;
     [rewrite (i_argv _ _ _ _ _ I); rewrite ?app_nil_r; reflexivity|rewrite (i_ind _ _ _ _ _ I), !zlen_nil'; lia].
  1,4: change (negb (-1 =? -1)) with false; cbn iota;
     destruct (Z.eqb_spec (zlen dn) (-1)); [pose proof (zlen_nonneg dn); lia|]; cbn [negb bind];
     cbn [Kreads]; eexists; split; [|intros; cbn; reflexivity]; split; [lent|]; exists dn; cbn; split; [apply I|]; split;
     [rewrite (i_argv _ _ _ _ _ I); rewrite ?app_nil_r; reflexivity|reflexivity].
  1,3: destruct (Z.eqb_spec (zlen dn + zlen non) (-1)); [pose proof (zlen_nonneg dn); pose proof (zlen_nonneg non); lia|]; cbn [negb bind];
     rewrite (i_argv _ _ _ _ _ I), (i_ind _ _ _ _ _ I), permute_args_exchange by auto; cbn [bind Kreads];
     eexists; split; [|intros; cbn; reflexivity]; split; [lent|]; exists (dn ++ op); cbn; split;
     [destruct dn; [exfalso; apply (i_dn _ _ _ _ _ I); reflexivity|discriminate]|]; split;
     [rewrite ?app_nil_r, <- !app_assoc; reflexivity|rewrite zlen_app; lia].
  - apply Hend. destruct rest; auto. cbn in Hn. lia.
  - destruct rest as [|a rest]; [auto|]. clear Hend. cbn [List.length] in Hn, Hgf.
    inversion Hcs as [|? ? Hca Hcs']; subst.
    assert (Hpos : zlen (dn ++ non ++ op) = optind s) by (rewrite (i_ind _ _ _ _ _ I), !zlen_app; lia).
    assert (Hget : nargv_get s (optind s) = Ok (Some a)).
    { rewrite <- Hpos. eapply nargv_get_app. rewrite (i_argv _ _ _ _ _ I), <- !app_assoc. reflexivity. }
    assert (Hlt : optind s < nargc).
    { rewrite (i_argc _ _ _ _ _ I), (i_argv _ _ _ _ _ I), (i_ind _ _ _ _ _ I), !zlen_app, zlen_cons. pose proof (zlen_nonneg rest). lia. }
    destruct (i_calm _ _ _ _ _ I) as (C1 & C2 & C3).
    pose proof (zlen_nonneg dn) as Zd. pose proof (zlen_nonneg non) as Zn. pose proof (zlen_nonneg op) as Zo.
    cbn [read_args_in] in HR. destruct (is_positional a) eqn:EP.
    + (* an operand *)
      assert (EP' : negb (ceqb (hd0 a) "-") || match tl a with [] => true | _ => false end = true).
      { unfold is_positional in EP. destruct a as [|c [|c' a]]; cbn [hd0 tl]; rewrite ?orb_true_r; auto. rewrite EP. reflexivity. }
      cbn [gi_start]. rewrite (i_place _ _ _ _ _ I), orb_true_r.
      cbn [optind set_optreset]. destruct (Z.leb_spec nargc (optind s)); [lia|].
      change (nargv_get (set_optreset false s) (optind s)) with (nargv_get s (optind s)). rewrite Hget. cbn [bind].
      rewrite EP'. assert (Hpx : posix = true \/ posix = false) by (destruct posix; auto).
      destruct Hpx as [Epx|Epx]; rewrite Epx in HR |- *; cbn [negb].
      * injection HR as <- <-. pose proof (i_posix _ _ _ _ _ I Epx) as Hno.
        destruct (i_non _ _ _ _ _ I) as [(E1 & E2 & E3 & E4)|[(E1 & _)|(E1 & _)]]; try congruence. subst non op.
        cbn [Kreads]. eexists; split; [|intros; cbn; reflexivity]. split; [lent|]. exists dn. cbn. split; [apply I|]. split.
        -- rewrite (i_argv _ _ _ _ _ I). reflexivity.
        -- rewrite (i_ind _ _ _ _ _ I), !zlen_nil'. lia.
      * destruct (read_args_in longonly false hs rest) as [evs1 out1] eqn:ER. unfold add_positional in HR. cbn [fst snd] in HR.
        injection HR as <- <-. cbn [nonopt_start nonopt_end optind nargv set_optreset EMSG set_place].
        assert (Hgo : forall dn' non' s', inv dn' non' [] rest s' -> optarg s' = None -> non' = non ++ [a] ->
          Kreads (gi_start nargc (Some lo) longonly gf opts true false s') evs1
            (match match out1 with Finished p => Finished (a :: p) | Hangs => Hangs end with
             | Finished pos => Finished (non ++ pos) | Hangs => Hangs end)).
        { intros dn' non' s' I' Ha' ->. assert (Hn' : (List.length rest <= n)%nat) by lia.
          assert (Hgf' : (List.length rest < gf)%nat) by lia.
          assert (ER' : read_args_in longonly posix hs rest = (evs1, out1)) by (rewrite Epx; exact ER).
          pose proof (IHn dn' (non ++ [a]) [] rest s' gf evs1 out1 Hn' I' Ha' Hcs' Hgf' ER') as H1.
          rewrite Epx in H1. cbn [negb] in H1.
          destruct out1; auto. rewrite <- app_assoc in H1. exact H1. }
        destruct (i_non _ _ _ _ _ I) as [(E1 & E2 & E3 & E4)|[(E1 & E2 & E3 & E4)|(E1 & E2 & E3 & E4)]]; rewrite E3, ?E4.
        -- change (-1 =? -1) with true. cbn [bind]. apply Hgo with (dn' := dn) (non' := [a]); auto; [|subst; reflexivity].
           subst non op. pose proof (i_ind _ _ _ _ _ I) as Hi. rewrite !zlen_nil' in Hi.
           constructor; cbn; auto; try (apply I); try (intros; congruence).
           ++ unfold calm. cbn. repeat split; auto. lia.
           ++ rewrite Hi. zl.
           ++ right. left. repeat split; auto; try congruence. lia.
        -- destruct (Z.eqb_spec (zlen dn) (-1)); [lia|]. change (negb (-1 =? -1)) with false. cbn [bind].
           apply Hgo with (dn' := dn) (non' := non ++ [a]); auto.
           subst op. pose proof (i_ind _ _ _ _ _ I) as Hi. rewrite !zlen_nil' in Hi.
           constructor; cbn; auto; try (apply I); try (intros; congruence).
           ++ unfold calm. cbn. repeat split; auto. lia.
           ++ rewrite (i_argv _ _ _ _ _ I), <- !app_assoc. reflexivity.
           ++ rewrite Hi. zl.
           ++ right. left. repeat split; auto. destruct non; discriminate.
        -- destruct (Z.eqb_spec (zlen dn) (-1)); [lia|]. destruct (Z.eqb_spec (zlen dn + zlen non) (-1)); [lia|]. cbn [negb].
           rewrite (i_argv _ _ _ _ _ I), (i_ind _ _ _ _ _ I), permute_args_exchange by auto. cbn [bind].
           apply Hgo with (dn' := dn ++ op) (non' := non ++ [a]); auto.
           pose proof (i_ind _ _ _ _ _ I) as Hi.
           constructor; cbn; auto; try (intros; congruence).
           ++ unfold calm. cbn. repeat split; auto. lia.
           ++ rewrite <- !app_assoc. reflexivity.
           ++ destruct dn; [exfalso; apply (i_dn _ _ _ _ _ I); reflexivity|discriminate].
           ++ rewrite Hi. zl.
           ++ rewrite (i_argc _ _ _ _ _ I), (i_argv _ _ _ _ _ I). zl.
           ++ right. left. split; [destruct non; discriminate|]. split; auto. split; auto. zl.
    + destruct (str_eqb a (lit "--")) eqn:ED.
      * (* end of options *)
        injection HR as <- <-. assert (Ea : a = lit "--") by (apply str_eqb_eq; exact ED). subst a.
        cbn [gi_start]. rewrite (i_place _ _ _ _ _ I), orb_true_r.
        cbn [optind set_optreset]. destruct (Z.leb_spec nargc (optind s)); [lia|].
        change (nargv_get (set_optreset false s) (optind s)) with (nargv_get s (optind s)). rewrite Hget. cbn [bind].
        cbn [lit list_ascii_of_string hd0 tl]. change (ceqb "-" "-") with true. cbn [negb orb andb].
        cbn [nonopt_start nonopt_end set_optreset].
        destruct (i_non _ _ _ _ _ I) as [(E1 & E2 & E3 & E4)|[(E1 & E2 & E3 & E4)|(E1 & E2 & E3 & E4)]]; rewrite E3, E4.
        -- change (-1 =? -1) with true. cbn [negb andb]. cbn [nonopt_end nonopt_start EMSG set_place set_optind set_optreset optind nargv].
           rewrite E4. change (negb (-1 =? -1)) with false. cbn [bind Kreads].
           eexists; split; [|intros; cbn; reflexivity]. subst. split; [lent|]. exists (dn ++ [lit "--"]). cbn. split; [destruct dn; discriminate|]. split.
           ++ rewrite (i_argv _ _ _ _ _ I), <- app_assoc. reflexivity.
           ++ rewrite (i_ind _ _ _ _ _ I). zl.
        -- destruct (Z.eqb_spec (zlen dn) (-1)); [lia|]. change (-1 =? -1) with true. cbn [negb andb].
           cbn [nonopt_end nonopt_start EMSG set_place set_optind set_nonopt set_optreset optind nargv].
           destruct (Z.eqb_spec (optind s) (-1)); [lia|]. cbn [negb]. subst op.
           rewrite (i_argv _ _ _ _ _ I), (i_ind _ _ _ _ _ I), zlen_nil'.
           replace (zlen dn + zlen non + 0) with (zlen dn + zlen non) by lia.
           change ([] ++ lit "--" :: rest) with ([lit "--"] ++ rest).
           replace (zlen dn + zlen non + 1) with (zlen dn + zlen non + zlen [lit "--"]) by (rewrite zlen_cons, zlen_nil'; lia).
           rewrite permute_args_exchange by discriminate. cbn [bind Kreads].
           eexists; split; [|intros; cbn; reflexivity]. split; [lent|]. exists (dn ++ [lit "--"]). cbn. split; [destruct dn; discriminate|]. split.
           ++ rewrite <- app_assoc. reflexivity.
           ++ zl.
        -- destruct (Z.eqb_spec (zlen dn + zlen non) (-1)); [lia|]. rewrite andb_false_r.
           cbn [nonopt_end nonopt_start EMSG set_place set_optind set_nonopt set_optreset optind nargv]. rewrite E3, E4.
           destruct (Z.eqb_spec (zlen dn + zlen non) (-1)); [lia|]. cbn [negb].
           rewrite (i_argv _ _ _ _ _ I), (i_ind _ _ _ _ _ I).
           replace (dn ++ non ++ op ++ lit "--" :: rest) with (dn ++ non ++ (op ++ [lit "--"]) ++ rest) by (rewrite <- !app_assoc; reflexivity).
           replace (zlen dn + zlen non + zlen op + 1) with (zlen dn + zlen non + zlen (op ++ [lit "--"])) by (rewrite zlen_app, zlen_cons, zlen_nil'; lia).
           rewrite permute_args_exchange by (destruct op; discriminate). cbn [bind Kreads].
           eexists; split; [|intros; cbn; reflexivity]. split; [lent|]. exists (dn ++ op ++ [lit "--"]). cbn. split; [destruct dn; [destruct op|]; discriminate|]. split.
           ++ rewrite <- !app_assoc. reflexivity.
           ++ zl.
      * (* an option *)
        rewrite start_option with (a := a) by (auto; apply I).
        set (s0 := if negb (nonopt_start s =? -1) && (nonopt_end s =? -1)
                             then set_nonopt (nonopt_start s) (optind s) (set_optreset false s) else set_optreset false s).
        assert (Hs0 : nargv s0 = nargv s /\ optind s0 = optind s /\ optarg s0 = None /\ optreset s0 = false /\ posixly s0 = posixly s).
        { unfold s0. destruct (_ && _); cbn; auto. }
        destruct Hs0 as (S1 & S2 & S3 & S4 & S5).
        assert (Htl : tl a <> [] /\ cstr (tl a)).
        { unfold is_positional in EP. destruct a as [|c [|c' a']]; try discriminate. split; [discriminate|].
          cbn. intros H. apply Hca. right. exact H. }
        destruct Htl as [Htl1 Htl2].
        assert (M : mid (dn ++ non ++ op) a rest (tl a) (set_place 1 (tl a) s0)).
        { constructor; cbn; auto; try lia.
          - unfold calm. cbn. rewrite S4, S5, S2. auto.
          - rewrite S1, (i_argv _ _ _ _ _ I), <- !app_assoc. reflexivity.
          - rewrite S1. apply I. }
        destruct (read_cluster_in longonly hs a (tl a) (hd_error rest)) as [ev r] eqn:EC.
        (* the state after the argument, having used [u] *)
        assert (Hnext : forall u rest' s', a :: rest = u ++ rest' -> u <> [] ->
          frame (set_place 1 (tl a) s0) s' -> optind s' = optind s + zlen u -> place s' = [] ->
          exists dn' op', inv dn' non op' rest' s').
        { intros u rest' s' Hu Hune (F1 & F2 & F3 & F4 & F5) Hi Hp. cbn in F1, F2, F3, F4, F5.
          assert (Hcalm : calm s') by (unfold calm; rewrite F4, F5, Hi, S4, S5; pose proof (zlen_nonneg u); repeat split; auto; lia).
          assert (Hargc : nargc = zlen (nargv s')) by (rewrite F1, S1; apply I).
          pose proof (i_argv _ _ _ _ _ I) as Hargv. rewrite Hu in Hargv. rewrite <- S1, <- F1 in Hargv.
          pose proof (i_ind _ _ _ _ _ I) as Hind.
          destruct (i_non _ _ _ _ _ I) as [(E1 & E2 & E3 & E4)|[(E1 & E2 & E3 & E4)|(E1 & E2 & E3 & E4)]].
          - exists (dn ++ u), []. subst non op. rewrite !zlen_nil' in Hind.
            assert (Es0 : s0 = set_optreset false s) by (unfold s0; rewrite E3; reflexivity).
            constructor; auto.
            + rewrite Hargv, <- app_assoc. reflexivity.
            + destruct dn; [exfalso; apply (i_dn _ _ _ _ _ I); reflexivity|discriminate].
            + rewrite Hi. zl.
            + left. rewrite F2, F3, Es0. auto.
          - exists dn, u. subst op. rewrite zlen_nil' in Hind.
            assert (Es0 : s0 = set_nonopt (nonopt_start s) (optind s) (set_optreset false s)).
            { unfold s0. rewrite E3, E4. destruct (Z.eqb_spec (zlen dn) (-1)); [lia|]. reflexivity. }
            constructor; auto; try apply I.
            + rewrite Hi. lia.
            + right. right. rewrite F2, F3, Es0. cbn. repeat split; auto. lia.
          - exists dn, (op ++ u).
            assert (Es0 : s0 = set_optreset false s).
            { unfold s0. rewrite E4. destruct (Z.eqb_spec (zlen dn + zlen non) (-1)); [lia|]. rewrite andb_false_r. reflexivity. }
            constructor; auto; try apply I.
            + rewrite Hargv, <- !app_assoc. reflexivity.
            + rewrite Hi, zlen_app. lia.
            + right. right. rewrite F2, F3, Es0. cbn. repeat split; auto. destruct op; [congruence|discriminate]. }
        assert (Hgo : forall u rest' evs' out', a :: rest = u ++ rest' -> u <> [] -> read_args_in longonly posix hs rest' = (evs', out') ->
           forall s', frame (set_place 1 (tl a) s0) s' -> optind s' = optind s + zlen u -> place s' = [] ->
           reads s' evs' (match out' with Finished pos => Finished (non ++ pos) | Hangs => Hangs end)).
        { intros u rest' evs' out' Hu Hune HR' s' HF Hi Hp. destruct (Hnext u rest' s' Hu Hune HF Hi Hp) as (dn' & op' & I').
          unfold reads. rewrite getopt_calm by apply I'.
          assert (Hlen : (List.length rest' <= List.length rest)%nat).
          { apply (f_equal (@List.length _)) in Hu. rewrite app_length in Hu. destruct u; [congruence|]. cbn in Hu. lia. }
          apply IHn with (dn := dn') (op := op') (rest := rest'); auto; try lia.
          - destruct I' as [(? & ? & ?) ? ? ? ? ? ? ?]. constructor; cbn; auto. unfold calm; cbn; auto.
          - rewrite Forall_forall in *. intros x Hx.
            assert (Hin : In x (a :: rest)) by (rewrite Hu; apply in_app_iff; auto). destruct Hin as [->|Hin]; auto.
          - rewrite (i_argv _ _ _ _ _ I'). rewrite !app_length. lia. }
        destruct r as [[]|].
        -- (* the next argument was the value *)
           destruct rest as [|v rest].
           { exfalso. eapply read_cluster_nonext; exact EC. }
           destruct (read_args_in longonly posix hs rest) as [evs' out'] eqn:ER. unfold prepend in HR. cbn [fst snd] in HR. injection HR as <- <-.
           apply read_cluster_ok with (cs := tl a) (pre := dn ++ non ++ op) (a := a) (rest := v :: rest) (used := true); auto; [congruence|].
           intros s' HF Hi Hp. apply (Hgo [a; v] rest evs' out'); auto; [discriminate|].
           rewrite Hi. cbn [optind set_place]. rewrite S2. zl.
        -- destruct (read_args_in longonly posix hs rest) as [evs' out'] eqn:ER. unfold prepend in HR. cbn [fst snd] in HR. injection HR as <- <-.
           apply read_cluster_ok with (cs := tl a) (pre := dn ++ non ++ op) (a := a) (rest := rest) (used := false); auto; [discriminate|].
           intros s' HF Hi Hp. apply (Hgo [a] rest evs' out'); auto; [discriminate|].
           rewrite Hi. cbn [optind set_place]. rewrite S2. zl.
        -- (* a dash at the end of a cluster: never returns *)
           injection HR as <- <-. cbn [Kreads].
           set (never := fun F s => exists l, Forall quiet l /\ forall tab en, map e_hdr tab = hs ->
             loop F nargc opts lo s tab en = ('(tab, en) <- run l tab en ;; OutOfFuel)).
           assert (Hhang : forall F,
             (forall s, calm s -> nargv s = (dn ++ non ++ op) ++ a :: rest -> optind s = zlen (dn ++ non ++ op) ->
                place s = [] -> never F s) /\
             (forall cs s ev, mid (dn ++ non ++ op) a rest cs (set_optarg None s) -> cs <> [] -> cstr cs -> calm s ->
                read_cluster_in longonly hs a cs (hd_error rest) = (ev, None) -> never F s)).
           { clear s0 S1 S2 S3 S4 S5 M Hnext Hgo.
             assert (Hstep : forall F,
               ((forall s, calm s -> nargv s = (dn ++ non ++ op) ++ a :: rest -> optind s = zlen (dn ++ non ++ op) ->
                place s = [] -> never F s) /\
               (forall cs s ev, mid (dn ++ non ++ op) a rest cs (set_optarg None s) -> cs <> [] -> cstr cs -> calm s ->
                read_cluster_in longonly hs a cs (hd_error rest) = (ev, None) -> never F s)) ->
               forall cs s ev, mid (dn ++ non ++ op) a rest cs s -> cs <> [] -> cstr cs ->
                read_cluster_in longonly hs a cs (hd_error rest) = (ev, None) ->
                exists l, Forall quiet l /\ forall tab en, map e_hdr tab = hs ->
                  K F (gscan s) tab en = ('(tab, en) <- run l tab en ;; OutOfFuel)).
             { intros F [HA HB] cs s1 ev1 M1 Hne Hcs1 HR1.
               destruct cs as [|c cs]; [congruence|].
               assert (Hnul : c <> NUL) by (intros ->; apply Hcs1; left; reflexivity).
               assert (Hcs2 : cstr cs) by (intros H; apply Hcs1; right; exact H).
               destruct (ascii_dec c "-") as [->|Hcd].
               - destruct cs as [|c' cs'].
                 + set (s2 := set_place (place_off s1 + 1) [] s1).
                   assert (Es : gscan s1 = Ok (58, s2)).
                   { unfold gi_scan. rewrite (m_ind _ _ _ _ _ M1).
                     rewrite (nargv_get_app s1 _ a rest (m_argv _ _ _ _ _ M1)). cbn [bind].
                     pose proof (m_off _ _ _ _ _ M1) as Hoff. destruct (Z.eqb_spec (place_off s1) 0); [lia|]. cbn [negb andb].
                     rewrite (m_place _ _ _ _ _ M1). reflexivity. }
                   assert (Hprev : exists x, nargv_get s2 (optind s2 - 1) = Ok x).
                   { unfold s2, nargv_get. cbn [nargv optind set_place]. rewrite (m_ind _ _ _ _ _ M1), (m_argv _ _ _ _ _ M1).
                     destruct (m_calm _ _ _ _ _ M1) as (_ & _ & Hpos1). rewrite (m_ind _ _ _ _ _ M1) in Hpos1.
                     destruct (Z.eqb_spec (zlen (dn ++ non ++ op) - 1) (zlen ((dn ++ non ++ op) ++ a :: rest))); [eauto|].
                     unfold aget. destruct (Z.ltb_spec (zlen (dn ++ non ++ op) - 1) 0); [lia|].
                     destruct (nth_error ((dn ++ non ++ op) ++ a :: rest) (Z.to_nat (zlen (dn ++ non ++ op) - 1))) eqn:En; [cbn; eauto|].
                     exfalso. apply nth_error_None in En. rewrite app_length in En. cbn [List.length] in En. unfold zlen in *. lia. }
                   destruct Hprev as [x Hprev].
                   destruct (HA s2) as (l & Hl & HF); try apply M1; [reflexivity|].
                   exists (EvErr ARG_EMISSARG x :: l). split; [constructor; [exact Logic.I|auto]|].
                   intros tab en Ht. rewrite Es. unfold K. cbn [bind]. change (58 =? -1) with false. cbn iota.
                   unfold dispatch. change (58 =? 0) with false. change (58 =? 63) with false. change (58 =? 58) with true. cbn iota.
                   rewrite Hprev. cbn [bind]. change (EvErr ARG_EMISSARG x :: l) with ([EvErr ARG_EMISSARG x] ++ l). rewrite run_app, run_one.
                   cbn [apply_event]. destruct (arg_register_error en PEnd ARG_EMISSARG x) as [en'| |]; cbn [bind]; auto.
                 + exfalso. cbn in HR1. destruct (read_found _ a _ _) in HR1. congruence.
               - pose proof (read_cluster_quiet a (hd_error rest) (c :: cs) _ HR1) as Hx.
                 destruct (step_cluster _ a rest c cs s1 M1 Hnul) with (ev := ev1) (r := @None bool)
                   as (copt & s' & ev3 & ev4 & E & Hc & Hd & -> & Hne1 & HC); auto; [intros [? _]; congruence|].
                 apply Forall_app in Hx. destruct Hx as [Hx _].
                 destruct HC as [(Hne2 & HG & HR2)|(used' & HU & _)]; [|discriminate].
                 destruct (HB cs s' ev4) as (l & Hl & HF); auto.
                 + eapply mid_next; eauto.
                 + destruct M1 as [(D1 & D2 & D3) M2 M3 M4 M5 M6 M7]. destruct HG as ((F1 & F2 & F3 & F4 & F5) & G2 & G3 & G4).
                   unfold calm. rewrite F4, F5, G2. auto.
                 + exists (ev3 ++ l). split; [apply Forall_app; auto|]. intros tab en Ht.
                   rewrite E. unfold K. cbn [bind]. destruct (Z.eqb_spec copt (-1)); [congruence|]. rewrite Hd by auto.
                   rewrite run_app. destruct (run ev3 tab en) as [[t' e']| |] eqn:ER3; cbn [bind]; auto.
                   apply HF. rewrite (run_hdr _ _ _ _ _ ER3). auto. }
             induction F as [|F IHF]; [split; intros; exists []; split; auto|]. split.
             - intros s1 Hcalm1 Hargv1 Hind1 Hpl1.
               assert (Hcalm2 := Hcalm1). destruct Hcalm2 as (D1 & D2 & D3).
               set (s2 := if negb (nonopt_start s1 =? -1) && (nonopt_end s1 =? -1)
                             then set_nonopt (nonopt_start s1) (optind s1) (set_optreset false (set_optarg None s1)) else set_optreset false (set_optarg None s1)).
               assert (Hs2 : nargv s2 = nargv s1 /\ optind s2 = optind s1 /\ optarg s2 = None /\ optreset s2 = false /\ posixly s2 = posixly s1).
               { unfold s2. destruct (_ && _); cbn; auto. }
               destruct Hs2 as (T1 & T2 & T3 & T4 & T5).
               destruct (Hstep F IHF (tl a) (set_place 1 (tl a) s2) ev) as (l & Hl & HF); auto.
               { constructor; cbn; auto; try lia.
                 + unfold calm. cbn. rewrite T4, T5, T2. auto.
                 + rewrite T1. auto.
                 + rewrite T1, Hargv1, (i_argc _ _ _ _ _ I), (i_argv _ _ _ _ _ I), <- !app_assoc. reflexivity. }
               exists l. split; auto. intros tab en Ht. rewrite loop_S, getopt_calm by auto.
               rewrite start_option with (a := a); auto.
               { change (nargv_get (set_optarg None s1) (optind (set_optarg None s1))) with (nargv_get s1 (optind s1)).
                   rewrite Hind1. eapply nargv_get_app; eauto. }
               cbn. rewrite Hind1, Hpos. auto.
             - intros cs s1 ev1 M1 Hne Hcs1 Hcalm1 HR1.
               destruct (Hstep F IHF cs (set_optarg None s1) ev1) as (l & Hl & HF); auto.
               exists l. split; auto. intros tab en Ht. rewrite loop_S, getopt_calm by auto.
               destruct cs as [|c cs]; [congruence|].
               rewrite start_mid with (c := c) (cs := cs); [|apply Hcalm1|apply M1]. auto. }
           intros F.
           assert (Hn1 : never (S F) (set_place 1 (tl a) s0)).
           { eapply (proj2 (Hhang (S F))); eauto; [|apply M].
             destruct M as [(D1 & D2 & D3) M2 M3 M4 M5 M6 M7]. constructor; cbn; auto. unfold calm; cbn; auto. }
           destruct Hn1 as (l & Hl & HF). exists l. split; [eapply Forall_impl; [|exact Hl]; intros x Hx; right; exact Hx|]. intros tab en Ht. rewrite <- (HF tab en Ht).
           rewrite loop_S, getopt_calm by apply M. destruct (tl a) as [|c cs] eqn:Etl; [congruence|].
           rewrite start_mid with (c := c) (cs := cs); [|apply M|reflexivity].
           f_equal. f_equal. unfold set_optarg. cbn. rewrite <- S3. destruct s0; reflexivity.
Qed.

(** The first call, with optind = 0, from whatever state earlier uses left behind. *)
Lemma start_reset gf s : optreset s = true ->
  start (S gf) s = start (S gf) (set_place 0 [] (set_optreset false s)).
Proof.
  intros H. cbn [gi_start]. rewrite H.
  cbn [nonopt_start nonopt_end set_place set_optreset orb].
  destruct (negb (nonopt_start s =? -1) && (nonopt_end s =? -1)); reflexivity.
Qed.

Theorem tagged_reads s a0 rest evs out : Forall cstr rest -> nargc = zlen (a0 :: rest) ->
  read_args_in longonly posix hs rest = (evs, out) ->
  reads (set_getoptval 0 (set_nargv (a0 :: rest) (set_optind 0 s))) evs out.
Proof.
  intros Hcs Hn HR. unfold reads.
  replace (getopt_in longonly) with (fun px f n o l => getopt_internal px n (Some l) longonly f o true)
    by (unfold getopt_in; destruct longonly; reflexivity).
  unfold getopt_internal. cbv zeta.
  cbn [optind set_getoptval set_nargv set_optind]. change (0 =? 0) with true. cbn iota.
  change (ceqb (hd0 opts) "-") with false. change (ceqb (hd0 opts) "+") with false. cbn [orb]. cbn iota.
  cbn [optreset posixly set_optreset set_posixly set_optarg]. rewrite orb_true_r.
  cbn [optreset posixly set_optreset set_posixly set_optarg].
  replace (if negb ((if posix then 1 else 0) =? 0) || false then false else true) with (negb posix) by (destruct posix; reflexivity).
  rewrite start_reset by reflexivity.
  replace out with (match out with Finished pos => Finished ([] ++ pos) | Hangs => Hangs end) by (destruct out; reflexivity).
  apply (main (List.length rest) [a0] [] [] rest); auto.
  constructor; cbn; auto; try discriminate.
  unfold calm. cbn. repeat split; auto; lia.
Qed.

(** The same about the loop itself. *)
Corollary loop_finishes s a0 rest evs pos : Forall cstr rest -> nargc = zlen (a0 :: rest) ->
  read_args_in longonly posix hs rest = (evs, Finished pos) ->
  exists sf, final sf pos /\ forall F tab en, map e_hdr tab = hs -> (List.length evs < F)%nat ->
    loop F nargc opts lo (set_getoptval 0 (set_nargv (a0 :: rest) (set_optind 0 s))) tab en
    = ('(tab, en) <- run evs tab en ;; Ok (sf, tab, en)).
Proof.
  intros H1 H2 H3. destruct (tagged_reads s a0 rest evs (Finished pos) H1 H2 H3) as (sf & Hf & H).
  exists sf. split; auto. intros F tab en Ht HF. destruct F as [|F]; [lia|]. rewrite loop_S. apply H; auto. lia.
Qed.
Corollary loop_hangs s a0 rest evs : Forall cstr rest -> nargc = zlen (a0 :: rest) ->
  read_args_in longonly posix hs rest = (evs, Hangs) ->
  forall F, exists l, Forall (from evs) l /\ forall tab en, map e_hdr tab = hs ->
    loop F nargc opts lo (set_getoptval 0 (set_nargv (a0 :: rest) (set_optind 0 s))) tab en
    = ('(tab, en) <- run l tab en ;; OutOfFuel).
Proof.
  intros H1 H2 H3 F. pose proof (tagged_reads s a0 rest evs Hangs H1 H2 H3) as H.
  destruct F as [|F]; [exists []; split; auto|]. destruct (H F) as (l & Hl & HF). exists l. split; [exact Hl|].
  intros tab en Ht. rewrite loop_S. exact (HF tab en Ht).
Qed.
End Loop.

Lemma read_args_events_ok hs px args : Forall (ok_event hs) (fst (read_args px hs args)).
Proof. rewrite <- read_args_default. apply read_args_in_events_ok. Qed.
