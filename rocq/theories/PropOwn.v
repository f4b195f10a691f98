(** C71: what arg_parse does to an entry with options depends on the entry and on its own occurrences in the command line, and on
    nothing else: not on the other entries of the table, nor on the other arguments. For any kinds of entries. *)
From Verif Require Import Base IntModel FileModel DateModel GetoptModel ParseModel ParseSpec GetoptProofs ParseIdeal ParseProofs ParseFacts ParseObserve ParseLemmas ArgModel KindsSpec CommandSpec CommandProofs ReportSpec ReportProofs.
From Verif Require ExTable.
From Coq Require Import ZArith List Ascii String Bool Lia.
Import ListNotations.
Open Scope Z_scope.

(** The errors about entry [i]. *)
Definition owned_by (i : nat) (e : err) : bool := match err_owner e with PEntry j => Nat.eqb j i | PEnd => false end.
Definition about (i : nat) (errs : list err) : list err := filter (owned_by i) errs.

Section Own.
Context {B : Type}.
Context (scan : hdr -> B -> option (option str -> res (B * Z))).
Context (check : hdr -> B -> option Z).
Context (reset : hdr -> B -> res B).
Notation parse := (arg_parse scan check reset).

(** [undergoes h b vs b' cs]: an entry alone, with contents [b], is given the values [vs]; it then contains [b'], and has raised the
    complaints [cs] (error code and value). *)
Inductive undergoes (h : hdr) : B -> list (option str) -> B -> list (Z * option str) -> Prop :=
| ug_none b : undergoes h b [] b []
| ug_deaf b v vs b' cs : scan h b = None -> undergoes h b vs b' cs -> undergoes h b (v :: vs) b' cs
| ug_good b f v b1 vs b' cs : scan h b = Some f -> f v = Ok (b1, 0) -> undergoes h b1 vs b' cs -> undergoes h b (v :: vs) b' cs
| ug_bad b f v b1 c vs b' cs : scan h b = Some f -> f v = Ok (b1, c) -> c <> 0 -> undergoes h b1 vs b' cs -> undergoes h b (v :: vs) b' ((c, v) :: cs).
Definition complaint (i : nat) (p : Z * option str) : err := mk_err (PEntry i) (fst p) (snd p).

Lemma undergoes_det h b vs b1 c1 : undergoes h b vs b1 c1 -> forall b2 c2, undergoes h b vs b2 c2 -> b1 = b2 /\ c1 = c2.
Proof.
  induction 1 as [b|b v vs b' cs Hs H IH|b f v b1 vs b' cs Hs Hf H IH|b f v b1 c vs b' cs Hs Hf Hc H IH]; intros b2 c2 H2; inversion H2; subst; try congruence; auto;
    match goal with E1 : scan h b = Some ?x, E2 : scan h b = Some ?y |- _ => assert (y = x) by congruence; subst; clear E2 end;
    match goal with E1 : ?f v = Ok _, E2 : ?f v = Ok _ |- _ => rewrite E1 in E2; injection E2; intros; subst; clear E2 end; try congruence; auto.
  match goal with E : undergoes h _ vs _ _ |- _ => destruct (IH _ _ E) as [-> ->] end. auto.
Qed.
Lemma about_app i l1 l2 : about i (l1 ++ l2) = about i l1 ++ about i l2.
Proof. apply filter_app. Qed.

Lemma events_own i evs : forall tab errs tab' errs' e, ideal_events scan evs (tab, errs) = Ok (tab', errs') -> nth_error tab i = Some e ->
  exists b cs, undergoes (e_hdr e) (e_body e) (occurrences i evs) b cs /\ nth_error tab' i = Some (set_body b e) /\ about i errs' = about i errs ++ map (complaint i) cs.
Proof.
  induction evs as [|ev evs IH]; intros tab errs tab' errs' e H Hi.
  - injection H as <- <-. exists (e_body e), []. split; [constructor|]. split; [destruct e; exact Hi|]. rewrite app_nil_r. reflexivity.
  - cbn [ideal_events] in H. apply bind_ok in H as ([t1 e1] & H1 & H). destruct ev as [j v|c v]; cbn [ideal_event] in H1.
    + change (occurrences i (EvScan j v :: evs)) with ((if Nat.eqb j i then [v] else []) ++ occurrences i evs).
      destruct (nth_error tab j) as [e'|] eqn:Ej; [|discriminate]. destruct (Nat.eqb_spec j i) as [->|Hn].
      * rewrite Hi in Ej. injection Ej as <-. destruct (scan (e_hdr e) (e_body e)) as [f|] eqn:Es.
        -- apply bind_ok in H1 as ([b c] & Ef & H1). injection H1 as <- <-.
           assert (Hl : (i < List.length tab)%nat) by (apply nth_error_Some; congruence).
           destruct (IH _ _ _ _ (set_body b e) H) as (b' & cs & U & N & A); [rewrite nth_error_lupd_eq by auto; reflexivity|]. cbn [set_body e_hdr e_body] in U, N.
           destruct (Z.eqb_spec c 0) as [->|Hc].
           ++ exists b', cs. split; [eapply ug_good; eauto|]. split; auto.
           ++ exists b', ((c, v) :: cs). split; [eapply ug_bad; eauto|]. split; auto. rewrite A, about_app, <- app_assoc. f_equal.
              unfold about, owned_by, mk_err. cbn [filter err_owner]. rewrite Nat.eqb_refl. reflexivity.
        -- injection H1 as <- <-. destruct (IH _ _ _ _ e H Hi) as (b' & cs & U & N & A). exists b', cs. split; [apply ug_deaf; auto|]. auto.
      * cbn [app]. destruct (scan (e_hdr e') (e_body e')) as [f|] eqn:Es.
        -- apply bind_ok in H1 as ([b c] & Ef & H1). injection H1 as <- <-.
           destruct (IH _ _ _ _ e H) as (b' & cs & U & N & A); [rewrite nth_error_lupd_neq by auto; exact Hi|]. exists b', cs. split; auto. split; auto. rewrite A.
           destruct (c =? 0); auto. rewrite about_app. unfold about, owned_by, mk_err. cbn [filter err_owner]. destruct (Nat.eqb_spec j i); [contradiction|]. rewrite app_nil_r. reflexivity.
        -- injection H1 as <- <-. eapply IH; eauto.
    + injection H1 as <- <-. destruct (IH _ _ _ _ e H Hi) as (b' & cs & U & N & A). exists b', cs. split; auto. split; auto. rewrite A, about_app. unfold about, owned_by, mk_err. cbn [filter err_owner]. rewrite app_nil_r. reflexivity.
Qed.
(** Positional arguments do not reach it. *)
Lemma about_unexpected i l : about i (map unexpected l) = [].
Proof. induction l; auto. Qed.
Lemma feed_rej h k : forall args b rej b' l r, feed scan h k b args rej = Ok (b', l, r) -> r = rej \/ r = None \/ exists c a, r = Some (mk_err (PEntry k) c a).
Proof.
  induction args as [|a args IH]; intros b rej b' l r H; cbn [feed] in H; [injection H as <- <- <-; auto|].
  destruct (scan h b) as [f|]; [|injection H as <- <- <-; auto]. apply bind_ok in H as ([b1 c] & Ef & H). destruct (c =? 0).
  - destruct (IH _ _ _ _ _ H) as [->|[->|E]]; auto.
  - injection H as <- <- <-. right. right. eauto.
Qed.
Lemma positional_keeps e : ~ no_options (e_hdr e) -> forall todo k args rej tab' errs j, ideal_positional scan k todo args rej = Ok (tab', errs) ->
  nth_error todo j = Some e -> (forall r, rej = Some r -> owned_by (k + j) r = false) -> nth_error tab' j = Some e /\ about (k + j) errs = [].
Proof.
  intros Hn. induction todo as [|e0 todo IH]; intros k args rej tab' errs j H Hj Hr; [destruct j; discriminate|].
  destruct args as [|a args]; cbn [ideal_positional] in H; [injection H as <- <-; auto|].
  destruct (positional_hdr (e_hdr e0)) eqn:Ep.
  - apply bind_ok in H as ([[b l] r] & Ef & H). apply bind_ok in H as ([t er] & H & E). injection E as <- <-.
    destruct j as [|j]; [cbn in Hj; injection Hj as ->; elim Hn; apply positional_hdr_iff; auto|]. cbn [nth_error] in *. rewrite Nat.add_succ_r in Hr |- *. change (S (k + j)) with (S k + j)%nat in *.
    eapply IH; eauto. intros r' ->. destruct (feed_rej _ _ _ _ _ _ _ _ Ef) as [E|[E|(c & x & E)]]; [|discriminate|].
    + apply Hr. auto.
    + injection E as ->. unfold owned_by, mk_err. cbn [err_owner]. destruct (Nat.eqb_spec k (S k + j)); [lia|reflexivity].
  - apply bind_ok in H as ([t er] & H & E). injection E as <- <-. destruct j as [|j].
    + cbn in Hj. injection Hj as ->. split; [reflexivity|]. rewrite Nat.add_0_r in *. clear IH.
      assert (G : forall todo k' args rej t er, ideal_positional scan k' todo args rej = Ok (t, er) -> (k < k')%nat -> (forall r, rej = Some r -> owned_by k r = false) -> about k er = []).
      { clear. induction todo as [|e0 todo IH]; intros k' args rej t er H Hk Hr; destruct args as [|a args]; cbn [ideal_positional] in H; try (injection H as <- <-; reflexivity).
        - injection H as <- <-. destruct rej as [r|]; [|apply (about_unexpected k (a :: args))]. unfold about. cbn [filter]. rewrite (Hr r eq_refl). apply about_unexpected.
        - destruct (positional_hdr (e_hdr e0)).
          + apply bind_ok in H as ([[b l] r] & Ef & H). apply bind_ok in H as ([t1 er1] & H & E). injection E as <- <-. eapply IH; [exact H|lia|].
            intros r' ->. destruct (feed_rej _ _ _ _ _ _ _ _ Ef) as [E|[E|(c & x & E)]]; [apply Hr; auto|discriminate|]. injection E as ->. unfold owned_by, mk_err. cbn [err_owner]. destruct (Nat.eqb_spec k' k); [lia|reflexivity].
          + apply bind_ok in H as ([t1 er1] & H & E). injection E as <- <-. eapply IH; [exact H|lia|exact Hr]. }
      eapply G; [exact H|lia|exact Hr].
    + cbn [nth_error] in *. rewrite Nat.add_succ_r in Hr |- *. change (S (k + j)) with (S k + j)%nat in *. eapply IH; eauto.
Qed.
Lemma check_about : forall tab k j e, nth_error tab j = Some e ->
  about (k + j) (ideal_check check k tab) = match check (e_hdr e) (e_body e) with Some c => if c =? 0 then [] else [mk_err (PEntry (k + j)) c None] | None => [] end.
Proof.
  assert (Later : forall tab k i, (i < k)%nat -> about i (ideal_check check k tab) = []).
  { induction tab as [|e tab IH]; intros k i Hk; [reflexivity|]. cbn [ideal_check]. rewrite about_app, (IH (S k)) by lia. rewrite app_nil_r.
    destruct (check (e_hdr e) (e_body e)) as [c|]; [|reflexivity]. destruct (c =? 0); [reflexivity|]. unfold about, owned_by, mk_err. cbn [filter err_owner]. destruct (Nat.eqb_spec k i); [lia|reflexivity]. }
  induction tab as [|e0 tab IH]; intros k j e Hj; [destruct j; discriminate|]. cbn [ideal_check]. rewrite about_app. destruct j as [|j]; cbn [nth_error] in Hj.
  - injection Hj as ->. rewrite Nat.add_0_r, Later by lia. rewrite app_nil_r. destruct (check (e_hdr e) (e_body e)) as [c|]; [|reflexivity]. destruct (c =? 0); [reflexivity|].
    unfold about, owned_by, mk_err. cbn [filter err_owner]. rewrite Nat.eqb_refl. reflexivity.
  - rewrite Nat.add_succ_r. change (S (k + j)) with (S k + j)%nat. rewrite (IH (S k) j e Hj).
    match goal with |- ?x ++ _ = _ => assert (E : x = []) end; [|rewrite E; reflexivity].
    destruct (check (e_hdr e0) (e_body e0)) as [c|]; [|reflexivity]. destruct (c =? 0); [reflexivity|]. unfold about, owned_by, mk_err. cbn [filter err_owner]. destruct (Nat.eqb_spec k (S k + j)); [lia|reflexivity].
Qed.
Lemma reset_nth : forall tab tab0 i e, ideal_reset reset tab = Ok tab0 -> nth_error tab i = Some e -> exists b0, reset (e_hdr e) (e_body e) = Ok b0 /\ nth_error tab0 i = Some (set_body b0 e).
Proof.
  induction tab as [|e0 tab IH]; intros tab0 i e H Hi; [destruct i; discriminate|]. cbn [ideal_reset] in H. apply bind_ok in H as (b & Eb & H). apply bind_ok in H as (t & Et & H). injection H as <-.
  destruct i as [|i]; cbn [nth_error] in *; [injection Hi as ->; eauto|eauto].
Qed.

(** One entry in one command line. Its contents: reset, then its own occurrences. The errors about it, as long as there is room for
    all errors: its complaints; or, if no argument has any fault, that of its final check. *)
Theorem C71_own_result :
  forall posix cap tab rest jo jc jp fuel argv h s en a0 evs pos h' s' tab' en',
  call cap tab en h argv a0 rest fuel -> reading (map e_hdr tab) posix rest evs pos ->
  parse posix jo jc jp fuel (zlen (a0 :: rest)) argv h s tab en = Ok (h', s', tab', en') ->
  forall i e, nth_error tab i = Some e -> ~ no_options (e_hdr e) ->
  exists b0 b cs, reset (e_hdr e) (e_body e) = Ok b0 /\ undergoes (e_hdr e) b0 (occurrences i evs) b cs /\ nth_error tab' i = Some (set_body b e) /\
    (end_count en' < cap -> about i (recorded en') = map (complaint i) cs \/
      (cs = [] /\ exists c, check (e_hdr e) b = Some c /\ about i (recorded en') = [complaint i (c, None)])).
Proof.
  intros posix cap tab rest jo jc jp fuel argv h s en a0 evs pos h' s' tab' en' Hc Hr Hp i e Hi Hn. apply reading_iff in Hr.
  pose proof (one_pass scan check reset posix cap jo jc jp fuel argv h s tab en a0 rest evs pos Hc Hr) as Ho. rewrite Hp in Ho. cbn [observe bind] in Ho.
  symmetry in Ho. apply bind_ok in Ho as ([t errs] & Ei & Ho). unfold visible in Ho. cbn [fst snd] in Ho. injection Ho as -> E1 E2.
  unfold ideal_parse in Ei. apply bind_ok in Ei as (t0 & Er & Ei). destruct (reset_nth _ _ _ _ Er Hi) as (b0 & Eb & H0).
  apply bind_ok in Ei as ([t1 e1] & Ee & Ei). destruct (events_own i evs _ _ _ _ _ Ee H0) as (b & cs & U & N1 & A1). cbn [e_hdr e_body set_body] in U, N1.
  apply bind_ok in Ei as ([t2 e2] & Ep & Ei). injection Ei as <- Eerr.
  destruct (positional_keeps (set_body b e) Hn t1 0 pos None t2 e2 i Ep N1 ltac:(discriminate)) as [N2 A2]. cbn [Nat.add] in A2.
  exists b0, b, cs. split; auto. split; auto. split; [exact N2|]. intros Hcap.
  assert (Es : recorded en' = errs).
  { rewrite <- E2. unfold shown. destruct (Z.leb_spec (zlen errs) cap); [reflexivity|]. lia. }
  rewrite Es, <- Eerr. cbn [about filter app] in A1. destruct (e1 ++ e2) as [|x l] eqn:E12.
  - apply app_eq_nil in E12 as [-> ->]. cbn in A1. assert (cs = []) as -> by (destruct cs; [auto|discriminate]).
    pose proof (check_about t2 0 i _ N2) as Hk. cbn [Nat.add e_hdr e_body set_body] in Hk. rewrite Hk.
    destruct (check (e_hdr e) b) as [c|]; [|left; reflexivity]. destruct (c =? 0); [left; reflexivity|]. right. split; auto. exists c. split; auto.
  - left. rewrite <- E12, about_app, A1, A2, app_nil_r. reflexivity.
Qed.

(** The same entry in two tables and two command lines, with the same occurrences: the same contents in the end. *)
Theorem C71_own_occurrences :
  forall e, ~ no_options (e_hdr e) ->
  forall posix1 cap1 tab1 rest1 jo1 jc1 jp1 fuel1 argv1 h1 s1 en1 a1 evs1 pos1 h1' s1' tab1' en1' i1
         posix2 cap2 tab2 rest2 jo2 jc2 jp2 fuel2 argv2 h2 s2 en2 a2 evs2 pos2 h2' s2' tab2' en2' i2,
  call cap1 tab1 en1 h1 argv1 a1 rest1 fuel1 -> reading (map e_hdr tab1) posix1 rest1 evs1 pos1 ->
  call cap2 tab2 en2 h2 argv2 a2 rest2 fuel2 -> reading (map e_hdr tab2) posix2 rest2 evs2 pos2 ->
  parse posix1 jo1 jc1 jp1 fuel1 (zlen (a1 :: rest1)) argv1 h1 s1 tab1 en1 = Ok (h1', s1', tab1', en1') ->
  parse posix2 jo2 jc2 jp2 fuel2 (zlen (a2 :: rest2)) argv2 h2 s2 tab2 en2 = Ok (h2', s2', tab2', en2') ->
  nth_error tab1 i1 = Some e -> nth_error tab2 i2 = Some e -> occurrences i1 evs1 = occurrences i2 evs2 ->
  nth_error tab1' i1 = nth_error tab2' i2.
Proof.
  intros e Hn posix1 cap1 tab1 rest1 jo1 jc1 jp1 fuel1 argv1 h1 s1 en1 a1 evs1 pos1 h1' s1' tab1' en1' i1 posix2 cap2 tab2 rest2 jo2 jc2 jp2 fuel2 argv2 h2 s2 en2 a2 evs2 pos2 h2' s2' tab2' en2' i2
    C1 R1 C2 R2 P1 P2 N1 N2 Ho.
  destruct (C71_own_result posix1 cap1 tab1 rest1 jo1 jc1 jp1 fuel1 argv1 h1 s1 en1 a1 evs1 pos1 h1' s1' tab1' en1' C1 R1 P1 i1 e N1 Hn) as (b1 & c1 & cs1 & E1 & U1 & M1 & _).
  destruct (C71_own_result posix2 cap2 tab2 rest2 jo2 jc2 jp2 fuel2 argv2 h2 s2 en2 a2 evs2 pos2 h2' s2' tab2' en2' C2 R2 P2 i2 e N2 Hn) as (b2 & c2 & cs2 & E2 & U2 & M2 & _).
  rewrite E1 in E2. injection E2 as <-. rewrite <- Ho in U2. destruct (undergoes_det _ _ _ _ _ U1 _ _ U2) as [<- _]. congruence.
Qed.
(** An entry whose options are not used is only reset. *)
Theorem C71_unmentioned :
  forall posix cap tab rest jo jc jp fuel argv h s en a0 evs pos h' s' tab' en',
  call cap tab en h argv a0 rest fuel -> reading (map e_hdr tab) posix rest evs pos ->
  parse posix jo jc jp fuel (zlen (a0 :: rest)) argv h s tab en = Ok (h', s', tab', en') ->
  forall i e, nth_error tab i = Some e -> ~ no_options (e_hdr e) -> occurrences i evs = [] ->
  exists b0, reset (e_hdr e) (e_body e) = Ok b0 /\ nth_error tab' i = Some (set_body b0 e).
Proof.
  intros posix cap tab rest jo jc jp fuel argv h s en a0 evs pos h' s' tab' en' Hc Hr Hp i e Hi Hn Ho.
  destruct (C71_own_result _ _ _ _ _ _ _ _ _ _ _ _ _ _ _ _ _ _ _ Hc Hr Hp i e Hi Hn) as (b0 & b & cs & E & U & M & _). rewrite Ho in U. inversion U; subst. eauto.
Qed.
End Own.

(** The theorem for the kinds of the library. *)
Lemma own_kinds (D : Type) (strtod : str -> D * nat) rexmatch lm sp : forall (e : entry (body D)), ~ no_options (e_hdr e) ->
  forall posix1 cap1 tab1 rest1 jo1 jc1 jp1 fuel1 argv1 h1 s1 en1 a1 evs1 pos1 h1' s1' tab1' en1' i1
         posix2 cap2 tab2 rest2 jo2 jc2 jp2 fuel2 argv2 h2 s2 en2 a2 evs2 pos2 h2' s2' tab2' en2' i2,
  call cap1 tab1 en1 h1 argv1 a1 rest1 fuel1 -> reading (map e_hdr tab1) posix1 rest1 evs1 pos1 ->
  call cap2 tab2 en2 h2 argv2 a2 rest2 fuel2 -> reading (map e_hdr tab2) posix2 rest2 evs2 pos2 ->
  karg_parse strtod rexmatch lm sp posix1 jo1 jc1 jp1 fuel1 (zlen (a1 :: rest1)) argv1 h1 s1 tab1 en1 = Ok (h1', s1', tab1', en1') ->
  karg_parse strtod rexmatch lm sp posix2 jo2 jc2 jp2 fuel2 (zlen (a2 :: rest2)) argv2 h2 s2 tab2 en2 = Ok (h2', s2', tab2', en2') ->
  nth_error tab1 i1 = Some e -> nth_error tab2 i2 = Some e -> occurrences i1 evs1 = occurrences i2 evs2 ->
  nth_error tab1' i1 = nth_error tab2' i2.
Proof. exact (C71_own_occurrences (kscan strtod rexmatch lm sp) kcheck kreset). Qed.
Arguments own_kinds {D}.

(** So values that a program sets in a new entry as defaults are still there, and the count is 0, if the options are not used.
    *)
Theorem C71_defaults_survive :
  forall (D : Type) (strtod : str -> D * nat) rexmatch lm sp posix cap tab rest jo jc jp fuel argv h s en a0 evs pos h' s' tab' en',
  call cap tab en h argv a0 rest fuel -> reading (map e_hdr tab) posix rest evs pos ->
  karg_parse strtod rexmatch lm sp posix jo jc jp fuel (zlen (a0 :: rest)) argv h s tab en = Ok (h', s', tab', en') ->
  forall i e, nth_error tab i = Some e -> ~ no_options (e_hdr e) -> occurrences i evs = [] -> kcount (e_body e) = Some 0 -> nth_error tab' i = Some e.
Proof.
  intros D strtod rexmatch lm sp posix cap tab rest jo jc jp fuel argv h s en a0 evs pos h' s' tab' en' Hc Hr Hp i e Hi Hn Ho Hk.
  destruct (C71_unmentioned (kscan strtod rexmatch lm sp) kcheck kreset _ _ _ _ _ _ _ _ _ _ _ _ _ _ _ _ _ _ _ Hc Hr Hp i e Hi Hn Ho) as (b0 & E & N). rewrite N. f_equal.
  assert (b0 = e_body e) as ->; [|destruct e; reflexivity].
  destruct (e_body e) as [n|p|p|p|p|p|p|]; cbn in E, Hk; try discriminate; injection Hk as Hk; try (destruct p; cbn in *; subst; injection E as <-; reflexivity).
  subst n. injection E as <-. reflexivity.
Qed.

(** ** Example: -n 5 and --num=x among other things, in the table of ExTable, and in a table that has only this entry *)
Local Open Scope string_scope.
Local Open Scope list_scope.
Local Open Scope Z_scope.
Definition ex_line : list string := ["-v"; "-n"; "5"; "a"; "--verbose"; "--num=x"; "--bad"].
Definition ex_only : list string := ["-n5"; "-nx"].
Definition ex_entry : entry (body Z) := arg_intn (fun _ => 7) (ExTable.o "n") (ExTable.o "num") None 0 2 None.
Notation ex_parsed l t := (karg_parse ExTable.strtod ExTable.rexmatch Long64 unix_seps false ExTable.jo ExTable.jc ExTable.jp (S (total (map lit l))) (zlen (lit "p" :: map lit l)) 1
  (ExTable.heap0 ("p" :: l)) ExTable.s0 t (ExTable.en 4)).
Lemma ex_call (t : list (entry (body Z))) l : forallb ExTable.good_hdrb (map e_hdr t) = true -> ExTable.strs_cstr (map lit l) = true ->
  call 4 t (ExTable.en 4) (ExTable.heap0 ("p" :: l)) 1 (lit "p") (map lit l) (S (total (map lit l))).
Proof.
  intros Hg Hs. destruct (ExTable.call_ok "p" l 4 0 ltac:(lia) Hs) as [K1 K2 K3 K4 K5]. constructor; auto. apply ExTable.good_hdrs_ok; exact Hg.
Qed.
Example C71_case : exists h1 s1 t1 n1 h2 s2 t2 n2, ex_parsed ex_line ExTable.tab = Ok (h1, s1, t1, n1) /\ ex_parsed ex_only [ex_entry] = Ok (h2, s2, t2, n2) /\
  nth_error t1 1 = nth_error t2 0 /\ recorded n1 = [mk_err (PEntry 1) ARG_ERR_BADINT (ExTable.o "x"); mk_err PEnd ARG_ELONGOPT (ExTable.o "--bad")] /\
  recorded n2 = [mk_err (PEntry 0) ARG_ERR_BADINT (ExTable.o "x")] /\ option_map (fun e => slots (e_body e)) (nth_error t1 1) = Some [VInt 5; VInt 7].
Proof.
  assert (X1 : match ex_parsed ex_line ExTable.tab with Ok (_, _, t, n) => recorded n = [mk_err (PEntry 1) ARG_ERR_BADINT (ExTable.o "x"); mk_err PEnd ARG_ELONGOPT (ExTable.o "--bad")] /\
    option_map (fun e => slots (e_body e)) (nth_error t 1) = Some [VInt 5; VInt 7] | _ => False end) by (vm_compute; split; reflexivity).
  destruct (ex_parsed ex_line ExTable.tab) as [[[[h1 s1] t1] n1]| |] eqn:E1; [|elim X1|elim X1].
  assert (X2 : match ex_parsed ex_only [ex_entry] with Ok (_, _, _, n) => recorded n = [mk_err (PEntry 0) ARG_ERR_BADINT (ExTable.o "x")] | _ => False end) by (vm_compute; reflexivity).
  destruct (ex_parsed ex_only [ex_entry]) as [[[[h2 s2] t2] n2]| |] eqn:E2; [|elim X2|elim X2].
  exists h1, s1, t1, n1, h2, s2, t2, n2. split; [reflexivity|]. split; [reflexivity|]. destruct X1 as [X1 X3]. split; [|auto].
  apply (own_kinds ExTable.strtod ExTable.rexmatch Long64 unix_seps ex_entry ltac:(intros [H _]; discriminate H)
    false 4 ExTable.tab (map lit ex_line) ExTable.jo ExTable.jc ExTable.jp _ _ _ ExTable.s0 _ (lit "p") [EvScan 0 None; EvScan 1 (ExTable.o "5"); EvScan 0 None; EvScan 1 (ExTable.o "x"); EvErr ARG_ELONGOPT (ExTable.o "--bad")] [lit "a"] h1 s1 t1 n1 1
    false 4 [ex_entry] (map lit ex_only) ExTable.jo ExTable.jc ExTable.jp _ _ _ ExTable.s0 _ (lit "p") [EvScan 0 (ExTable.o "5"); EvScan 0 (ExTable.o "x")] [] h2 s2 t2 n2 0
    (ex_call ExTable.tab ex_line eq_refl eq_refl) ltac:(apply reading_iff; vm_compute; reflexivity) (ex_call [ex_entry] ex_only eq_refl eq_refl) ltac:(apply reading_iff; vm_compute; reflexivity) E1 E2 eq_refl eq_refl eq_refl).
Qed.
(** Without -n the entry keeps its preset values. *)
Definition ex_without : list string := ["-v"; "a"].
Example C71_case_default : exists h1 s1 t1 n1, ex_parsed ex_without ExTable.tab = Ok (h1, s1, t1, n1) /\ nth_error t1 1 = Some ex_entry /\ slots (e_body ex_entry) = [VInt 7; VInt 7].
Proof.
  assert (X : match ex_parsed ex_without ExTable.tab with Ok _ => True | _ => False end) by (vm_compute; exact I).
  destruct (ex_parsed ex_without ExTable.tab) as [[[[h1 s1] t1] n1]| |] eqn:E1; [|elim X|elim X]. exists h1, s1, t1, n1. split; [reflexivity|]. split; [|reflexivity].
  apply (C71_defaults_survive _ ExTable.strtod ExTable.rexmatch Long64 unix_seps false 4 ExTable.tab (map lit ex_without) ExTable.jo ExTable.jc ExTable.jp _ _ _ ExTable.s0 _ (lit "p") [EvScan 0 None] [lit "a"]
    h1 s1 t1 n1 (ex_call ExTable.tab ex_without eq_refl eq_refl) ltac:(apply reading_iff; vm_compute; reflexivity) E1 1 ex_entry eq_refl ltac:(intros [H _]; discriminate H) eq_refl eq_refl).
Qed.

Print Assumptions C71_own_result.
Print Assumptions C71_own_occurrences.
Print Assumptions C71_unmentioned.
Print Assumptions C71_defaults_survive.
