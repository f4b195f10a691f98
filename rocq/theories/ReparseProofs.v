(** Parsing the same command line again with the same table: reading a date does not depend on what the
    slot held, and two parses that start alike go alike. *)
From Verif Require Import Base IntModel IntSpec IntProofs FileModel DateModel DateSpec DateProofs GetoptModel ParseModel ParseSpec GetoptProofs ParseIdeal ParseProofs ParseFacts ParseObserve ParseSafe ParseLemmas ArgModel KindsSpec KindsProofs PropDate.
From Verif Require Import DateSpec.
From Coq Require Import ZArith List Ascii String Bool Lia.
Import ListNotations.
Open Scope Z_scope.

(** ** Dates *)
(** Every AM/PM conversion comes after one that sets the hour. *)
Fixpoint ampm_ok (hour : bool) (cs : list ascii) : bool :=
  match cs with
  | [] => true
  | c :: cs' => (negb (ceqb c "p") || hour) && ampm_ok (hour || aboutb c Hour) cs'
  end.

Lemma assigns_ex f v u : exists u', assigns f v u u'.
Proof.
  destruct f;
  [exists (set_sec v u)|exists (set_min v u)|exists (set_hour v u)|exists (set_mday v u)|exists (set_mon v u)|exists (set_year v u)|exists (set_wday v u)|exists (set_yday v u)|
   exists {| tm_sec := tm_sec u; tm_min := tm_min u; tm_hour := tm_hour u; tm_mday := tm_mday u; tm_mon := tm_mon u; tm_year := tm_year u; tm_wday := tm_wday u; tm_yday := tm_yday u; tm_isdst := v |}];
  (split; [reflexivity|intros g Hg; destruct g; try reflexivity; contradiction]).
Qed.
Definition moved (t t' u u' : tm) : Prop := forall f, fld f u' = fld f t' \/ (fld f t' = fld f t /\ fld f u' = fld f u).
Lemma moved_assigns f v t t' u u' : assigns f v t t' -> assigns f v u u' -> moved t t' u u'.
Proof.
  intros Ht Hu g. destruct (assigns_fld f v t t' g Ht) as [[Eg E1]|[Hn E1]]; destruct (assigns_fld f v u u' g Hu) as [[E2' E2]|[Hn2 E2]]; try contradiction; [left; congruence|right; auto].
Qed.
Lemma moved_refl t u : moved t t u u.
Proof. intros f. right. auto. Qed.
Lemma moved_trans t t1 t2 u u1 u2 : moved t t1 u u1 -> moved t1 t2 u1 u2 -> moved t t2 u u2.
Proof. intros H1 H2 f. destruct (H1 f), (H2 f); intuition congruence. Qed.
Lemma moved_agree t t' u u' f : moved t t' u u' -> fld f u = fld f t -> fld f u' = fld f t'.
Proof. intros H E. destruct (H f) as [|[]]; congruence. Qed.

Lemma conv_transfer c sp s t r t' sp' u : conv c sp s t r t' sp' ->
  (sp = true -> fld Year u = fld Year t) -> (c = "p"%char -> fld Hour u = fld Hour t) ->
  exists u', conv c sp s u r u' sp' /\ moved t t' u u' /\ (sp' = true -> fld Year u' = fld Year t') /\ (aboutb c Hour = true -> fld Hour u' = fld Hour t').
Proof.
  intros H Hy Hp.
  assert (Asg : forall f v t', assigns f v t t' -> (forall u', assigns f v u u' -> conv c sp s u r u' sp') ->
     (sp' = true -> f = Year \/ sp = true) -> (aboutb c Hour = true -> f = Hour) ->
     exists u', conv c sp s u r u' sp' /\ moved t t' u u' /\ (sp' = true -> fld Year u' = fld Year t') /\ (aboutb c Hour = true -> fld Hour u' = fld Hour t')).
  { intros f v t0 Ha Hc Hs Hh. destruct (assigns_ex f v u) as [u' Hu]. exists u'. pose proof (moved_assigns _ _ _ _ _ _ Ha Hu) as Hm. split; [auto|]. split; auto. split.
    - intros Hs'. destruct (Hs Hs') as [->|Hs2]; [destruct Ha as [-> _], Hu as [-> _]; auto|]. eapply moved_agree; eauto.
    - intros Hb. rewrite (Hh Hb) in *. destruct Ha as [-> _], Hu as [-> _]; auto. }
  assert (Nab : forall cs, is_one_of cs c -> forallb (fun c => negb (aboutb c Hour)) (lit cs) = true -> aboutb c Hour = true -> False).
  { intros cs Hin Hb E. rewrite forallb_forall in Hb. specialize (Hb c Hin). rewrite E in Hb. discriminate. }
  destruct H as [cs w lo hi f off v r t' Hin Hc Hn Ha|i r t' Hc Hn Ha|i r t' Hc Hn Ha|v r t' Hc Hn Ha|v r Hc Hn
    |v r t' Hc Hn Ha|v r t' Hc Hs Hn Ha|v r t' Hc Hs Hn Ha|t' Hc Hh Hb Ht|t' Hc Hh Hb Ha|r Hc Hk].
  - apply (Asg f (v - off) t'); auto.
    + intros u' Hu. eapply conv_number; eauto.
    + intros Hb. cbn [number_convs In] in Hin. splitor Hin; injection Hin as <- <- <- <- <- <-; auto; exfalso; eapply Nab; eauto.
  - apply (Asg Wday i t'); auto; [intros u' Hu; eapply conv_week; eauto|]. intros Hb. exfalso. eapply Nab; eauto.
  - apply (Asg Mon i t'); auto; [intros u' Hu; eapply conv_month; eauto|]. intros Hb. exfalso. eapply Nab; eauto.
  - apply (Asg Hour (v mod 12) t'); auto. intros u' Hu. eapply conv_hour12; eauto.
  - exists u. split; [eapply conv_ignored; eauto|]. split; [apply moved_refl|]. split; auto. intros Hb. exfalso. eapply Nab; eauto.
  - apply (Asg Year (v * 100 + (if sp then Z.rem (fld Year t) 100 else 0)) t'); auto.
    + intros u' Hu. eapply conv_century; eauto. destruct sp; [rewrite Hy by auto|]; auto.
    + intros Hb. subst c. discriminate.
  - apply (Asg Year (Z.quot (fld Year t) 100 * 100 + v) t'); auto.
    + intros u' Hu. eapply conv_year2_after; eauto. rewrite Hy by auto. auto.
    + intros Hb. subst c. discriminate.
  - apply (Asg Year (if v <=? 68 then v + 100 else v) t'); auto.
    + intros u' Hu. eapply conv_year2; eauto.
    + intros Hb. subst c. discriminate.
  - subst t'. exists u. split; [eapply conv_am; eauto; rewrite Hp; auto|]. split; [apply moved_refl|]. auto.
  - apply (Asg Hour (fld Hour t + 12) t'); auto. intros u' Hu. eapply conv_pm; eauto; rewrite Hp; auto.
  - exists u. split; [eapply conv_white; eauto|]. split; [apply moved_refl|]. split; auto. intros Hb. exfalso. eapply Nab; eauto.
Qed.

Lemma reads_transfer fmt sp s t t' r : reads fmt sp s t t' r -> forall u hour, ampm_ok hour (convs fmt) = true ->
  (sp = true -> fld Year u = fld Year t) -> (hour = true -> fld Hour u = fld Hour t) ->
  exists u', reads fmt sp s u u' r /\ moved t t' u u' /\ (hour || existsb (fun c => aboutb c Hour) (convs fmt) = true -> fld Hour u' = fld Hour t').
Proof.
  induction 1 as [sp s t|c fmt sp s s1 t t' r Hc Hk H IH|c fmt sp s t t' r Hc Hp H IH|m fmt sp s t t' r Hm H IH
    |c m fmt sp sp1 s s1 t t1 t' r Hm Hconv H IH|c f0 m fmt sp s s1 t t1 t' r Hin Hm H1 IH1 H IH]; intros u hour Hok Hy Hh.
  - exists u. split; [constructor|]. split; [apply moved_refl|]. cbn. rewrite orb_false_r. auto.
  - assert (E : convs (c :: fmt) = convs fmt).
    { cbn [convs]. destruct (ceqb_spec c "%") as [->|]; [discriminate Hc|reflexivity]. }
    rewrite E in *. destruct (IH u hour Hok Hy Hh) as (u' & R & M & A). exists u'. split; auto. eapply reads_space; eauto.
  - assert (E : convs (c :: fmt) = convs fmt).
    { cbn [convs]. destruct (ceqb_spec c "%") as [->|]; [contradiction|reflexivity]. }
    rewrite E in *. destruct (IH u hour Hok Hy Hh) as (u' & R & M & A). exists u'. split; auto. eapply reads_literal; eauto.
  - rewrite convs_pct in * by (auto; discriminate). cbn in Hok. rewrite orb_false_r in Hok.
    destruct (IH u hour Hok Hy Hh) as (u' & R & M & A). exists u'. split; [eapply reads_percent; eauto|auto].
  - destruct (conv_char _ _ _ _ _ _ _ Hconv) as (_ & N2 & N3 & _). rewrite convs_pct in * by auto. cbn [ampm_ok] in Hok. apply andb_true_iff in Hok as [Hok1 Hok2].
    destruct (conv_transfer _ _ _ _ _ _ _ u Hconv Hy) as (u1 & C1 & M1 & Y1 & A1).
    { intros ->. cbn in Hok1. auto. }
    destruct (IH u1 (hour || aboutb c Hour) Hok2 Y1) as (u' & R & M & A).
    { intros Ho. destruct hour; [eapply moved_agree; eauto|auto]. }
    exists u'. split; [eapply reads_conv; eauto|]. split; [eapply moved_trans; eauto|]. cbn [existsb]. rewrite orb_assoc. auto.
  - destruct (abbr_complex c f0 m Hin Hm) as (a & _ & _ & _ & N2 & N3). rewrite convs_pct in * by auto. cbn [ampm_ok] in Hok. apply andb_true_iff in Hok as [_ Hok2].
    assert (K : ampm_ok false (convs (lit f0)) = true /\ aboutb c Hour = existsb (fun c => aboutb c Hour) (convs (lit f0))).
    { assert (K1 : forallb (fun p => ampm_ok false (convs (lit (snd p))) && Bool.eqb (aboutb (fst p) Hour) (existsb (fun c => aboutb c Hour) (convs (lit (snd p))))) abbreviations = true) by (vm_compute; reflexivity).
      rewrite forallb_forall in K1. specialize (K1 (c, f0) Hin). apply andb_true_iff in K1 as [K1 K2]. split; auto. apply Bool.eqb_prop in K2. auto. }
    destruct K as [K1 K2].
    destruct (IH1 u false K1) as (u1 & R1 & M1 & A1); try discriminate.
    destruct (IH u1 (hour || aboutb c Hour) Hok2) as (u' & R & M & A).
    { intros Hs. eapply moved_agree; eauto. }
    { intros Ho. destruct hour; [eapply moved_agree; eauto|]. apply A1. cbn in *. congruence. }
    exists u'. split; [eapply reads_abbr; eauto|]. split; [eapply moved_trans; eauto|]. cbn [existsb]. rewrite orb_assoc. auto.
Qed.
Lemma tm_ext (t u : tm) : (forall f, fld f t = fld f u) -> t = u.
Proof.
  intros H. destruct t, u. pose proof (H Sec). pose proof (H Min). pose proof (H Hour). pose proof (H Mday). pose proof (H Mon). pose proof (H Year). pose proof (H Wday). pose proof (H Yday). pose proof (H Isdst).
  cbn in *. congruence.
Qed.
Lemma reads_again fmt s t t' u : reads fmt false s t t' [] -> ampm_ok false (convs fmt) = true ->
  exists u', reads fmt false s u u' [] /\ (u = t' -> u' = t').
Proof.
  intros H Hok. destruct (reads_transfer _ _ _ _ _ _ H u false Hok) as (u' & R & M & _); try discriminate.
  exists u'. split; auto. intros ->. apply tm_ext. intros f. destruct (M f) as [|[]]; congruence.
Qed.

(** ** What the reading of a command line gives to which entry *)
Section Dispatched.
Context (hs : list hdr).
(** The entry has options; it gets a value only if it takes one, and always if it requires one. *)
Definition dispatched (ev : event) : Prop :=
  match ev with
  | EvScan i v => exists h, nth_error hs i = Some h /\ ~ no_options h /\
                  (v = None -> h_hasvalue h = false \/ h_hasoptvalue h = true) /\ (v <> None -> h_hasvalue h = true \/ h_hasoptvalue h = true)
  | EvErr _ _ => True
  end.
Lemma short_find_dispatched c i h : short_find hs 0 c = Some (i, h) -> nth_error hs i = Some h /\ ~ no_options h.
Proof.
  intros E. apply short_find_iff in E as (E & Hd & _). split; auto. intros [Hn _]. unfold declares in Hd. rewrite Hn in Hd. discriminate.
Qed.
Lemma long_find_dispatched nm i h : long_find hs nm = Some (i, h) -> nth_error hs i = Some h /\ ~ no_options h.
Proof.
  intros E. apply long_find_iff in E. destruct E as [Hi Hn _|n _ Hi Hn _ _]; (split; [auto|]); intros [_ Hl]; unfold hdr_names in Hn; rewrite Hl in Hn; contradiction.
Qed.
Lemma read_long_dispatched a body next : Forall dispatched (fst (read_long hs a body next)).
Proof.
  unfold read_long. destruct (long_find hs (name_part body)) as [[i h]|] eqn:E; [|repeat constructor].
  apply long_find_dispatched in E as [Hi Hn].
  assert (G : forall v a, (v = None -> h_hasvalue h = false \/ h_hasoptvalue h = true) -> (v <> None -> h_hasvalue h = true \/ h_hasoptvalue h = true) -> Forall dispatched (long_occurrence i h v a)).
  { intros v a0 H1 H2. assert (Hd : dispatched (EvScan i v)) by (exists h; auto). unfold long_occurrence. destruct v as [[|x y]|]; [destruct (h_hasvalue h)|..]; repeat constructor; auto. }
  unfold long_takes. destruct (h_hasoptvalue h) eqn:Ho; [|destruct (h_hasvalue h) eqn:Hv]; destruct (value_part body) as [v|]; cbn [fst];
    try (apply G; auto; intros; congruence); try (repeat constructor; fail).
  destruct next; cbn [fst]; [apply G; auto; discriminate|repeat constructor].
Qed.
Lemma read_cluster_dispatched a next : forall cs, Forall dispatched (fst (read_cluster hs a cs next)).
Proof.
  induction cs as [|c cs IH]; cbn [read_cluster]; [constructor|]. destruct (ceqb c "-").
  - destruct cs as [|c' cs']; [constructor|]. pose proof (read_long_dispatched a (c' :: cs') next). destruct (read_long hs a (c' :: cs') next). auto.
  - destruct (short_find hs 0 c) as [[i h]|] eqn:E.
    + apply short_find_dispatched in E as [Hi Hn].
      assert (G : forall v, (v = None -> h_hasvalue h = false \/ h_hasoptvalue h = true) -> (v <> None -> h_hasvalue h = true \/ h_hasoptvalue h = true) -> dispatched (EvScan i v)) by (intros v H1 H2; exists h; auto).
      unfold short_takes. destruct (h_hasvalue h) eqn:Hv, (h_hasoptvalue h) eqn:Ho.
      * apply Forall_cons; [|constructor]. apply G; auto.
      * destruct cs as [|c' cs']; [destruct next|]; (apply Forall_cons; [|constructor]); try exact I; apply G; auto; discriminate.
      * destruct cs as [|c' cs']; [destruct next|]; (apply Forall_cons; [|constructor]); try exact I; apply G; auto; discriminate.
      * destruct (read_cluster hs a cs next). constructor; [|auto]. apply G; [auto|congruence].
    + destruct (read_cluster hs a cs next). constructor; [exact I|auto].
Qed.
Lemma read_args_dispatched px args : Forall dispatched (fst (read_args px hs args)).
Proof.
  remember (List.length args) as n eqn:En. revert args En. induction n as [n IHn] using lt_wf_ind.
  intros [|a rest] ->; cbn [read_args]; [constructor|].
  assert (IH : forall r, (List.length r <= List.length rest)%nat -> Forall dispatched (fst (read_args px hs r))).
  { intros r Hr. eapply IHn; [|reflexivity]. cbn. lia. }
  destruct (is_positional a).
  - destruct px; [constructor|]. cbn. apply IH. lia.
  - destruct (str_eqb a (lit "--")); [constructor|].
    pose proof (read_cluster_dispatched a (hd_error rest) (tl a)) as HC.
    destruct (read_cluster hs a (tl a) (hd_error rest)) as [ev [[]|]]; cbn in HC |- *; auto.
    + destruct rest as [|v rest]; auto. cbn. apply Forall_app. split; auto. apply IH. cbn. lia.
    + apply Forall_app. split; auto.
Qed.
End Dispatched.

Lemma feed_suffix {B} (scan : hdr -> B -> option (option str -> res (B * Z))) h i : forall args b rej b' l r,
  feed scan h i b args rej = Ok (b', l, r) -> exists run, args = run ++ l.
Proof.
  induction args as [|a args IH]; intros b rej b' l r H; cbn [feed] in H; [injection H as <- <- <-; exists []; auto|].
  destruct (scan h b) as [f|]; [|injection H as <- <- <-; exists []; auto]. apply bind_ok in H as ([b1 c] & _ & H).
  destruct (c =? 0); [|injection H as <- <- <-; exists []; auto]. apply IH in H as [run ->]. exists (a :: run). auto.
Qed.
(** ** Two runs side by side *)
Section Pair.
Context {B : Type}.
Context (scan : hdr -> B -> option (option str -> res (B * Z))).
Context (check : hdr -> B -> option Z).
Context (R : nat -> hdr -> B -> B -> Prop) (okv : nat -> option str -> Prop).
Hypothesis Hscan : forall i h b1 b2 v, R i h b1 b2 -> okv i v ->
  match scan h b1, scan h b2 with
  | None, None => True
  | Some f1, Some f2 => forall b1' c, f1 v = Ok (b1', c) -> exists b2', f2 v = Ok (b2', c) /\ R i h b1' b2'
  | _, _ => False
  end.
Hypothesis Hcheck : forall i h b1 b2, R i h b1 b2 -> check h b1 = check h b2.
Inductive tabR : nat -> list (entry B) -> list (entry B) -> Prop :=
| tabR_nil k : tabR k [] []
| tabR_cons k h b1 b2 t1 t2 : R k h b1 b2 -> tabR (S k) t1 t2 -> tabR k ({| e_hdr := h; e_body := b1 |} :: t1) ({| e_hdr := h; e_body := b2 |} :: t2).
Lemma tabR_nth k t1 t2 : tabR k t1 t2 -> forall i e1, nth_error t1 i = Some e1 -> exists b2, nth_error t2 i = Some (set_body b2 e1) /\ R (k + i) (e_hdr e1) (e_body e1) b2.
Proof.
  induction 1 as [k|k h b1 b2 t1 t2 H Ht IH]; intros [|i] e1 Hi; try discriminate; cbn [nth_error] in *.
  - injection Hi as <-. exists b2. rewrite Nat.add_0_r. auto.
  - replace (k + S i)%nat with (S k + i)%nat by lia. apply IH; auto.
Qed.
Lemma tabR_lupd k t1 t2 : tabR k t1 t2 -> forall i e1 b1 b2, nth_error t1 i = Some e1 -> R (k + i) (e_hdr e1) b1 b2 ->
  tabR k (lupd t1 i (set_body b1 e1)) (lupd t2 i (set_body b2 e1)).
Proof.
  induction 1 as [k|k h c1 c2 t1 t2 H Ht IH]; intros [|i] e1 b1 b2 Hi HR; try discriminate; cbn [nth_error lupd] in *.
  - injection Hi as <-. rewrite Nat.add_0_r in HR. constructor; auto.
  - constructor; auto. apply IH; auto. replace (S k + i)%nat with (k + S i)%nat by lia. auto.
Qed.
Definition ok_ev (ev : event) : Prop := match ev with EvScan i v => okv i v | EvErr _ _ => True end.
Lemma pair_events evs : forall t1 t2 errs t1' errs', tabR 0 t1 t2 -> Forall ok_ev evs -> ideal_events scan evs (t1, errs) = Ok (t1', errs') ->
  exists t2', ideal_events scan evs (t2, errs) = Ok (t2', errs') /\ tabR 0 t1' t2'.
Proof.
  induction evs as [|ev evs IH]; intros t1 t2 errs t1' errs' Ht Ho H; cbn [ideal_events] in *.
  - injection H as <- <-. eauto.
  - inversion_clear Ho as [|? ? Hev Hevs]. apply bind_ok in H as ([t e] & H1 & H2).
    assert (G : exists t2', ideal_event scan ev (t2, errs) = Ok (t2', e) /\ tabR 0 t t2').
    { destruct ev as [i v|c v]; cbn in H1 |- *; [|injection H1 as <- <-; eauto].
      destruct (nth_error t1 i) as [e1|] eqn:Ei; [|discriminate]. destruct (tabR_nth _ _ _ Ht i e1 Ei) as (b2 & Ei2 & HR). rewrite Ei2. cbn.
      pose proof (Hscan _ _ _ _ v HR Hev) as HS. destruct (scan (e_hdr e1) (e_body e1)) as [f1|], (scan (e_hdr e1) b2) as [f2|]; try contradiction; [|injection H1 as <- <-; eauto].
      apply bind_ok in H1 as ([b1' c] & Hf & H1). injection H1 as <- <-. destruct (HS b1' c Hf) as (b2' & -> & HR'). cbn. eexists. split; [reflexivity|].
      apply (tabR_lupd _ _ _ Ht i e1 b1' b2'); auto. }
    destruct G as (t2' & -> & Ht'). cbn [bind]. eapply IH; eauto.
Qed.
Lemma pair_feed h i : forall args b1 b2 rej b1' l r, R i h b1 b2 -> Forall (fun a => okv i (Some a)) args -> feed scan h i b1 args rej = Ok (b1', l, r) ->
  exists b2', feed scan h i b2 args rej = Ok (b2', l, r) /\ R i h b1' b2'.
Proof.
  induction args as [|a args IH]; intros b1 b2 rej b1' l r HR Ha H; cbn [feed] in *; [injection H as <- <- <-; eauto|].
  inversion_clear Ha. pose proof (Hscan _ _ _ _ (Some a) HR ltac:(auto)) as HS.
  destruct (scan h b1) as [f1|], (scan h b2) as [f2|]; try contradiction; [|injection H as <- <- <-; eauto].
  apply bind_ok in H as ([b c] & Hf & H). destruct (HS b c Hf) as (b2' & -> & HR'). cbn [bind]. destruct (c =? 0); [eapply IH; eauto|].
  injection H as <- <- <-. eauto.
Qed.
Lemma pair_positional : forall t1 t2 k args rej t1' er, tabR k t1 t2 -> Forall (fun a => forall i, okv i (Some a)) args -> ideal_positional scan k t1 args rej = Ok (t1', er) ->
  exists t2', ideal_positional scan k t2 args rej = Ok (t2', er) /\ tabR k t1' t2'.
Proof.
  intros t1 t2 k args rej t1' er Ht. revert args rej t1' er. induction Ht as [k|k h b1 b2 t1 t2 HR Ht IH]; intros args rej t1' er Ha H; destruct args as [|a args]; cbn [ideal_positional] in *.
  - injection H as <- <-. eexists. split; [reflexivity|constructor].
  - injection H as <- <-. eexists. split; [reflexivity|constructor].
  - injection H as <- <-. eexists. split; [reflexivity|constructor; auto].
  - cbn [e_hdr e_body] in *. destruct (positional_hdr h).
    + apply bind_ok in H as ([[b l] r] & Hf & H). apply bind_ok in H as ([t e] & Hp & H). injection H as <- <-.
      destruct (feed_suffix scan h k _ _ _ _ _ _ Hf) as [run El].
      apply (pair_feed h k (a :: args) b1 b2) in Hf as (b2' & -> & HR'); auto; [|eapply Forall_impl; [|exact Ha]; auto]. cbn [bind].
      rewrite El in Ha. apply Forall_app in Ha as [_ Ha]. destruct (IH _ _ _ _ Ha Hp) as (t2' & -> & Ht'). cbn [bind]. eexists. split; [reflexivity|]. constructor; auto.
    + apply bind_ok in H as ([t e] & Hp & H). injection H as <- <-. destruct (IH _ _ _ _ Ha Hp) as (t2' & -> & Ht'). cbn [bind]. eexists. split; [reflexivity|]. constructor; auto.
Qed.
Lemma pair_check k t1 t2 : tabR k t1 t2 -> ideal_check check k t1 = ideal_check check k t2.
Proof. induction 1 as [k|k h b1 b2 t1 t2 HR Ht IH]; cbn; auto. rewrite IH, (Hcheck _ _ _ _ HR). auto. Qed.
End Pair.

(** ** One occurrence, twice *)
Section Twice.
Context {D : Type}.
Context (strtod : str -> D * nat).
Context (rexmatch : str -> Z -> str -> res bool).
Context (lm : long_model) (sp : seps).
Hypothesis strtod_ok : forall s, (snd (strtod s) <= List.length s)%nat.
Notation scan := (kscan strtod rexmatch lm sp).
Notation safe_value := (safe_value lm).
Notation Inv := (Inv rexmatch).

(** Entries for which a parse can be repeated: a date format must set the hour before AM or PM, and an
    arg_str must not have an optional value (a second parse clears the default). *)
Definition steady (h : hdr) (b : body D) : Prop :=
  match b with
  | KDate p => ampm_ok false (convs (date_format p)) = true
  | KStr _ => h_hasvalue h = true /\ h_hasoptvalue h = false
  | _ => True
  end.
Definition again (b : body D) (x2 y1 y2 : @value D) : Prop :=
  match b with KStr _ => y2 = y1 | _ => x2 = y1 -> y2 = y1 end.

Lemma scan_two ints h (b1 b2 : body D) f1 v b1' c n : Inv ints h b1 -> Inv ints h b2 -> same_kind b1 b2 -> steady h b1 ->
  kcount b1 = Some n -> kcount b2 = Some n -> (forall s, v = Some s -> safe_value ints s) -> scan h b1 = Some f1 -> f1 v = Ok (b1', c) ->
  exists f2 b2', scan h b2 = Some f2 /\ f2 v = Ok (b2', c) /\
    (c <> 0 -> b1' = b1 /\ b2' = b2) /\
    (c = 0 -> match v, b1 with
      | Some _, KLit _ | None, _ => slots b1' = slots b1 /\ slots b2' = slots b2
      | Some _, _ => exists x2 y1 y2, nth_error (slots b2) (Z.to_nat n) = Some x2 /\ again b1 x2 y1 y2 /\
           slots b1' = lupd (slots b1) (Z.to_nat n) y1 /\ slots b2' = lupd (slots b2) (Z.to_nat n) y2
      end).
Proof.
  intros I1 I2 Hk Hst Hn1 Hn2 Hv Hs1 Hf1.
  destruct (scan h b2) as [f2|] eqn:Hs2; [|destruct b1, b2; cbn in *; contradiction || discriminate].
  destruct (scan_inv strtod rexmatch lm sp strtod_ok ints h b1 f1 v I1 Hv Hs1) as (b1x & c1 & E1 & J1 & O1).
  rewrite Hf1 in E1. injection E1 as <- <-.
  destruct (scan_inv strtod rexmatch lm sp strtod_ok ints h b2 f2 v I2 Hv Hs2) as (b2' & c2 & Hf2 & J2 & O2).
  assert (Hc : c2 = c).
  { clear O1 O2 J1 J2. destruct I1 as (B1 & M1 & _), I2 as (B2 & M2 & _).
    destruct b1 as [n1|p|p|p|p|p|p|], b2 as [n2|q|q|q|q|q|q|]; cbn [same_kind] in Hk; try contradiction; cbn [kscan kcount bounded] in *;
      try discriminate; injection Hs1 as <-; injection Hs2 as <-; injection Hn1 as Hn1; injection Hn2 as Hn2.
    - subst. unfold arg_lit_scanfn in *. destruct (n <? h_maxcount h); congruence.
    - unfold arg_int_scanfn in *. rewrite Hn1, Hn2 in *. destruct (Z.eqb_spec n (h_maxcount h)); [cbn in *; congruence|]. destruct v as [s|]; [|cbn in *; congruence].
      destruct (int_convert lm s) as [[x|e]| |]; cbn [bind lift] in *; try discriminate; [|congruence].
      rewrite aset_ok' in Hf1, Hf2 by lia. cbn in *. congruence.
    - unfold arg_dbl_scanfn in *. rewrite Hn1, Hn2 in *. destruct (Z.eqb_spec n (h_maxcount h)); [cbn in *; congruence|]. destruct v as [s|]; [|cbn in *; congruence].
      destruct (strtod s) as [val m0]. destruct (Nat.ltb_spec (List.length s) m0); [discriminate|]. destruct (skipn m0 s); [|cbn in *; congruence].
      rewrite aset_ok' in Hf1, Hf2 by lia. cbn in *. congruence.
    - unfold arg_str_scanfn in *. rewrite Hn1, Hn2 in *. destruct (Z.eqb_spec n (h_maxcount h)); [cbn in *; congruence|]. destruct v as [s|]; [|cbn in *; congruence].
      rewrite aset_ok' in Hf1, Hf2 by lia. cbn in *. congruence.
    - pose proof (fun Hlt => PropFile.C20_file_scan sp (h_maxcount h) p (match v with Some s => s | None => [] end) Hlt) as F1.
      pose proof (fun Hlt => PropFile.C20_file_scan sp (h_maxcount h) q (match v with Some s => s | None => [] end) Hlt) as F2.
      unfold arg_file_scanfn in Hf1, Hf2, F1, F2. rewrite Hn1, Hn2 in *. destruct (Z.eqb_spec n (h_maxcount h)); [cbn in *; congruence|]. destruct v as [s|]; [|cbn in *; congruence].
      destruct F1 as (? & ? & _ & _ & _ & _ & _ & _ & F1); try tauto; [lia|]. destruct F2 as (? & ? & _ & _ & _ & _ & _ & _ & F2); try tauto; [lia|].
      rewrite F1 in Hf1. rewrite F2 in Hf2. cbn in *. congruence.
    - cbn in Hk, Hst. destruct (Z.eq_dec n (h_maxcount h)).
      { unfold arg_date_scanfn in *. rewrite Hn1, Hn2 in *. destruct (Z.eqb_spec n (h_maxcount h)); [cbn in *; congruence|contradiction]. }
      destruct v as [s|]; [|unfold arg_date_scanfn in *; rewrite Hn1, Hn2 in *; destruct (Z.eqb_spec n (h_maxcount h)); cbn in *; congruence].
      destruct (Hv s eq_refl) as [Hcs _].
      destruct (C21_date_scan (h_maxcount h) p s ltac:(lia) ltac:(tauto) Hcs) as (t & _ & A1 & A2).
      destruct (C21_date_scan (h_maxcount h) q s ltac:(lia) ltac:(tauto) Hcs) as (u & _ & C1 & C2). rewrite Hk in C1, C2.
      destruct (arg_strptime_total (date_format p) s t) as [[t' r] Et].
      assert (Dec : (exists t', reads (date_format p) false s t t' []) \/ (forall t', ~ reads (date_format p) false s t t' [])).
      { destruct r as [[|x r]|].
        - left. exists t'. apply arg_strptime_iff; auto.
        - right. intros t0 R. apply arg_strptime_iff in R; auto. congruence.
        - right. intros t0 R. apply arg_strptime_iff in R; auto. congruence. }
      destruct Dec as [[t0 R]|R].
      + destruct (reads_again _ _ _ _ u R Hst) as (u' & R' & _). rewrite (A1 t0 R) in Hf1. rewrite (C1 u' R') in Hf2. cbn in *. congruence.
      + rewrite (A2 R) in Hf1. rewrite C2 in Hf2; [cbn in *; congruence|]. intros u' R'. destruct (reads_again _ _ _ _ t R' Hst) as (t1 & R1 & _). eapply R; eauto.
    - destruct Hk as [Hk1 Hk2]. unfold arg_rex_scanfn in *. rewrite Hn1, Hn2, Hk1, Hk2 in *. destruct (Z.eqb_spec n (h_maxcount h)); [cbn in *; congruence|]. destruct v as [s|]; [|cbn in *; congruence].
      destruct (rexmatch (rex_pattern p) (rex_flags p) s) as [[|]| |]; cbn [bind lift] in *; try discriminate; [|congruence].
      rewrite aset_ok' in Hf1, Hf2 by lia. cbn in *. congruence. }
  subst c2. exists f2, b2'. split; auto. split; auto. split.
  { intros Hne. destruct O1 as [[? _]|[_ ?]]; [contradiction|]. destruct O2 as [[? _]|[_ ?]]; [contradiction|]. auto. }
  intros ->. destruct (scan_accept strtod rexmatch lm sp strtod_ok ints h b1 f1 v b1' n I1 Hv Hs1 Hf1 Hn1) as [_ S1].
  destruct (scan_accept strtod rexmatch lm sp strtod_ok ints h b2 f2 v b2' n I2 Hv Hs2 Hf2 Hn2) as [_ S2].
  destruct v as [s|]; [|auto].
  destruct b1 as [n1|p|p|p|p|p|p|], b2 as [n2|q|q|q|q|q|q|]; cbn [same_kind] in Hk; try contradiction; auto;
    destruct S1 as (v01 & x1 & N1 & D1 & L1), S2 as (v02 & x2 & N2 & D2 & L2); exists v02, x1, x2; (split; [exact N2|]); (split; [|auto]); cbn [denotes again] in *.
  - intros _. cbn [kscan] in Hs1, Hs2. injection Hs1 as <-. injection Hs2 as <-. unfold arg_int_scanfn in *. cbn [kcount] in *. injection Hn1 as Hn1. injection Hn2 as Hn2. rewrite Hn1, Hn2 in *.
    destruct (n =? h_maxcount h); [discriminate|]. destruct (int_convert lm s) as [[x|e]| |] eqn:Ec; cbn [bind lift] in *; try discriminate; [|exfalso; injection Hf1 as _ ->; exact (int_convert_not_zero _ _ _ Ec eq_refl)].
    destruct (aset (int_ival p) n x) eqn:A1; cbn in Hf1; try discriminate. destruct (aset (int_ival q) n x) eqn:A2; cbn in Hf2; try discriminate.
    injection Hf1 as <-. injection Hf2 as <-. cbn [slots int_ival] in L1, L2.
    assert (G : forall l l' (y : @value D), aset l n x = Ok l' -> map VInt l' = lupd (map VInt l) (Z.to_nat n) y -> nth_error (map (@VInt D) l) (Z.to_nat n) <> None -> y = VInt x).
    { intros l l' y A E Hne. destruct (nth_error (map (@VInt D) l) (Z.to_nat n)) as [w|] eqn:Ew; [|contradiction]. clear Hne.
      assert (Hlen : (Z.to_nat n < List.length l)%nat) by (rewrite <- (map_length (@VInt D)); apply nth_error_Some; congruence).
      destruct I1 as [B1 _]. cbn [bounded] in B1. rewrite aset_ok' in A by (unfold zlen; lia). injection A as <-.
      assert (F : nth_error (map (@VInt D) (lupd l (Z.to_nat n) x)) (Z.to_nat n) = Some (VInt x)) by (apply map_nth_error; apply nth_error_lupd_eq; auto).
      rewrite E, nth_lupd, Nat.eqb_refl, Ew in F. congruence. }
    rewrite (G _ _ _ A1 L1), (G _ _ _ A2 L2) by (cbn [slots] in *; congruence). reflexivity.
  - intros _. destruct D1 as (d1 & E1 & ->), D2 as (d2 & E2 & ->). congruence.
  - congruence.
  - intros _. destruct D1 as (b' & e' & B1 & X1 & ->), D2 as (b'' & e'' & B2 & X2 & ->).
    rewrite (PropFile.base_name_unique _ _ _ _ _ B2 B1) in *. rewrite (PropFile.extension_unique _ _ _ X2 X1). reflexivity.
  - intros ->. destruct D1 as (t & t' & -> & R1 & ->), D2 as (u & u' & [= <-] & R2 & ->). rewrite Hk in R2.
    destruct (reads_again _ _ _ _ t' R1 Hst) as (u2 & R3 & Hu). rewrite Hu in R3 by auto. f_equal.
    destruct (Hv s eq_refl) as [Hcs _]. exact (proj1 (C21_date_unique _ _ _ _ _ _ _ Hcs R2 R3)).
  - intros _. destruct D1 as [_ ->], D2 as [_ ->]. reflexivity.
  - contradiction.
Qed.

(** ** Bodies in two runs *)
Definition mark (b : body D) : nat := match kcount b with Some n => Z.to_nat n | None => 0%nat end.
Record twin (ints : bool) (S2 : list (@value D)) (h : hdr) (b1 b2 : body D) : Prop := {
  tw_1 : Inv ints h b1;
  tw_2 : Inv ints h b2;
  tw_kind : same_kind b1 b2;
  tw_steady : steady h b1;
  tw_count : kcount b1 = kcount b2;
  tw_after : forall k, (mark b1 <= k)%nat -> nth_error (slots b2) k = nth_error S2 k;
  tw_before : forall k y1, (k < mark b1)%nat -> nth_error (slots b1) k = Some y1 ->
    exists x2 y2, nth_error S2 k = Some x2 /\ nth_error (slots b2) k = Some y2 /\ again b1 x2 y1 y2
}.
Lemma slots_len ints h (b : body D) : Inv ints h b -> match b with KLit _ | KRem => slots b = [] | _ => zlen (slots b) = h_maxcount h end.
Proof.
  intros [Hb _]. destruct b; cbn in Hb |- *; auto; unfold zlen in *; rewrite ?map_length; try tauto.
  rewrite (files_length _ _ _ (Z.to_nat (h_maxcount h))); lia.
Qed.
Lemma steady_kind h (b b' : body D) : same_kind b b' -> steady h b -> steady h b'.
Proof. destruct b, b'; cbn; try contradiction; auto. congruence. Qed.
Lemma again_kind (b b' : body D) x2 y1 y2 : same_kind b b' -> again b x2 y1 y2 -> again b' x2 y1 y2.
Proof. destruct b, b'; cbn; try contradiction; auto. Qed.
Lemma map_inj {A C} (f : A -> C) : (forall x y, f x = f y -> x = y) -> forall l l', map f l = map f l' -> l = l'.
Proof. intros Hf. induction l as [|x l IH]; intros [|y l']; cbn; try discriminate; auto. intros [= H1 H2]. f_equal; auto. Qed.
Lemma files_inj : forall n b e n' b' e' : list str, List.length b = List.length n -> List.length e = List.length n -> List.length b' = List.length n' -> List.length e' = List.length n' ->
  @files D n b e = files n' b' e' -> n = n' /\ b = b' /\ e = e'.
Proof.
  induction n as [|x n IH]; intros [|y b] [|z e] [|x' n'] [|y' b'] [|z' e']; cbn; intros; try discriminate; auto.
  match goal with H : _ :: _ = _ :: _ |- _ => injection H as -> -> -> H; apply IH in H as (-> & -> & ->); auto end.
Qed.
Lemma body_ext ints h (b b' : body D) : Inv ints h b -> Inv ints h b' -> same_kind b b' -> kcount b = kcount b' -> slots b = slots b' -> b = b'.
Proof.
  intros [I1 _] [I2 _] Hk Hc Hs. destruct b as [c|p|p|p|p|p|p|], b' as [c'|p'|p'|p'|p'|p'|p'|]; cbn in *; try contradiction; try (injection Hc as Hc).
  - congruence.
  - apply map_inj in Hs; [|congruence]. destruct p, p'; cbn in *; congruence.
  - apply map_inj in Hs; [|congruence]. destruct p, p'; cbn in *; congruence.
  - apply map_inj in Hs; [|congruence]. destruct p, p'; cbn in *; congruence.
  - apply files_inj in Hs as (H1 & H2 & H3); [|unfold zlen in *; lia..]. destruct p, p'; cbn in *; congruence.
  - apply map_inj in Hs; [|congruence]. destruct p, p'; cbn in *; congruence.
  - apply map_inj in Hs; [|congruence]. destruct p, p'; cbn in *; destruct Hk; congruence.
  - reflexivity.
Qed.
Lemma nth_ext {A} : forall l l' : list A, (forall k, nth_error l k = nth_error l' k) -> l = l'.
Proof.
  induction l as [|x l IH]; intros [|y l'] H; auto; try (specialize (H 0%nat); discriminate).
  pose proof (H 0%nat) as H0. injection H0 as ->. f_equal. apply IH. intros k. exact (H (S k)).
Qed.
Lemma twin_final ints S2 h b1 b2 : twin ints S2 h b1 b2 -> S2 = slots_reset b1 -> b2 = b1.
Proof.
  intros [H1 H2 Hk Hst Hc Ha Hb] ->. symmetry. apply (body_ext ints h); auto. apply nth_ext. intros k.
  destruct (Nat.ltb_spec k (mark b1)) as [Hlt|Hge].
  - destruct (nth_error (slots b1) k) as [y1|] eqn:E1.
    + destruct (Hb k y1 Hlt E1) as (x2 & y2 & E2 & E3 & G). rewrite E3. f_equal. symmetry.
      destruct b1; cbn [again slots_reset] in *; auto; apply G; congruence.
    + symmetry. apply nth_error_None in E1. apply nth_error_None. pose proof (slots_len _ _ _ H1) as L1. pose proof (slots_len _ _ _ H2) as L2.
      destruct b1, b2; cbn in Hk; try contradiction; try (rewrite L2; cbn; lia); unfold zlen in *; lia.
  - rewrite Ha by auto. destruct b1 as [c|p|p|p|p|p|p|]; cbn [slots_reset]; auto. cbn [slots]. unfold mark in Hge. cbn [kcount] in Hge. destruct H1 as [H1 _]. cbn in H1.
    set (n := Z.to_nat (str_count p)) in *. rewrite <- (firstn_skipn n (str_sval p)) at 1. rewrite !map_app.
    rewrite !nth_error_app2 by (rewrite map_length, ?repeat_length, ?firstn_length; lia).
    rewrite !map_length, repeat_length, firstn_length. f_equal. unfold zlen in *. lia.
Qed.

Section Parse.
Context (ints : bool) (hs : list hdr).
Definition okv (i : nat) (v : option str) : Prop :=
  (forall s, v = Some s -> safe_value ints s) /\
  forall h, nth_error hs i = Some h -> v = None -> h_hasvalue h = false \/ h_hasoptvalue h = true.
Definition Rtwin (S2 : nat -> list (@value D)) (i : nat) (h : hdr) (b1 b2 : body D) : Prop :=
  nth_error hs i = Some h /\ twin ints (S2 i) h b1 b2.
Lemma twin_scan S2 i h b1 b2 v : Rtwin S2 i h b1 b2 -> okv i v ->
  match scan h b1, scan h b2 with
  | None, None => True
  | Some f1, Some f2 => forall b1' c, f1 v = Ok (b1', c) -> exists b2', f2 v = Ok (b2', c) /\ Rtwin S2 i h b1' b2'
  | _, _ => False
  end.
Proof.
  intros [Hi [I1 I2 Hk Hst Hc Ha Hb]] [Hv Hn].
  destruct (scan h b1) as [f1|] eqn:E1; [|destruct b1, b2; cbn in *; try contradiction; try discriminate; auto].
  destruct (scan h b2) as [f2|] eqn:E2; [|destruct b1, b2; cbn in *; try contradiction; try discriminate; auto].
  intros b1' c Hf1. destruct (kcount b1) as [n|] eqn:Hn1; [|destruct b1; discriminate]. symmetry in Hc.
  destruct (scan_two ints h b1 b2 f1 v b1' c n I1 I2 Hk Hst Hn1 Hc Hv E1 Hf1) as (f2' & b2' & E2' & Hf2 & Hrej & Hacc).
  assert (f2' = f2) by congruence. subst f2'. exists b2'. split; auto. split; auto.
  destruct (Z.eq_dec c 0) as [->|Hne].
  2: { destruct (Hrej Hne) as [-> ->]. constructor; auto. congruence. }
  clear Hrej. specialize (Hacc eq_refl).
  destruct (scan_inv strtod rexmatch lm sp strtod_ok ints h b1 f1 v I1 Hv E1) as (b1x & c1 & X1 & J1 & O1). rewrite Hf1 in X1. injection X1 as <- <-.
  destruct (scan_inv strtod rexmatch lm sp strtod_ok ints h b2 f2 v I2 Hv E2) as (b2x & c2 & X2 & J2 & O2). rewrite Hf2 in X2. injection X2 as <- <-.
  destruct O1 as [(_ & n1 & K1 & K1' & Hlt)|[? _]]; [|contradiction]. rewrite Hn1 in K1. injection K1 as <-.
  destruct O2 as [(_ & n2 & K2 & K2' & _)|[? _]]; [|contradiction]. rewrite Hc in K2. injection K2 as <-.
  destruct (scan_accept strtod rexmatch lm sp strtod_ok ints h b1 f1 v b1' n I1 Hv E1 Hf1 Hn1) as [S1 _].
  destruct (scan_accept strtod rexmatch lm sp strtod_ok ints h b2 f2 v b2' n I2 Hv E2 Hf2 Hc) as [S2' _].
  assert (N0 : 0 <= n) by (destruct I1 as [B1 _]; destruct b1; cbn in B1, Hn1; try discriminate; injection Hn1 as <-; lia).
  assert (M : mark b1 = Z.to_nat n) by (unfold mark; rewrite Hn1; auto).
  assert (M' : mark b1' = S (Z.to_nat n)) by (unfold mark; rewrite K1'; lia).
  assert (Hkk : same_kind b1' b2').
  { destruct b1, b1', b2, b2'; cbn in *; try contradiction; auto; intuition congruence. }
  constructor; auto; try congruence; try (eapply steady_kind; eauto; fail).
  - intros k Hk'. rewrite M' in Hk'. rewrite <- Ha by (rewrite M; lia).
    destruct v as [s|].
    + destruct b1; try (destruct Hacc as [_ ->]; auto; fail); destruct Hacc as (x2 & y1 & y2 & _ & _ & _ & ->); rewrite nth_lupd; destruct (Nat.eqb_spec (Z.to_nat n) k); auto; lia.
    + destruct Hacc as [_ ->]. auto.
  - intros k y1' Hk' Hy. rewrite M' in Hk'.
    assert (Keep : slots b1' = slots b1 /\ slots b2' = slots b2 -> (match b1 with KStr _ => False | _ => True end) ->
      exists x2 y2, nth_error (S2 i) k = Some x2 /\ nth_error (slots b2') k = Some y2 /\ again b1' x2 y1' y2).
    { intros [Q1 Q2] Hns. rewrite Q1 in Hy. rewrite Q2. destruct (Nat.ltb_spec k (mark b1)) as [Hl|Hg].
      - destruct (Hb k y1' Hl Hy) as (x2 & y2 & G1 & G2 & G3). exists x2, y2. split; auto. split; auto. eapply again_kind; eauto.
      - assert (k = Z.to_nat n) by (rewrite M in Hg; lia). subst k.
        pose proof (slots_len _ _ _ I1) as L1. pose proof (slots_len _ _ _ I2) as L2.
        assert (Hlen : List.length (slots b2) = List.length (slots b1)) by (destruct b1, b2; cbn in Hk; try contradiction; try (rewrite L1, L2; auto); unfold zlen in *; lia).
        destruct (nth_error (slots b2) (Z.to_nat n)) as [y2|] eqn:Ey.
        + exists y2, y2. rewrite <- Ha by (rewrite M; lia). split; auto. split; auto. apply (again_kind b1); auto. destruct b1; cbn; auto; contradiction.
        + exfalso. apply nth_error_None in Ey. assert (Z.to_nat n < List.length (slots b1))%nat by (apply nth_error_Some; congruence). lia. }
    destruct v as [s|].
    + destruct b1 as [m1|p|p|p|p|p|p|] eqn:Eb; try (apply Keep; auto; fail);
      destruct Hacc as (x2 & y1 & y2 & G1 & G2 & G3 & G4); rewrite G3 in Hy; rewrite G4, nth_lupd; rewrite nth_lupd in Hy;
      destruct (Nat.eqb_spec (Z.to_nat n) k) as [<-|Hne];
      try (rewrite G1; exists x2, y2; split; [rewrite <- Ha by (rewrite M; lia); exact G1|]; split; [reflexivity|]; eapply again_kind; [exact S1|]; destruct (nth_error _ (Z.to_nat n)) in Hy; [injection Hy as <-; exact G2|discriminate]);
      (destruct (Hb k y1' ltac:(rewrite M; lia) Hy) as (x2' & y2' & F1 & F2 & F3); exists x2', y2'; split; auto; split; auto; eapply again_kind; [exact S1|exact F3]).
    + apply Keep; auto. destruct b1; auto. destruct Hst as [Hs1 Hs2]. destruct (Hn h Hi eq_refl); congruence.
Qed.
Lemma twin_check S2 i h (b1 b2 : body D) : Rtwin S2 i h b1 b2 -> kcheck h b1 = kcheck h b2.
Proof.
  intros [_ [_ _ Hk _ Hc _ _]]. destruct b1, b2; cbn in *; try contradiction; auto; injection Hc as Hc; unfold arg_int_checkfn; rewrite Hc; auto.
Qed.
(** Kinds do not change in a parse. *)
Definition Rkind (B0 : nat -> body D) (i : nat) (h : hdr) (b1 b2 : body D) : Prop := b1 = b2 /\ same_kind (B0 i) b1 /\ Inv ints h b1.
Lemma kind_scan B0 i h b1 b2 v : Rkind B0 i h b1 b2 -> okv i v ->
  match scan h b1, scan h b2 with
  | None, None => True
  | Some f1, Some f2 => forall b1' c, f1 v = Ok (b1', c) -> exists b2', f2 v = Ok (b2', c) /\ Rkind B0 i h b1' b2'
  | _, _ => False
  end.
Proof.
  intros (<- & Hk & HI) [Hv _]. destruct (scan h b1) as [f|] eqn:E; auto. intros b' c Hf. exists b'. split; auto. split; auto.
  destruct (scan_inv strtod rexmatch lm sp strtod_ok ints h b1 f v HI Hv E) as (bx & cx & X & J & O). rewrite Hf in X. injection X as <- <-. split; auto.
  destruct O as [(-> & n & K & _)|[_ ->]]; auto. destruct (scan_accept strtod rexmatch lm sp strtod_ok ints h b1 f v b' n HI Hv E Hf K) as [S1 _]. eapply same_kind_trans; eauto.
Qed.
End Parse.
End Twice.
