(** C76: every text that arg_parse leaves in the table is an argument or the end of one. (In C: the char pointers point into the
    arguments; nothing is copied. So the texts stay as long as the arguments do.) *)
From Verif Require Import Base IntModel IntSpec IntProofs FileModel FileSpec DateModel DateSpec GetoptModel ParseModel ParseSpec GetoptProofs ParseIdeal ParseProofs ParseFacts ParseObserve ParseSafe ParseLemmas ArgModel KindsSpec KindsProofs PropKinds CommandSpec CommandProofs PropCommand ReportSpec ReportProofs PropReport.
From Verif Require ExTable.
From Coq Require Import ZArith List Ascii String Bool Lia.
Import ListNotations.
Open Scope Z_scope.

(** [s] is the end of [w] (perhaps all of it, perhaps nothing). *)
Definition end_of (w s : str) : Prop := exists p, w = p ++ s.
Definition from (args : list str) (s : str) : Prop := exists w, In w args /\ end_of w s.
(** The texts of a slot, relative to those of another: a text of its own, or a file name and its parts. *)
Definition made_of {D} (args : list str) (v : value (D := D)) : Prop :=
  match v with
  | VText s => from args s
  | VFile n b x => from args n /\ end_of n b /\ end_of b x
  | _ => True
  end.

Lemma end_refl w : end_of w w.
Proof. exists []. reflexivity. Qed.
Lemma end_trans a b c : end_of a b -> end_of b c -> end_of a c.
Proof. intros (p & ->) (q & ->). exists (p ++ q). rewrite app_assoc. reflexivity. Qed.
Lemma end_cons c w s : end_of w (c :: s) -> end_of w s.
Proof. intros (p & ->). exists (p ++ [c]). rewrite <- app_assoc. reflexivity. Qed.
Lemma end_app w p s : end_of w (p ++ s) -> end_of w s.
Proof. intros (q & ->). exists (q ++ p). rewrite <- app_assoc. reflexivity. Qed.
Lemma from_more args args' s : (forall w, In w args -> In w args') -> from args s -> from args' s.
Proof. intros H (w & I & E). exists w. auto. Qed.
Lemma from_in args s : In s args -> from args s.
Proof. intro H. exists s. split; [exact H|apply end_refl]. Qed.

Definition text_of_event (ev : event) : option str := match ev with EvScan _ v | EvErr _ v => v end.

Section Reading.
Context (t : list hdr).

Lemma long_texts a body rest evs rest' : long_reading t a body rest evs rest' -> end_of a body ->
  (forall ev s, In ev evs -> text_of_event ev = Some s -> from (a :: rest) s) /\ (forall w, In w rest' -> In w rest).
Proof.
  intros H E.
  assert (A : forall rest, from (a :: rest) a) by (intro; apply from_in; left; reflexivity).
  assert (B : forall rest, from (a :: rest) []) by (intro; exists a; split; [left; reflexivity|exists a; rewrite app_nil_r; reflexivity]).
  destruct H; (split; [intros ev s G1 G2; cbn in G1; repeat (destruct G1 as [<-|G1]; [cbn in G2; try discriminate; try (injection G2 as <-)|]); try elim G1; auto
    |intros w0 Hw; first [exact Hw|right; exact Hw]]).
  - exists a. split; [left; reflexivity|]. apply end_app in E. apply end_cons in E. exact E.
  - apply from_in. right. left. reflexivity.
Qed.
Lemma cluster_texts a cs rest evs rest' : cluster_reading t a cs rest evs rest' -> end_of a cs ->
  (forall ev s, In ev evs -> text_of_event ev = Some s -> from (a :: rest) s) /\ (forall w, In w rest' -> In w rest).
Proof.
  induction 1 as [rest|c cs i h rest evs rest' Hc Hf Ht Hr IH|c cs rest evs rest' Hc Hf Hr IH|c i h rest Hc Hf Ht|c v i h rest Hc Hf Ht Hv|c v i h rest Hc Hf Ht|c i h Hc Hf Ht|body rest evs rest' Hb Hl]; intro E.
  - split; [intros ev s []|auto].
  - destruct (IH (end_cons _ _ _ E)) as [K1 K2]. split; [|exact K2]. intros ev s [<-|Hi] Hx; [discriminate|eauto].
  - destruct (IH (end_cons _ _ _ E)) as [K1 K2]. split; [|exact K2]. intros ev s [<-|Hi] Hx; [discriminate|eauto].
  - split; [|auto]. intros ev s [<-|[]] Hx; discriminate.
  - split; [|auto]. intros ev s [<-|[]] Hx. injection Hx as <-. exists a. split; [left; reflexivity|exact (end_cons _ _ _ E)].
  - split; [|intros w Hw; right; exact Hw]. intros ev s [<-|[]] Hx. injection Hx as <-. apply from_in. right. left. reflexivity.
  - split; [|auto]. intros ev s [<-|[]] Hx. injection Hx as <-. apply from_in. left. reflexivity.
  - exact (long_texts a body rest evs rest' Hl (end_cons _ _ _ E)).
Qed.
Lemma reading_texts posix args evs pos : reading t posix args evs pos ->
  (forall ev s, In ev evs -> text_of_event ev = Some s -> from args s) /\ (forall w, In w pos -> In w args).
Proof.
  induction 1 as [|rest|a rest Hp Hw|a rest evs pos Hp Hw Hr [K1 K2]|cs rest evs rest' evs' pos Hc Hd Hcl Hr [K1 K2]].
  - split; [intros ev s []|auto].
  - split; [intros ev s []|intros w Hw; right; exact Hw].
  - split; [intros ev s []|auto].
  - split; [intros ev s Hi Hx; apply (from_more rest); [intros w H; right; exact H|eauto]|]. intros w [<-|Hi]; [left; reflexivity|right; auto].
  - destruct (cluster_texts _ _ _ _ _ Hcl (end_cons "-" _ _ (end_refl _))) as [K3 K4]. split; [|intros w Hi; right; auto].
    intros ev s Hi Hx. apply in_app_or in Hi as [Hi|Hi]; [eauto|]. apply (from_more rest'); [intros w H; right; auto|eauto].
Qed.
End Reading.

Lemma base_end sp1 sp2 f b : base_name sp1 sp2 f b -> end_of f b.
Proof.
  assert (A : forall c s u, after_last c s u -> end_of s u) by (intros c s u (d & -> & _); exists (d ++ [c]); rewrite <- app_assoc; reflexivity).
  intros [b' L _|b' L _]; [|exists f; rewrite app_nil_r; reflexivity]. destruct L as [u H|u _ H|_ _]; [eauto|eauto|apply end_refl].
Qed.
Lemma ext_end b x : extension b x -> end_of b x.
Proof. intros [e (p & u & E & _)|_]; [exists p; exact E|exists b; rewrite app_nil_r; reflexivity]. Qed.

Section Kinds.
Context {D : Type}.
Context (strtod : str -> D * nat).
Context (rexmatch : str -> Z -> str -> res bool).
Context (sp : seps).
Hypothesis Hd : strtod_contract strtod.
Notation lm := Long64.
Notation parse := (karg_parse strtod rexmatch lm sp).
Notation reached := (reached strtod rexmatch lm sp).
Notation safe_value := (safe_value lm).
Notation denotes := (denotes strtod rexmatch lm sp).

Lemma denotes_made args b v0 s v : from args s -> denotes b v0 s v -> made_of args v.
Proof.
  intros F. unfold KindsSpec.denotes. destruct b; try (intros []; fail).
  - intros (n & -> & _). exact I.
  - intros (d & _ & ->). exact I.
  - intros ->. exact F.
  - intros (bn & ex & B & X & ->). cbn. split; [exact F|]. split; [exact (base_end _ _ _ _ B)|exact (ext_end _ _ X)].
  - intros (u & u' & _ & _ & ->). exact I.
  - intros (_ & ->). exact F.
Qed.

Lemma kept_in (e : entry (body D)) vs ws : kept strtod rexmatch lm sp e vs ws -> forall v, In v ws -> In v vs.
Proof.
  induction 1 as [|vs ws v H IH Hf|vs ws v c H IH Hr]; intros x Hx; [exact Hx| |].
  - apply in_app_or in Hx as [Hx|Hx]; apply in_or_app; [left; auto|right; exact Hx].
  - apply in_or_app. left. auto.
Qed.
Lemma occurrences_in i evs v : In v (occurrences i evs) -> exists ev, In ev evs /\ text_of_event ev = v.
Proof.
  unfold occurrences. intro H. apply in_flat_map in H as (ev & Hi & H). exists ev. split; [exact Hi|].
  destruct ev as [j w|c w]; [|elim H]. destruct (Nat.eqb j i); [|elim H]. destruct H as [<-|[]]. reflexivity.
Qed.

(** Every slot that is not what it was when the parse began, and every slot that was given a text, is made of the arguments. *)
Theorem C76_texts_of_arguments :
  forall ints posix cap tab rest jo jc jp fuel argv h s en a0 h' s' tab' en',
  reached ints tab -> call cap tab en h argv a0 rest fuel -> Forall (safe_value ints) rest ->
  parse posix jo jc jp fuel (zlen (a0 :: rest)) argv h s tab en = Ok (h', s', tab', en') ->
  (forall i e e' k v, nth_error tab i = Some e -> counting e -> nth_error tab' i = Some e' -> nth_error (slots (e_body e')) k = Some v ->
    made_of rest v \/ nth_error (slots_reset (e_body e)) k = Some v) /\
  (forall er text, In er (recorded en') -> err_argval er = Some text -> from rest text).
Proof.
  intros ints posix cap tab rest jo jc jp fuel argv h s en a0 h' s' tab' en' Ht Hc Hv Hp.
  assert (R : exists evs pos, reading (map e_hdr tab) posix rest evs pos).
  { pose proof (reached_ready strtod rexmatch lm sp Hd _ _ Ht) as Ht'.
    destruct (parse_ok_safe strtod rexmatch lm sp Hd _ _ _ _ _ _ _ _ _ _ _ _ _ _ _ _ _ _ Ht' Hc Hv Hp) as (evs & pos & _ & Hr & _). apply reading_iff in Hr. eauto. }
  destruct R as (evs & pos & R). destruct (reading_texts _ _ _ _ _ R) as [K1 K2].
  destruct (C61_report strtod rexmatch sp Hd ints posix cap tab rest jo jc jp fuel argv h s en a0 evs pos Ht Hc Hv R) as (h1 & s1 & tab1 & en1 & held & errs & E & Rep & Ho & E1 & E2).
  rewrite E in Hp. injection Hp as -> -> -> ->. destruct Rep as (runs & left & e1 & e2 & Oe & Hand & Le & Fin). split.
  - intros i e e' k v N1 Cn N2 N3. destruct Hand as (Ep & L1 & L2 & Hh). destruct Ho as [_ Ho].
    destruct (nth_error held i) as [ws|] eqn:Nh; [|apply nth_error_None in Nh; pose proof (proj1 (nth_error_Some tab i) ltac:(congruence)); lia].
    destruct (nth_error runs i) as [run|] eqn:Nr; [|apply nth_error_None in Nr; pose proof (proj1 (nth_error_Some tab i) ltac:(congruence)); lia].
    destruct (Ho i e ws e' N1 Nh N2) as [_ St]. destruct (Hh i e run ws N1 Nr Nh) as (_ & _ & Hk).
    destruct (St Cn) as [_ [St1 St2]]. destruct (Hk Cn) as ((ws0 & Hkept & ->) & _).
    specialize (St2 k). destruct (nth_error (ws0 ++ map Some run) k) as [[x|]|] eqn:Nx.
    + assert (F : from rest x).
      { apply nth_error_In in Nx. apply in_app_or in Nx as [Nx|Nx].
        - apply (kept_in _ _ _ Hkept) in Nx. apply occurrences_in in Nx as (ev & Hi & Hx). eauto.
        - apply in_map_iff in Nx as (y & [= ->] & Hy). apply from_in. apply K2. rewrite Ep. apply in_or_app. left. apply in_concat. exists run. split; [eapply nth_error_In; eauto|exact Hy]. }
      destruct (e_body e) eqn:Eb; [right; rewrite St1 in N3; exact N3|..]; try (destruct St2 as (v0 & v1 & A1 & A2 & A3); left; rewrite N3 in A2; injection A2 as <-; exact (denotes_made rest _ v0 x v F A3)).
    + right. rewrite <- N3. symmetry. destruct (e_body e); exact St2.
    + right. rewrite <- N3. symmetry. destruct (e_body e); exact St2.
  - intros er text Hi Ha. rewrite E2 in Hi.
    assert (A : In er errs \/ err_argval er = None).
    { unfold shown in Hi. destruct (zlen errs <=? cap); [left; exact Hi|]. apply in_app_or in Hi as [Hi|[<-|[]]]; [left|right; reflexivity].
      rewrite <- (firstn_skipn (Z.to_nat (cap - 1)) errs). apply in_or_app. left. exact Hi. }
    destruct A as [A|A]; [|congruence]. destruct Fin as [[_ ->]|[_ Sh]].
    + apply in_app_or in A as [A|A].
      * destruct Oe as (l & -> & L & J). apply in_concat in A as (es & Hes & A). apply In_nth_error in Hes as (k & Nk).
        destruct (nth_error evs k) as [ev|] eqn:Ne; [|apply nth_error_None in Ne; pose proof (proj1 (nth_error_Some l k) ltac:(congruence)); lia].
        pose proof (nth_error_In _ _ Ne) as Iev. specialize (J k ev es Ne Nk).
        destruct J as [c v|i e v _ _|i e v ws _ _ _ _|i e v ws c _ _ _ _]; (destruct A as [<-|[]] || elim A); cbn in Ha; exact (K1 _ _ Iev Ha).
      * destruct Hand as (Ep & _). assert (L : forall w, In w left -> In w rest) by (intros w Hw; apply K2; rewrite Ep; apply in_or_app; right; exact Hw).
        assert (U : forall more, In er (map unexpected more) -> In text more).
        { intros more Hm. apply in_map_iff in Hm as (y & <- & Hy). cbn in Ha. injection Ha as <-. exact Hy. }
        destruct Le as [|a more _|i e ws a more c _ _ _ _ _ _]; [elim A| |].
        -- apply from_in. apply L. apply U. exact A.
        -- apply from_in. apply L. destruct A as [<-|A]; [cbn in Ha; injection Ha as <-; left; reflexivity|right; apply U; exact A].
    + destruct Sh as (l & -> & L & J). apply in_concat in A as (es & Hes & A). apply In_nth_error in Hes as (k & Nk).
      destruct Hand as (_ & _ & L2 & _).
      destruct (nth_error tab k) as [e|] eqn:Ne; [|apply nth_error_None in Ne; pose proof (proj1 (nth_error_Some l k) ltac:(congruence)); lia].
      destruct (nth_error held k) as [ws|] eqn:Nh; [|apply nth_error_None in Nh; pose proof (proj1 (nth_error_Some l k) ltac:(congruence)); lia].
      destruct (J k e ws es Ne Nh Nk) as [(_ & _ & ->)|(_ & ->)]; [|elim A]. destruct A as [<-|[]]. discriminate.
Qed.
End Kinds.

(** In ["-odir/a.tar.gz"], the file name, base name and extension are ends of the argument; likewise in a wrong command line. *)
Definition ex_line : list string := ["-odir/a.tar.gz"; "-vn12"; "x"; "--num=7"; "y"]%string.
Lemma ex_line_safe : Forall (safe_value Long64 true) (map lit ex_line).
Proof. apply safe_values; vm_compute; reflexivity. Qed.
Example C76_case : exists h' s' tab' en',
  karg_parse ExTable.strtod ExTable.rexmatch Long64 unix_seps false ExTable.jo ExTable.jc ExTable.jp (S (total (args ("p"%string :: ex_line)))) (zlen (lit "p" :: map lit ex_line)) 1 (ExTable.heap0 ("p"%string :: ex_line)) ExTable.s0 ExTable.tab (ExTable.en 4) = Ok (h', s', tab', en') /\
  (exists e, nth_error tab' 2 = Some e /\ slots (e_body e) = [VFile (lit "dir/a.tar.gz") (lit "a.tar.gz") (lit ".gz")]) /\
  (exists e, nth_error tab' 3 = Some e /\ slots (e_body e) = [VText (lit "x"); VText (lit "y")]) /\
  (forall i e e' k v, nth_error ExTable.tab i = Some e -> counting e -> nth_error tab' i = Some e' -> nth_error (slots (e_body e')) k = Some v ->
    made_of (map lit ex_line) v \/ nth_error (slots_reset (e_body e)) k = Some v).
Proof.
  assert (Hy : match karg_parse ExTable.strtod ExTable.rexmatch Long64 unix_seps false ExTable.jo ExTable.jc ExTable.jp (S (total (args ("p"%string :: ex_line)))) (zlen (lit "p" :: map lit ex_line)) 1 (ExTable.heap0 ("p"%string :: ex_line)) ExTable.s0 ExTable.tab (ExTable.en 4) with
    Ok (_, _, t, _) => (exists e, nth_error t 2 = Some e /\ slots (e_body e) = [VFile (lit "dir/a.tar.gz") (lit "a.tar.gz") (lit ".gz")]) /\
      (exists e, nth_error t 3 = Some e /\ slots (e_body e) = [VText (lit "x"); VText (lit "y")]) | _ => False end)
    by (vm_compute; split; eexists; split; reflexivity).
  destruct (karg_parse ExTable.strtod ExTable.rexmatch Long64 unix_seps false ExTable.jo ExTable.jc ExTable.jp (S (total (args ("p"%string :: ex_line)))) (zlen (lit "p" :: map lit ex_line)) 1 (ExTable.heap0 ("p"%string :: ex_line)) ExTable.s0 ExTable.tab (ExTable.en 4)) as [[[[h' s'] tab'] en']| |] eqn:E; [|elim Hy..]. exists h', s', tab', en'. split; [reflexivity|].
  destruct Hy as [H1 H2]. split; [exact H1|]. split; [exact H2|].
  assert (Hc : call 4 ExTable.tab (ExTable.en 4) (ExTable.heap0 ("p"%string :: ex_line)) 1 (lit "p") (map lit ex_line) (S (total (args ("p"%string :: ex_line))))).
  { destruct (ExTable.call_ok "p" ex_line 4 0 ltac:(lia) eq_refl) as [K1 K2 K3 K4 K5]. constructor; auto. }
  exact (proj1 (C76_texts_of_arguments ExTable.strtod ExTable.rexmatch unix_seps ex_contract true false 4 ExTable.tab (map lit ex_line) ExTable.jo ExTable.jc ExTable.jp _ _ _ ExTable.s0 _ _
    h' s' tab' en' ex_reached Hc ex_line_safe E)).
Qed.
Example C76_case_errors : forall h' s' tab' en',
  karg_parse ExTable.strtod ExTable.rexmatch Long64 unix_seps false ExTable.jo ExTable.jc ExTable.jp (S (total (args ("p"%string :: ex_wrong)))) (zlen (lit "p" :: map lit ex_wrong)) 1 (ExTable.heap0 ("p"%string :: ex_wrong)) ExTable.s0 ExTable.tab (ExTable.en 20) = Ok (h', s', tab', en') ->
  forall er text, In er (recorded en') -> err_argval er = Some text -> from (map lit ex_wrong) text.
Proof.
  intros h' s' tab' en' E. exact (proj2 (C76_texts_of_arguments ExTable.strtod ExTable.rexmatch unix_seps ex_contract true false 20 ExTable.tab (map lit ex_wrong) ExTable.jo ExTable.jc ExTable.jp _ _ _ ExTable.s0 _ _
    h' s' tab' en' ex_reached (ex_wrong_call 20 ltac:(lia)) ex_wrong_safe E)).
Qed.

Print Assumptions C76_texts_of_arguments.
