(** C90: entries with functions of the program's own, which share its variables: which functions arg_parse calls, in which order, with
    which arguments, and what it makes of their answers. *)
From Verif Require Import Base IntModel FileModel DateModel GetoptModel ParseModel ParseSpec LongOnlySpec LongOnlyFacts GetoptProofs ParseIdeal ParseProofs ParseFacts ParseObserve ParseLemmas ArgModel ReportSpec ReportProofs ShareModel ShareSpec ShareProofs.
From Verif Require ExTable.
From Coq Require Import ZArith List Ascii String Bool Lia.
Import ListNotations.
Open Scope Z_scope.

(** A call of arg_parse, as in [call]. *)
Record share_call (cap : Z) (tab : list hdr) (en : arg_end) (h : heap) (argv : nat) (a0 : str) (rest : list str) (fuel : nat) : Prop := {
  sc_end : wf_end cap en;
  sc_hdrs : Forall good_hdr tab;
  sc_args : Forall cstr rest;
  sc_argv : ParseProofs.holds h argv (a0 :: rest);
  sc_fuel : (total rest < fuel)%nat
}.
(** What is seen afterwards: the state of the program, the return value, the recorded errors. *)
Definition seen {G} (r : res (heap * gst * G * arg_end)) : res (G * Z * list err) :=
  '(h, s, g, en) <- r ;; Ok (g, end_count en, recorded en).

Section Share.
Context {G : Type}.
Context (scanf : nat -> option (option str -> G -> res (G * Z))).
Context (checkf : nat -> option (G -> res (G * Z))).
Context (resetf : nat -> option (G -> res G)).
Notation act := (acts scanf checkf resetf).

Lemma sim_seen cap h (m : res (G * list err)) r : sim (Rshare cap h) m r -> seen r = ('(g, errs) <- m ;; Ok (g, Z.min cap (zlen errs), shown cap errs)).
Proof.
  destruct m as [[g errs]|u|]; destruct r as [[[[h' s'] g'] en']| |]; cbn; intros H; try contradiction; try congruence.
  destruct H as (_ & -> & HR). cbn in *. rewrite (r_count _ _ _ HR), (r_rec _ _ _ HR). reflexivity.
Qed.

(** The program and the errors after arg_parse are those of the calls of ShareSpec.v: every reset function, in the order of the table;
    the scan functions for the options, in the order of the command line; those for the other arguments; and if there was no error,
    every check function, in the order of the table. The error table shows of the errors what fits. *)
Theorem C90_shared :
  forall posix cap tab rest jo jc jp fuel argv h s g en a0 evs pos,
  share_call cap tab en h argv a0 rest fuel -> reading tab posix rest evs pos ->
  seen (share_parse tab scanf checkf resetf posix jo jc jp fuel (zlen (a0 :: rest)) argv h s g en)
  = ('(g, errs) <- share_spec act tab evs pos g ;; Ok (g, Z.min cap (zlen errs), shown cap errs)).
Proof.
  intros posix cap tab rest jo jc jp fuel argv h s g en a0 evs pos [H1 H2 H3 H4 H5] Hr. apply reading_iff in Hr.
  apply (sim_seen cap (h ++ [BFreed; BFreed; BFreed])). unfold share_parse.
  rewrite <- read_args_default in Hr. apply share_finishes; auto.
  pose proof (read_args_in_len false posix tab rest) as Hl. rewrite Hr in Hl. cbn in Hl. lia.
Qed.
(** Without a program name (argc = 0): reset and check only. *)
Theorem C90_empty :
  forall posix cap tab jo jc jp fuel argv h s g en, wf_end cap en ->
  seen (share_parse tab scanf checkf resetf posix jo jc jp fuel 0 argv h s g en)
  = ('(g, errs) <- (g <- all_reset act (seq 0 (List.length tab)) g ;; all_checked act (seq 0 (List.length tab)) g) ;; Ok (g, Z.min cap (zlen errs), shown cap errs)).
Proof. intros. apply (sim_seen cap h). apply share_empty; auto. Qed.

(** If the functions return, arg_parse returns, and has released what it allocated - unless an argument begins with one dash and ends in
    another one (as in C12). *)
Lemma spec_total (Hact : forall k f g, act k = Some f -> exists g' c, f g = Ok (g', c)) tab evs pos g : exists g' errs, share_spec act tab evs pos g = Ok (g', errs).
Proof.
  assert (Ha : forall k o v g, exists g' e, answer act k o v g = Ok (g', e)).
  { intros k o v g0. unfold answer. destruct (act k) as [f|] eqn:E; [|eauto]. destruct (Hact k f g0 E) as (g' & c & ->). cbn [bind]. eauto. }
  assert (Hr : forall is g, exists g', all_reset act is g = Ok g').
  { induction is as [|i is IH]; intros g0; cbn [all_reset]; [eauto|]. destruct (Ha (CReset i) PEnd None g0) as (g1 & e & ->). cbn [bind]. apply IH. }
  assert (Ho : forall evs g, exists g' e, all_options act evs g = Ok (g', e)).
  { induction evs0 as [|[i v|c v] l IH]; intros g0; cbn [all_options]; [eauto| |].
    - destruct (Ha (CScan i v) (PEntry i) v g0) as (g1 & e & ->). cbn [bind]. destruct (IH g1) as (g2 & e2 & ->). cbn [bind]. eauto.
    - destruct (IH g0) as (g2 & e2 & ->). cbn [bind]. eauto. }
  assert (Hf : forall i args rej g, exists g' l r, offer act i args rej g = Ok (g', l, r)).
  { intros i. induction args as [|a args IH]; intros rej g0; cbn [offer]; [eauto|]. destruct (act (CScan i (Some a))) as [f|] eqn:E; [|eauto].
    destruct (Hact _ _ g0 E) as (g1 & c & ->). cbn [bind]. destruct (c =? 0); eauto. }
  assert (Hp : forall is args rej g, exists g' e, all_positional act is args rej g = Ok (g', e)).
  { induction is as [|i is IH]; intros [|a args] rej g0; cbn [all_positional]; try (eauto; fail).
    destruct (Hf i (a :: args) rej g0) as (g1 & l & r & ->). cbn [bind]. apply IH. }
  assert (Hc : forall is g, exists g' e, all_checked act is g = Ok (g', e)).
  { induction is as [|i is IH]; intros g0; cbn [all_checked]; [eauto|]. destruct (Ha (CCheck i) (PEntry i) None g0) as (g1 & e & ->). cbn [bind].
    destruct (IH g1) as (g2 & e2 & ->). cbn [bind]. eauto. }
  unfold share_spec. destruct (Hr (seq 0 (List.length tab)) g) as (g1 & ->). cbn [bind]. destruct (Ho evs g1) as (g2 & e1 & ->). cbn [bind].
  destruct (Hp (without_options tab) pos None g2) as (g3 & e2 & ->). cbn [bind]. destruct (e1 ++ e2); eauto.
Qed.
Theorem C90_returns :
  forall posix cap tab rest jo jc jp fuel argv h s g en a0,
  share_call cap tab en h argv a0 rest fuel -> (forall a, In a rest -> ~ dash_tailed a) ->
  (forall k f g, act k = Some f -> exists g' c, f g = Ok (g', c)) ->
  exists s' g' en', share_parse tab scanf checkf resetf posix jo jc jp fuel (zlen (a0 :: rest)) argv h s g en = Ok (h ++ [BFreed; BFreed; BFreed], s', g', en').
Proof.
  intros posix cap tab rest jo jc jp fuel argv h s g en a0 [H1 H2 H3 H4 H5] Hd Hact.
  destruct (read_args posix tab rest) as [evs [pos|]] eqn:E.
  2:{ exfalso. destruct (read_args_hangs posix tab rest) as (a & Ha & Hda); [rewrite E; reflexivity|]. eapply Hd; eauto. }
  rewrite <- read_args_default in E.
  assert (Hs := share_finishes tab scanf checkf resetf cap posix jo jc jp false fuel argv h s g en a0 rest evs pos H1 H2 H3 H4 E).
  pose proof (read_args_in_len false posix tab rest) as Hl. rewrite E in Hl. cbn in Hl. specialize (Hs ltac:(lia)).
  destruct (spec_total Hact tab evs pos g) as (g' & errs & Eg). rewrite Eg in Hs. unfold share_parse.
  destruct (share_parse_in tab scanf checkf resetf posix jo jc jp false fuel (zlen (a0 :: rest)) argv h s g en) as [[[[h1 s1] g1] en1]| |]; cbn in Hs; try contradiction.
  destruct Hs as (-> & <- & _). eauto.
Qed.

(** An option that undoes another one: if every option just sets the program's state, the last one of the command line counts, however the
    options are written. *)
Theorem C90_last :
  forall (val : nat -> option str -> G) posix cap tab rest jo jc jp fuel argv h s g en a0 evs i v,
  share_call cap tab en h argv a0 rest fuel -> reading tab posix rest (evs ++ [EvScan i v]) [] ->
  (forall i, scanf i = Some (fun v _ => Ok (val i v, 0))) -> (forall i, checkf i = None) -> (forall i, resetf i = None) ->
  (forall c v, ~ In (EvErr c v) evs) ->
  seen (share_parse tab scanf checkf resetf posix jo jc jp fuel (zlen (a0 :: rest)) argv h s g en) = Ok (val i v, 0, []).
Proof.
  intros val posix cap tab rest jo jc jp fuel argv h s g en a0 evs i v Hc Hr Hs Hk Hz He.
  rewrite (C90_shared _ cap _ _ _ _ _ _ _ _ _ _ _ _ _ _ Hc Hr).
  assert (Hzero : forall l g, all_reset act l g = Ok g).
  { induction l as [|x l IH]; intros g0; cbn [all_reset]; auto. unfold answer. cbn [acts]. rewrite Hz. cbn [bind]. apply IH. }
  assert (Hck : forall l g, all_checked act l g = Ok (g, [])).
  { induction l as [|x l IH]; intros g0; cbn [all_checked]; auto. unfold answer. cbn [acts]. rewrite Hk. cbn [bind]. rewrite IH. reflexivity. }
  assert (Ho : forall evs g, (forall c v, ~ In (EvErr c v) evs) -> all_options act (evs ++ [EvScan i v]) g = Ok (val i v, [])).
  { induction evs0 as [|[j w|c w] l IH]; intros g0 Hn; cbn [app all_options].
    - unfold answer. cbn [acts]. rewrite Hs. reflexivity.
    - unfold answer. cbn [acts]. rewrite Hs. cbn [bind]. rewrite IH; [reflexivity|]. intros c w' Hi. apply (Hn c w'). right. auto.
    - exfalso. apply (Hn c w). left. reflexivity. }
  unfold share_spec. rewrite Hzero. cbn [bind]. rewrite Ho by auto. cbn [bind].
  assert (Hp : forall l g, all_positional act l [] None g = Ok (g, [])) by (intros [|? ?]; reflexivity). rewrite Hp. cbn [bind app]. rewrite Hck. cbn [bind].
  unfold shown. change (zlen (@nil err)) with 0. pose proof (sc_end _ _ _ _ _ _ _ _ Hc) as (Hcap & _). destruct (Z.leb_spec 0 cap); [|lia]. rewrite Z.min_r by lia. reflexivity.
Qed.
End Share.

(** ** The calls, one by one *)
(** The functions of the program with a record of the calls and their answers. *)
Definition watch {G} (k : fcall) (f : G -> res (G * Z)) (st : G * list (fcall * Z)) : res (G * list (fcall * Z) * Z) :=
  '(g, c) <- f (fst st) ;; Ok ((g, snd st ++ [(k, c)]), c).
Definition watch_scan {G} (scanf : nat -> option (option str -> G -> res (G * Z))) (i : nat) : option (option str -> G * list (fcall * Z) -> res (G * list (fcall * Z) * Z)) :=
  match scanf i with Some f => Some (fun v => watch (CScan i v) (f v)) | None => None end.
Definition watch_check {G} (checkf : nat -> option (G -> res (G * Z))) (i : nat) : option (G * list (fcall * Z) -> res (G * list (fcall * Z) * Z)) :=
  match checkf i with Some f => Some (watch (CCheck i) f) | None => None end.
Definition watch_reset {G} (resetf : nat -> option (G -> res G)) (i : nat) : option (G * list (fcall * Z) -> res (G * list (fcall * Z))) :=
  match resetf i with Some f => Some (fun st => g <- f (fst st) ;; Ok (g, snd st ++ [(CReset i, 0)])) | None => None end.

Definition given {A} (o : option A) : bool := match o with Some _ => true | None => false end.
(** The calls for the options found. *)
Definition option_calls (has : nat -> bool) (evs : list event) : list fcall :=
  List.concat (map (fun ev => match ev with EvScan i v => if has i then [CScan i v] else [] | EvErr _ _ => [] end) evs).
(** [placing is args l left]: the entries [is], in turn, take the arguments [args]; [l] the calls and answers, [left] the arguments
    nobody took. *)
Inductive placing : list nat -> list str -> list (fcall * Z) -> list str -> Prop :=
| pl_done is : placing is [] [] []
| pl_left args : placing [] args [] args
| pl_takes i is a args l left : placing (i :: is) args l left -> placing (i :: is) (a :: args) ((CScan i (Some a), 0) :: l) left
| pl_refuses i is a args c l left : c <> 0 -> placing is (a :: args) l left -> placing (i :: is) (a :: args) ((CScan i (Some a), c) :: l) left.

Section Watched.
Context {G : Type}.
Context (scanf : nat -> option (option str -> G -> res (G * Z))).
Context (checkf : nat -> option (G -> res (G * Z))).
Context (resetf : nat -> option (G -> res G)).
Notation wact := (acts (watch_scan scanf) (watch_check checkf) (watch_reset resetf)).

Lemma w_answer k o v g l st e : answer wact k o v (g, l) = Ok (st, e) ->
  (wact k = None /\ st = (g, l) /\ e = []) \/ exists g' c, wact k <> None /\ st = (g', l ++ [(k, c)]) /\ e = (if c =? 0 then [] else [mk_err o c v]) /\ (forall i, k = CReset i -> c = 0).
Proof.
  unfold answer. destruct (wact k) as [f|] eqn:E; [|intros H; injection H as <- <-; auto]. intros H. right.
  apply bind_ok in H as ([st1 c] & Hf & H). injection H as <- <-.
  destruct k as [i|i w|i]; cbn [acts] in E; unfold watch_reset, watch_scan, watch_check in E.
  - destruct (resetf i) as [r|]; [|discriminate]. injection E as <-. apply bind_ok in Hf as (st2 & Hf & E). injection E as <- <-.
    apply bind_ok in Hf as (g2 & _ & E). injection E as <-. exists g2, 0. cbn. repeat split; auto. discriminate.
  - destruct (scanf i) as [r|]; [|discriminate]. injection E as <-. unfold watch in Hf. apply bind_ok in Hf as ([g2 c2] & _ & E). injection E as <- <-.
    exists g2, c2. cbn. repeat split; auto; discriminate.
  - destruct (checkf i) as [r|]; [|discriminate]. injection E as <-. unfold watch in Hf. apply bind_ok in Hf as ([g2 c2] & _ & E). injection E as <- <-.
    exists g2, c2. cbn. repeat split; auto; discriminate.
Qed.
Lemma w_none k : wact k = None <-> match k with CReset i => given (resetf i) | CScan i _ => given (scanf i) | CCheck i => given (checkf i) end = false.
Proof.
  destruct k as [i|i v|i]; cbn [acts]; unfold watch_reset, watch_scan, watch_check, given; [destruct (resetf i)|destruct (scanf i)|destruct (checkf i)]; split; congruence.
Qed.

Lemma w_resets : forall is g l st, all_reset wact is (g, l) = Ok st ->
  exists g' r, st = (g', l ++ r) /\ r = map (fun i => (CReset i, 0)) (filter (fun i => given (resetf i)) is).
Proof.
  induction is as [|i is IH]; intros g l st H; cbn [all_reset] in H.
  - injection H as <-. exists g, []. rewrite app_nil_r. auto.
  - apply bind_ok in H as ([st1 e] & Ha & H). destruct (w_answer _ _ _ _ _ _ _ Ha) as [(E & -> & _)|(g1 & c & E & -> & _ & Hc)].
    + apply w_none in E. destruct (IH _ _ _ H) as (g' & r & -> & ->). exists g', (map (fun i => (CReset i, 0)) (filter (fun i => given (resetf i)) is)). cbn [filter]. rewrite E. auto.
    + destruct (IH _ _ _ H) as (g' & r & -> & ->). rewrite (Hc i eq_refl). eexists g', _. split; [rewrite <- app_assoc; reflexivity|]. cbn [filter].
      destruct (given (resetf i)) eqn:Eg; [reflexivity|]. elim E. apply w_none. exact Eg.
Qed.
Lemma w_options : forall evs g l st e, all_options wact evs (g, l) = Ok (st, e) ->
  exists g' o, st = (g', l ++ o) /\ map fst o = option_calls (fun i => given (scanf i)) evs /\ (e = [] <-> (forall c v, ~ In (EvErr c v) evs) /\ (forall k c, In (k, c) o -> c = 0)).
Proof.
  induction evs as [|ev evs IH]; intros g l st e H; cbn [all_options] in H.
  - injection H as <- <-. exists g, []. rewrite app_nil_r. repeat split; auto; contradiction.
  - destruct ev as [i v|c v].
    + apply bind_ok in H as ([st1 e1] & Ha & H). apply bind_ok in H as ([st2 e2] & H & E). injection E as <- <-.
      unfold option_calls. cbn [map List.concat]. fold (option_calls (fun i => given (scanf i)) evs).
      destruct (w_answer _ _ _ _ _ _ _ Ha) as [(E & -> & ->)|(g1 & c & E & -> & -> & _)]; destruct (IH _ _ _ _ H) as (g' & o & -> & Ho & He).
      * apply w_none in E. rewrite E. exists g', o. cbn [app]. split; [reflexivity|]. split; [exact Ho|]. rewrite He. clear.
        split; intros [H1 H2]; split; auto; intros c w Hi; [destruct Hi as [Hi|Hi]; [discriminate|eapply H1; eauto]|eapply H1; right; eauto].
      * assert (Eg : given (scanf i) = true) by (destruct (given (scanf i)) eqn:Eg; auto; elim E; apply w_none; exact Eg). rewrite Eg.
        exists g', ((CScan i v, c) :: o). split; [rewrite <- app_assoc; reflexivity|]. split; [cbn [map fst app]; rewrite Ho; reflexivity|].
        destruct (Z.eqb_spec c 0) as [Ez|Hc]; cbn [app]; [rewrite Ez in *; clear Ez|].
        -- rewrite He. clear. split; intros [H1 H2]; split.
           ++ intros c w [Hi|Hi]; [discriminate|eapply H1; eauto].
           ++ intros k c [Hi|Hi]; [congruence|eauto].
           ++ intros c w Hi. eapply H1. right. eauto.
           ++ intros k c Hi. eapply H2. right. eauto.
        -- split; [discriminate|]. intros [_ H2]. elim Hc. eapply H2. left. reflexivity.
    + apply bind_ok in H as ([st2 e2] & H & E). injection E as <- <-. destruct (IH _ _ _ _ H) as (g' & o & -> & Ho & He).
      exists g', o. split; auto. split; [exact Ho|]. split; [discriminate|]. intros [H1 _]. elim (H1 c v). left. reflexivity.
Qed.
Lemma w_offer i : given (scanf i) = true -> forall args rej g l st left r, offer wact i args rej (g, l) = Ok (st, left, r) ->
  exists g' p, st = (g', l ++ p) /\ forall is p' left', placing is left p' left' -> placing (i :: is) args (p ++ p') left'.
Proof.
  intros Hi. induction args as [|a args IH]; intros rej g l st left r H; cbn [offer] in H.
  - injection H as <- <- <-. exists g, []. rewrite app_nil_r. split; auto. intros is p' left' Hp. inversion Hp; subst; constructor.
  - destruct (wact (CScan i (Some a))) as [f|] eqn:E; [|apply w_none in E; congruence]. apply bind_ok in H as ([st1 c] & Hf & H).
    assert (Es : exists g1, st1 = (g1, l ++ [(CScan i (Some a), c)])).
    { cbn [acts] in E. unfold watch_scan in E. destruct (scanf i) as [k|]; [|discriminate]. injection E as <-. unfold watch in Hf. apply bind_ok in Hf as ([g2 c2] & _ & Hf). injection Hf as <- <-. cbn [snd]. eauto. }
    destruct Es as [g1 ->]. destruct (Z.eqb_spec c 0) as [->|Hc].
    + destruct (IH _ _ _ _ _ _ H) as (g' & p & -> & Hp). exists g', ((CScan i (Some a), 0) :: p). split; [rewrite <- app_assoc; reflexivity|].
      intros is p' left' H'. cbn [app]. apply pl_takes. apply Hp. exact H'.
    + injection H as <- <- <-. exists g1, [(CScan i (Some a), c)]. split; auto. intros is p' left' H'. cbn [app]. apply pl_refuses; auto.
Qed.
Lemma w_positional : forall is args rej g l st e, all_positional wact is args rej (g, l) = Ok (st, e) ->
  exists g' p left, st = (g', l ++ p) /\ placing (filter (fun i => given (scanf i)) is) args p left /\ (e = [] <-> left = []).
Proof.
  induction is as [|i is IH]; intros args rej g l st e H; (destruct args as [|a args]; cbn [all_positional] in H; [injection H as <- <-; exists g, [], []; rewrite app_nil_r; repeat split; auto; constructor|]).
  - injection H as <- <-. exists g, [], (a :: args). rewrite app_nil_r. split; auto. split; [constructor|]. destruct rej; split; discriminate.
  - apply bind_ok in H as ([[st1 left1] r1] & Ho & H). cbn [filter]. destruct (given (scanf i)) eqn:Eg.
    + destruct (w_offer i Eg _ _ _ _ _ _ _ Ho) as (g1 & p1 & -> & Hp). destruct (IH _ _ _ _ _ _ H) as (g' & p & left & -> & Hpl & He).
      exists g', (p1 ++ p), left. rewrite app_assoc. auto.
    + cbn [offer] in Ho. assert (E : wact (CScan i (Some a)) = None) by (apply w_none; exact Eg). rewrite E in Ho. injection Ho as <- <- <-. eapply IH. exact H.
Qed.
Lemma w_checks : forall is g l st e, all_checked wact is (g, l) = Ok (st, e) ->
  exists g' c, st = (g', l ++ c) /\ map fst c = map CCheck (filter (fun i => given (checkf i)) is) /\ (e = [] <-> forall k n, In (k, n) c -> n = 0).
Proof.
  induction is as [|i is IH]; intros g l st e H; cbn [all_checked] in H.
  - injection H as <- <-. exists g, []. rewrite app_nil_r. repeat split; auto; contradiction.
  - apply bind_ok in H as ([st1 e1] & Ha & H). apply bind_ok in H as ([st2 e2] & H & E). injection E as <- <-. cbn [filter].
    destruct (w_answer _ _ _ _ _ _ _ Ha) as [(E & -> & ->)|(g1 & c & E & -> & -> & _)]; destruct (IH _ _ _ _ H) as (g' & o & -> & Ho & He).
    + apply w_none in E. rewrite E. exists g', o. auto.
    + assert (Eg : given (checkf i) = true) by (destruct (given (checkf i)) eqn:Eg; auto; elim E; apply w_none; exact Eg). rewrite Eg.
      exists g', ((CCheck i, c) :: o). split; [rewrite <- app_assoc; reflexivity|]. split; [cbn [map fst]; rewrite Ho; reflexivity|].
      destruct (Z.eqb_spec c 0) as [Ez|Hc]; cbn [app]; [rewrite Ez in *; clear Ez|].
      * rewrite He. split; intros H1 k n Hi; [destruct Hi as [Hi|Hi]; [congruence|eauto]|eapply H1; right; eauto].
      * split; [discriminate|]. intros H1. elim Hc. eapply H1. left. reflexivity.
Qed.

(** The record of the calls. All reset functions there are; then those for the options, in the order of the command line; then those for
    the other arguments; and the check functions, just if no argument had any fault. The return value is 0 just if no answer, of check
    functions either, was an error and no argument was at fault by itself. *)
Theorem C90_calls :
  forall posix cap tab rest jo jc jp fuel argv h s g en a0 evs pos h' s' g' l en',
  share_call cap tab en h argv a0 rest fuel -> reading tab posix rest evs pos ->
  share_parse tab (watch_scan scanf) (watch_check checkf) (watch_reset resetf) posix jo jc jp fuel (zlen (a0 :: rest)) argv h s (g, []) en = Ok (h', s', (g', l), en') ->
  exists o p c left,
    l = map (fun i => (CReset i, 0)) (filter (fun i => given (resetf i)) (seq 0 (List.length tab))) ++ o ++ p ++ c /\
    map fst o = option_calls (fun i => given (scanf i)) evs /\
    placing (filter (fun i => given (scanf i)) (without_options tab)) pos p left /\
    let faultless := (forall e v, ~ In (EvErr e v) evs) /\ (forall k n, In (k, n) o -> n = 0) /\ left = [] in
    (faultless /\ map fst c = map CCheck (filter (fun i => given (checkf i)) (seq 0 (List.length tab))) /\ (end_count en' = 0 <-> forall k n, In (k, n) c -> n = 0)) \/
    (~ faultless /\ c = [] /\ 0 < end_count en').
Proof.
  intros posix cap tab rest jo jc jp fuel argv h s g en a0 evs pos h' s' g' l en' Hc Hr Hp.
  pose proof (C90_shared (watch_scan scanf) (watch_check checkf) (watch_reset resetf) posix cap tab rest jo jc jp fuel argv h s (g, []) en a0 evs pos Hc Hr) as H.
  rewrite Hp in H. cbn [seen bind] in H. symmetry in H. apply bind_ok in H as ([st errs] & Hs & H). injection H as -> Hn _.
  pose proof (sc_end _ _ _ _ _ _ _ _ Hc) as (Hcap & _).
  unfold share_spec in Hs. apply bind_ok in Hs as (st1 & H1 & Hs). destruct (w_resets _ _ _ _ H1) as (g1 & r & -> & ->). cbn [app] in Hs.
  apply bind_ok in Hs as ([st2 e1] & H2 & Hs). destruct (w_options _ _ _ _ _ H2) as (g2 & o & -> & Ho & He1).
  apply bind_ok in Hs as ([st3 e2] & H3 & Hs). destruct (w_positional _ _ _ _ _ _ _ H3) as (g3 & p & left & -> & Hpl & He2).
  destruct (e1 ++ e2) as [|x y] eqn:E12.
  - apply app_eq_nil in E12 as [-> ->]. destruct (w_checks _ _ _ _ _ Hs) as (g4 & c & E & Hk & He3). injection E as <- ->.
    exists o, p, c, left. split; [rewrite <- !app_assoc; reflexivity|]. split; auto. split; auto. cbv zeta. left. split; [tauto|]. split; auto.
    rewrite <- Hn, <- He3. destruct errs as [|x y]; [change (zlen (@nil err)) with 0; split; auto; lia|]. rewrite zlen_cons. pose proof (zlen_nonneg y). split; [lia|discriminate].
  - injection Hs as <- <- <-. exists o, p, [], left. rewrite app_nil_r. split; [rewrite <- !app_assoc; reflexivity|]. split; auto. split; auto. cbv zeta. right. split; [|split; [reflexivity|]].
    + intros (F1 & F2 & F3). assert (e1 = []) by tauto. assert (e2 = []) by tauto. subst. discriminate.
    + rewrite <- Hn, zlen_cons. pose proof (zlen_nonneg y). lia.
Qed.
End Watched.

(** ** The entries of the library *)
(** Entries with contents of their own, as in ParseModel.v, are the case in which the program's state is the table itself, and the
    functions of entry [i] work on its place in it. [tab0] tells which entries have a scan function. *)
Section Own.
Context {B : Type}.
Context (scan : hdr -> B -> option (option str -> res (B * Z))).
Context (check : hdr -> B -> option Z).
Context (reset : hdr -> B -> res B).
Definition own_scan (tab0 : list (entry B)) (i : nat) : option (option str -> list (entry B) -> res (list (entry B) * Z)) :=
  match nth_error tab0 i with
  | None => None
  | Some e0 =>
      match scan (e_hdr e0) (e_body e0) with
      | None => None
      | Some _ => Some (fun v t =>
          match nth_error t i with
          | None => UB OOBRead
          | Some e => match scan (e_hdr e) (e_body e) with
                      | None => UB NullDeref
                      | Some f => '(b, c) <- f v ;; Ok (lupd t i (set_body b e), c)
                      end
          end)
      end
  end.
Definition own_check (i : nat) : option (list (entry B) -> res (list (entry B) * Z)) :=
  Some (fun t => match nth_error t i with
                 | None => UB OOBRead
                 | Some e => Ok (t, match check (e_hdr e) (e_body e) with Some c => c | None => 0 end)
                 end).
Definition own_reset (i : nat) : option (list (entry B) -> res (list (entry B))) :=
  Some (fun t => match nth_error t i with
                 | None => UB OOBRead
                 | Some e => b <- reset (e_hdr e) (e_body e) ;; Ok (lupd t i (set_body b e))
                 end).

(** Whether an entry has a scan function does not depend on what has become of its contents. *)
Definition steady : Prop :=
  (forall h b f v b' c, scan h b = Some f -> f v = Ok (b', c) -> scan h b' <> None) /\
  (forall h b b', reset h b = Ok b' -> (scan h b' = None <-> scan h b = None)).
Hypothesis Hsteady : steady.
Context (tab0 : list (entry B)).
Notation act := (acts (own_scan tab0) own_check own_reset).
Definition like (e0 e : entry B) : Prop := e_hdr e = e_hdr e0 /\ (scan (e_hdr e) (e_body e) = None <-> scan (e_hdr e0) (e_body e0) = None).

Lemma nth_mid {A} (pre : list A) x post : nth_error (pre ++ x :: post) (List.length pre) = Some x.
Proof. rewrite nth_error_app2, Nat.sub_diag by lia. reflexivity. Qed.
Lemma lupd_mid {A} (pre : list A) x y post : lupd (pre ++ x :: post) (List.length pre) y = pre ++ y :: post.
Proof. apply lupd_app_0. Qed.

Lemma own_resets : forall todo done, all_reset act (seq (List.length done) (List.length todo)) (done ++ todo) = (t <- ideal_reset reset todo ;; Ok (done ++ t)).
Proof.
  induction todo as [|e todo IH]; intros done; cbn [List.length seq all_reset ideal_reset]; [reflexivity|].
  unfold answer. cbn [acts own_reset]. rewrite nth_mid. destruct (reset (e_hdr e) (e_body e)) as [b| |]; cbn [bind]; auto.
  rewrite lupd_mid. specialize (IH (done ++ [set_body b e])). rewrite app_length, Nat.add_1_r in IH. rewrite <- app_assoc in IH. cbn [app] in IH. rewrite IH.
  destruct (ideal_reset reset todo); cbn [bind]; auto. rewrite <- app_assoc. reflexivity.
Qed.
Lemma reset_like : forall t t', Forall2 like tab0 t -> ideal_reset reset t = Ok t' -> Forall2 like tab0 t'.
Proof.
  intros t t' H. revert t'. induction H as [|e0 e l t [Hh Hs] Hl IH]; intros t' Ht; cbn [ideal_reset] in Ht; [injection Ht as <-; constructor|].
  apply bind_ok in Ht as (b & Hb & Ht). apply bind_ok in Ht as (t1 & H1 & Ht). injection Ht as <-. constructor; auto.
  split; cbn [set_body e_hdr e_body]; auto. destruct Hsteady as [_ Hr]. rewrite (Hr _ _ _ Hb). exact Hs.
Qed.
Lemma like_nth t i e0 : Forall2 like tab0 t -> nth_error tab0 i = Some e0 -> exists e, nth_error t i = Some e /\ like e0 e.
Proof. intros H. revert i. induction H; intros [|i] E; cbn in *; try discriminate; [injection E as ->; eauto|eauto]. Qed.
Lemma like_lupd t i e b : Forall2 like tab0 t -> nth_error t i = Some e -> scan (e_hdr e) (e_body e) <> None -> scan (e_hdr e) b <> None -> Forall2 like tab0 (lupd t i (set_body b e)).
Proof.
  intros H. revert i. induction H as [|e0 x l t [Hh Hs] Hl IH]; intros [|i] E N1 N2; cbn [nth_error lupd] in *; try discriminate.
  - injection E as ->. constructor; auto. split; cbn [set_body e_hdr e_body]; auto. tauto.
  - constructor; auto. split; auto.
Qed.
Lemma like_len t : Forall2 like tab0 t -> List.length tab0 = List.length t.
Proof. induction 1; cbn [List.length]; congruence. Qed.
Lemma like_hdrs t : Forall2 like tab0 t -> map e_hdr t = map e_hdr tab0.
Proof. induction 1 as [|e0 e l t [Hh _] _ IH]; cbn [map]; congruence. Qed.

(** A scan function of an entry at work. *)
Lemma own_act t i v e0 : Forall2 like tab0 t -> nth_error tab0 i = Some e0 ->
  exists e, nth_error t i = Some e /\ like e0 e /\
  match scan (e_hdr e) (e_body e) with
  | None => act (CScan i v) = None
  | Some f => exists k, act (CScan i v) = Some k /\ k t = ('(b, c) <- f v ;; Ok (lupd t i (set_body b e), c))
  end.
Proof.
  intros HL Hi. destruct (like_nth _ _ _ HL Hi) as (e & He & Hlike). exists e. split; auto. split; auto. destruct Hlike as [Hh Hs].
  cbn [acts]. unfold own_scan. rewrite Hi. destruct (scan (e_hdr e) (e_body e)) as [f|] eqn:E.
  - destruct (scan (e_hdr e0) (e_body e0)) as [f0|]; [|destruct Hs as [_ Hs]; specialize (Hs eq_refl); discriminate]. eexists. split; [reflexivity|]. cbn beta. rewrite He, E. reflexivity.
  - destruct (scan (e_hdr e0) (e_body e0)) as [f0|]; [destruct Hs as [Hs _]; specialize (Hs eq_refl); discriminate|]. reflexivity.
Qed.
Lemma own_options : forall evs t errs, Forall2 like tab0 t -> Forall (ok_event (map e_hdr tab0)) evs ->
  ideal_events scan evs (t, errs) = ('(t, e) <- all_options act evs t ;; Ok (t, errs ++ e)) /\
  (forall t' errs', ideal_events scan evs (t, errs) = Ok (t', errs') -> Forall2 like tab0 t').
Proof.
  induction evs as [|ev evs IH]; intros t errs HL Hok; cbn [ideal_events all_options].
  - cbn [bind]. rewrite app_nil_r. split; auto. intros t' errs' H. injection H as <- <-. exact HL.
  - inversion Hok as [|? ? H1 H2]; subst. destruct ev as [i v|c v]; cbn [ideal_event].
    + cbn in H1. rewrite map_length in H1. destruct (nth_error tab0 i) as [e0|] eqn:E0; [|apply nth_error_None in E0; lia].
      destruct (own_act t i v e0 HL E0) as (e & He & Hlike & Ha). rewrite He. unfold answer.
      destruct (scan (e_hdr e) (e_body e)) as [f|] eqn:Es.
      * destruct Ha as (k & -> & ->). destruct (f v) as [[b c]| |] eqn:Ef; cbn [bind]; try (split; [reflexivity|discriminate]).
        assert (HL' : Forall2 like tab0 (lupd t i (set_body b e))).
        { apply like_lupd; auto; [congruence|]. destruct Hsteady as [Hs _]. eapply Hs; eauto. }
        destruct (IH (lupd t i (set_body b e)) (if c =? 0 then errs else errs ++ [mk_err (PEntry i) c v]) HL' H2) as [-> HK]. split.
        -- destruct (all_options act evs (lupd t i (set_body b e))) as [[t1 e1]| |]; cbn [bind]; auto. destruct (c =? 0); cbn [app]; auto. rewrite <- app_assoc. reflexivity.
        -- intros t' errs' H. destruct (IH (lupd t i (set_body b e)) (if c =? 0 then errs else errs ++ [mk_err (PEntry i) c v]) HL' H2) as [E HK']. rewrite <- E in H. eapply HK'. exact H.
      * rewrite Ha. cbn [bind]. destruct (IH t errs HL H2) as [-> HK]. split.
        -- destruct (all_options act evs t) as [[t1 e1]| |]; reflexivity.
        -- intros t' errs' H. destruct (IH t errs HL H2) as [E HK']. rewrite <- E in H. eapply HK'. exact H.
    + cbn [bind]. destruct (IH t (errs ++ [mk_err PEnd c v]) HL H2) as [E HK]. split.
      * rewrite E. destruct (all_options act evs t) as [[t1 e1]| |]; cbn [bind]; auto. rewrite <- app_assoc. reflexivity.
      * exact HK.
Qed.
Lemma own_offer e0 e todo done : nth_error tab0 (List.length done) = Some e0 ->
  forall args b rej, Forall2 like tab0 (done ++ set_body b e :: todo) ->
  offer act (List.length done) args rej (done ++ set_body b e :: todo)
  = ('(b, l, r) <- feed scan (e_hdr e) (List.length done) b args rej ;; Ok (done ++ set_body b e :: todo, l, r)) /\
  (forall b' l r, feed scan (e_hdr e) (List.length done) b args rej = Ok (b', l, r) -> Forall2 like tab0 (done ++ set_body b' e :: todo)).
Proof.
  intros H0. induction args as [|a args IH]; intros b rej HL; cbn [offer feed].
  - split; [reflexivity|]. intros b' l r H. injection H as <- <- <-. exact HL.
  - destruct (own_act _ (List.length done) (Some a) e0 HL H0) as (e1 & He1 & Hlike & Ha). rewrite nth_mid in He1. injection He1 as <-. cbn [set_body e_hdr e_body] in Ha.
    destruct (scan (e_hdr e) b) as [f|] eqn:Es.
    + destruct Ha as (k & -> & ->). destruct (f (Some a)) as [[b1 c]| |] eqn:Ef; cbn [bind]; try (split; [reflexivity|discriminate]).
      rewrite lupd_mid. change (set_body b1 {| e_hdr := e_hdr e; e_body := b |}) with (set_body b1 e).
      assert (HL' : Forall2 like tab0 (done ++ set_body b1 e :: todo)).
      { rewrite <- (lupd_mid done (set_body b e)). change (set_body b1 e) with (set_body b1 (set_body b e)). apply like_lupd; auto; [apply nth_mid|cbn; congruence|].
        cbn [set_body e_hdr]. destruct Hsteady as [Hs _]. eapply Hs; eauto. }
      destruct (c =? 0).
      * apply IH. exact HL'.
      * cbn [bind]. split; [reflexivity|]. intros b' l r H. injection H as <- <- <-. exact HL'.
    + rewrite Ha. cbn [bind]. split; [reflexivity|]. intros b' l r H. injection H as <- <- <-. exact HL.
Qed.
Lemma own_positional : forall todo done args rej, Forall2 like tab0 (done ++ todo) ->
  all_positional act (takers (List.length done) (map e_hdr todo)) args rej (done ++ todo) = ('(t, e) <- ideal_positional scan (List.length done) todo args rej ;; Ok (done ++ t, e)) /\
  (forall t e, ideal_positional scan (List.length done) todo args rej = Ok (t, e) -> Forall2 like tab0 (done ++ t)).
Proof.
  assert (Hnil : forall is rej t, all_positional act is [] rej t = Ok (t, [])) by (intros [|? ?]; reflexivity).
  induction todo as [|e todo IH]; intros done args rej HL; (destruct args as [|a args]; [rewrite Hnil; cbn [ideal_positional bind]; split; [reflexivity|intros t x H; injection H as <- <-; exact HL]|]).
  - cbn. split; [reflexivity|]. intros t x H. injection H as <- <-. exact HL.
  - cbn [map]. rewrite takers_cons. cbn [ideal_positional]. destruct (positional_hdr (e_hdr e)).
    + cbn [all_positional].
      assert (E0 : exists e0, nth_error tab0 (List.length done) = Some e0).
      { destruct (nth_error tab0 (List.length done)) as [e0|] eqn:E; [eauto|]. apply nth_error_None in E. pose proof (like_len _ HL) as Hlen. rewrite app_length in Hlen. cbn [List.length] in Hlen. lia. }
      destruct E0 as [e0 E0]. assert (Ee : e = set_body (e_body e) e) by (destruct e; reflexivity). pose proof HL as HL'. rewrite Ee in HL'.
      destruct (own_offer e0 e todo done E0 (a :: args) (e_body e) rej HL') as [Ho HK]. rewrite <- Ee in Ho. rewrite Ho.
      destruct (feed scan (e_hdr e) (List.length done) (e_body e) (a :: args) rej) as [[[b l] r]| |] eqn:Ef; cbn [bind]; try (split; [reflexivity|discriminate]).
      specialize (HK _ _ _ eq_refl). specialize (IH (done ++ [set_body b e]) l r). rewrite app_length, Nat.add_1_r, <- app_assoc in IH. cbn [app] in IH. destruct (IH HK) as [E HK2]. rewrite E. split.
      * destruct (ideal_positional scan (S (List.length done)) todo l r) as [[t x]| |]; cbn [bind]; auto. rewrite <- app_assoc. reflexivity.
      * intros t x H. apply bind_ok in H as ([t1 x1] & H1 & H). injection H as <- <-. specialize (HK2 _ _ H1). rewrite <- app_assoc in HK2. exact HK2.
    + specialize (IH (done ++ [e]) (a :: args) rej). rewrite app_length, Nat.add_1_r, <- app_assoc in IH. cbn [app] in IH. destruct (IH HL) as [E HK2]. rewrite E. split.
      * destruct (ideal_positional scan (S (List.length done)) todo (a :: args) rej) as [[t x]| |]; cbn [bind]; auto. rewrite <- app_assoc. reflexivity.
      * intros t x H. apply bind_ok in H as ([t1 x1] & H1 & H). injection H as <- <-. specialize (HK2 _ _ H1). rewrite <- app_assoc in HK2. exact HK2.
Qed.
Lemma own_checks : forall todo done, all_checked act (seq (List.length done) (List.length todo)) (done ++ todo) = Ok (done ++ todo, ideal_check check (List.length done) todo).
Proof.
  induction todo as [|e todo IH]; intros done; cbn [List.length seq all_checked ideal_check]; [reflexivity|].
  unfold answer. cbn [acts own_check]. rewrite nth_mid. cbn [bind].
  specialize (IH (done ++ [e])). rewrite app_length, Nat.add_1_r, <- app_assoc in IH. cbn [app] in IH. rewrite IH. cbn [bind].
  destruct (check (e_hdr e) (e_body e)) as [c|]; [destruct (c =? 0)|]; reflexivity.
Qed.
End Own.

Theorem C90_own :
  forall (B : Type) (scan : hdr -> B -> option (option str -> res (B * Z))) (check : hdr -> B -> option Z) (reset : hdr -> B -> res B), steady scan reset ->
  forall posix cap tab rest jo jc jp fuel argv h s en a0 evs pos,
  call cap tab en h argv a0 rest fuel -> reading (map e_hdr tab) posix rest evs pos ->
  observe (arg_parse scan check reset posix jo jc jp fuel (zlen (a0 :: rest)) argv h s tab en)
  = seen (share_parse (map e_hdr tab) (own_scan scan tab) (own_check check) (own_reset reset) posix jo jc jp fuel (zlen (a0 :: rest)) argv h s tab en).
Proof.
  intros B scan check reset Hst posix cap tab rest jo jc jp fuel argv h s en a0 evs pos Hc Hr.
  assert (Hsc : share_call cap (map e_hdr tab) en h argv a0 rest fuel) by (destruct Hc; constructor; auto).
  rewrite (C90_shared _ _ _ _ cap _ _ _ _ _ _ _ _ _ _ _ _ _ _ Hsc Hr). apply reading_iff in Hr.
  rewrite (one_pass scan check reset posix cap jo jc jp fuel argv h s tab en a0 rest evs pos Hc Hr).
  assert (Hok : Forall (ok_event (map e_hdr tab)) evs) by (pose proof (read_args_events_ok (map e_hdr tab) posix rest) as X; rewrite Hr in X; exact X).
  assert (HL : Forall2 (like scan) tab tab) by (clear; induction tab; constructor; auto; split; tauto).
  unfold ideal_parse, share_spec. rewrite map_length.
  pose proof (own_resets scan check reset tab tab []) as Er. cbn [List.length app] in Er. rewrite Er. clear Er. destruct (ideal_reset reset tab) as [t0| |] eqn:E0; cbn [bind]; auto.
  pose proof (reset_like scan reset Hst tab _ _ HL E0) as HL0.
  destruct (own_options scan check reset Hst tab evs t0 [] HL0 Hok) as [E1 HK1]. rewrite E1 in HK1 |- *.
  destruct (all_options (acts (own_scan scan tab) (own_check check) (own_reset reset)) evs t0) as [[t1 e1]| |]; cbn [bind app] in HK1 |- *; auto.
  specialize (HK1 _ _ eq_refl).
  destruct (own_positional scan check reset Hst tab t1 [] pos None HK1) as [E2 HK2]. cbn [app List.length] in E2, HK2. rewrite (like_hdrs scan tab t1 HK1) in E2.
  change (without_options (map e_hdr tab)) with (takers 0 (map e_hdr tab)). rewrite E2.
  destruct (ideal_positional scan 0 t1 pos None) as [[t2 e2]| |]; cbn [bind] in HK2 |- *; auto. cbn [app].
  specialize (HK2 _ _ eq_refl). cbn [app] in HK2. destruct (e1 ++ e2) as [|x y]; cbn [bind]; [|reflexivity].
  assert (El : List.length tab = List.length t2) by (exact (like_len scan tab t2 HK2)). rewrite El. pose proof (own_checks scan check reset tab t2 []) as Ec. cbn [List.length app] in Ec. rewrite Ec. reflexivity.
Qed.

(** The kinds of the library are such. *)
Lemma kinds_steady {D} (strtod : str -> D * nat) rexmatch lm sp : steady (kscan strtod rexmatch lm sp) kreset.
Proof.
  split.
  - intros h b f v b' c Hs Hf Hn. destruct b; cbn [kscan] in Hs; try discriminate; injection Hs as <-;
      try (unfold lift in Hf; apply bind_ok in Hf as ([p' e] & _ & Hf); injection Hf as <- <-; discriminate).
    destruct (arg_lit_scanfn (h_maxcount h) _) as [c' e]. injection Hf as <- <-. discriminate.
  - intros h b b' H. destruct b; cbn [kreset] in H; try (injection H as <-; cbn; split; congruence).
    apply bind_ok in H as (p' & _ & H). injection H as <-. cbn. split; congruence.
Qed.

(** ** Examples *)
(** -q/--quiet and -v/--verbose set the same variable; -o <file> adds to a list; one argument without option, which must be a digit, and
    another one that may be anything. *)
Definition ex_h (hasvalue : bool) (so lo : option str) : hdr :=
  {| h_hasvalue := hasvalue; h_hasoptvalue := false; h_shortopts := so; h_longopts := lo; h_datatype := None; h_glossary := None; h_mincount := 0; h_maxcount := 9 |}.
Definition ex_tab : list hdr :=
  [ex_h false (Some (lit "q")) (Some (lit "quiet")); ex_h false (Some (lit "v")) (Some (lit "verbose")); ex_h true (Some (lit "o")) (Some (lit "output"));
   ex_h true None None; ex_h true None None].
Definition ex_state : Type := Z * list str.
Definition ex_level (n : Z) (v : option str) (g : ex_state) : res (ex_state * Z) := Ok ((n, snd g), 0).
Definition ex_keep (v : option str) (g : ex_state) : res (ex_state * Z) := match v with Some x => Ok ((fst g, snd g ++ [x]), 0) | None => Ok (g, 7) end.
Definition ex_digit (v : option str) (g : ex_state) : res (ex_state * Z) :=
  match v with Some [c] => if (48 <=? uc c) && (uc c <=? 57) then Ok ((fst g, snd g ++ [[c]]), 0) else Ok (g, 8) | _ => Ok (g, 8) end.
Definition ex_scan (i : nat) : option (option str -> ex_state -> res (ex_state * Z)) :=
  match i with O => Some (ex_level 0) | S O => Some (ex_level 2) | S (S O) => Some ex_keep | S (S (S O)) => Some ex_digit | S (S (S (S O))) => Some ex_keep | _ => None end.
(** The last entry complains if the variable says 2. *)
Definition ex_check (i : nat) : option (ex_state -> res (ex_state * Z)) :=
  match i with S (S (S (S O))) => Some (fun g => Ok (g, if fst g =? 2 then 5 else 0)) | _ => None end.
Definition ex_reset (i : nat) : option (ex_state -> res ex_state) := match i with O => Some (fun g => Ok (1, snd g)) | S (S O) => Some (fun g => Ok (fst g, [])) | _ => None end.

Lemma ex_call rest cap s : 1 <= cap -> ExTable.strs_cstr (map lit rest) = true ->
  share_call cap ex_tab (ExTable.en cap) (ExTable.heap0 ("p"%string :: rest)) 1 (lit "p") (map lit rest) (S (total (map lit rest)) + s).
Proof.
  intros Hc Hs. destruct (ExTable.call_ok "p" rest cap s Hc Hs) as [A1 _ A3 A4 A5]. constructor; auto. apply ExTable.good_hdrs_ok. reflexivity.
Qed.
Notation ex_run l := (share_parse ex_tab (watch_scan ex_scan) (watch_check ex_check) (watch_reset ex_reset) false ExTable.jo ExTable.jc ExTable.jp (S (total (map lit l)) + 0) (zlen (lit "p" :: map lit l)) 1 (ExTable.heap0 ("p"%string :: l)) ExTable.s0
    ((9, [lit "old"]), []) (ExTable.en 4)).

(** A command line without faults: resets, options in its order, the other arguments, the check. 3 and 4 are taken as digits; 'ab' is
    refused by the one entry and taken by the other. *)
Definition ex_good : list string := ["3"; "-vqo"; "out"; "4"; "ab"; "--quiet"]%string.
Definition ex_good_log : list (fcall * Z) :=
  [(CReset 0, 0); (CReset 2, 0); (CScan 1 None, 0); (CScan 0 None, 0); (CScan 2 (Some (lit "out")), 0); (CScan 0 None, 0);
   (CScan 3 (Some (lit "3")), 0); (CScan 3 (Some (lit "4")), 0); (CScan 3 (Some (lit "ab")), 8); (CScan 4 (Some (lit "ab")), 0); (CCheck 4, 0)].
Example C90_case_reading : reading ex_tab false (map lit ex_good) [EvScan 1 None; EvScan 0 None; EvScan 2 (Some (lit "out")); EvScan 0 None] [lit "3"; lit "4"; lit "ab"].
Proof. apply reading_iff. vm_compute. reflexivity. Qed.
Example C90_case_shared : seen (ex_run ex_good) = Ok (((0, [lit "out"; lit "3"; lit "4"; lit "ab"]), ex_good_log), 0, []).
Proof.
  rewrite (C90_shared _ _ _ false 4 ex_tab (map lit ex_good) _ _ _ _ _ _ _ _ _ _ _ _ (ex_call ex_good 4 0 ltac:(lia) eq_refl) C90_case_reading).
  vm_compute. reflexivity.
Qed.
Lemma seen_inv {G} (m : res (heap * gst * G * arg_end)) g n e : seen m = Ok (g, n, e) -> exists h' s' en', m = Ok (h', s', g, en').
Proof. destruct m as [[[[h' s'] g'] en']| |]; cbn; intros H; try discriminate. injection H as <- _ _. eauto. Qed.
Example C90_case_calls : exists h' s' g' en', ex_run ex_good = Ok (h', s', (g', ex_good_log), en') /\
  exists o p c left, ex_good_log = [(CReset 0, 0); (CReset 2, 0)] ++ o ++ p ++ c /\ map fst o = [CScan 1 None; CScan 0 None; CScan 2 (Some (lit "out")); CScan 0 None] /\
    placing [3%nat; 4%nat] [lit "3"; lit "4"; lit "ab"] p left.
Proof.
  destruct (seen_inv _ _ _ _ C90_case_shared) as (h' & s' & en' & E).
  exists h', s', (0, [lit "out"; lit "3"; lit "4"; lit "ab"]), en'. split; [exact E|].
  destruct (C90_calls _ _ _ false 4 ex_tab (map lit ex_good) _ _ _ _ _ _ _ _ _ _ _ _ _ _ _ _ _ (ex_call ex_good 4 0 ltac:(lia) eq_refl) C90_case_reading E) as (o & p & c & left & H1 & H2 & H3 & _).
  exists o, p, c, left. split; [exact H1|]. split; [exact H2|exact H3].
Qed.
(** A faulty one: the check function is not called, the other functions are. *)
Definition ex_bad : list string := ["-x"; "-v"; "--output="; "3"]%string.
Example C90_case_bad : seen (ex_run ex_bad) =
  Ok (((2, [[]; lit "3"]), [(CReset 0, 0); (CReset 2, 0); (CScan 1 None, 0); (CScan 2 (Some []), 0); (CScan 3 (Some (lit "3")), 0)]), 2,
      [mk_err PEnd 120 None; mk_err PEnd ARG_EMISSARG (Some (lit "--output="))]).
Proof.
  rewrite (C90_shared _ _ _ false 4 ex_tab (map lit ex_bad) _ _ _ _ _ _ _ _ _ _ [EvErr 120 None; EvScan 1 None; EvErr ARG_EMISSARG (Some (lit "--output=")); EvScan 2 (Some [])] [lit "3"]
    (ex_call ex_bad 4 0 ltac:(lia) eq_refl)) by (apply reading_iff; vm_compute; reflexivity).
  vm_compute. reflexivity.
Qed.
(** The check function complains: -v came last. *)
Example C90_case_check : exists l, seen (ex_run ["-qv"]%string) = Ok (((2, []), l), 1, [mk_err (PEntry 4) 5 None]).
Proof.
  eexists. rewrite (C90_shared _ _ _ false 4 ex_tab (map lit ["-qv"]%string) _ _ _ _ _ _ _ _ _ _ [EvScan 0 None; EvScan 1 None] []
    (ex_call ["-qv"]%string 4 0 ltac:(lia) eq_refl)) by (apply reading_iff; vm_compute; reflexivity).
  vm_compute. reflexivity.
Qed.
Example C90_case_empty : exists l, seen (share_parse ex_tab (watch_scan ex_scan) (watch_check ex_check) (watch_reset ex_reset) false ExTable.jo ExTable.jc ExTable.jp 0 0 7 [] ExTable.s0 ((9, [lit "old"]), []) (ExTable.en 4))
  = Ok (((1, []), l), 0, []) /\ l = [(CReset 0, 0); (CReset 2, 0); (CCheck 4, 0)].
Proof.
  eexists. rewrite (C90_empty _ _ _ false 4) by (apply (sc_end _ _ _ _ _ _ _ _ (ex_call [] 4 0 ltac:(lia) eq_refl))). split; vm_compute; reflexivity.
Qed.
Example C90_case_returns : exists s' g' en', share_parse ex_tab ex_scan ex_check ex_reset false ExTable.jo ExTable.jc ExTable.jp (S (total (map lit ex_good)) + 0) (zlen (lit "p" :: map lit ex_good)) 1 (ExTable.heap0 ("p"%string :: ex_good)) ExTable.s0
    (9, []) (ExTable.en 4) = Ok (ExTable.heap0 ("p"%string :: ex_good) ++ [BFreed; BFreed; BFreed], s', g', en').
Proof.
  apply (C90_returns ex_scan ex_check ex_reset false 4 ex_tab (map lit ex_good) _ _ _ _ _ _ _ _ _ _ (ex_call ex_good 4 0 ltac:(lia) eq_refl)).
  - intros a Ha (x & p & E & _). apply (f_equal (@rev ascii)) in E. cbn [rev] in E. rewrite rev_app_distr in E. cbn [lit list_ascii_of_string rev app] in E.
    cbn in Ha. repeat (destruct Ha as [<-|Ha]; [discriminate|]). contradiction.
  - intros k f g H. destruct k as [i|i v|i]; cbn [acts] in H.
    + destruct i as [|[|[|i]]]; cbn in H; try discriminate; injection H as <-; cbn; eauto.
    + destruct i as [|[|[|[|[|i]]]]]; cbn in H; try discriminate; injection H as <-; unfold ex_level, ex_keep, ex_digit; eauto; try (destruct v; eauto; fail).
      destruct v as [[|c [|d v]]|]; eauto. destruct (_ && _); eauto.
    + destruct i as [|[|[|[|[|i]]]]]; cbn in H; try discriminate; injection H as <-; cbn; eauto.
Qed.
(** The last of -q and -v counts. *)
Definition ex_last_scan (i : nat) : option (option str -> Z -> res (Z * Z)) := Some (fun v _ => Ok (Z.of_nat i, 0)).
Definition ex_last : list string := ["-v"; "--quiet"; "-qv"]%string.
Example C90_case_last :
  seen (share_parse ex_tab ex_last_scan (fun _ => None) (fun _ => None) false ExTable.jo ExTable.jc ExTable.jp (S (total (map lit ex_last)) + 0) (zlen (lit "p" :: map lit ex_last)) 1 (ExTable.heap0 ("p"%string :: ex_last)) ExTable.s0 77 (ExTable.en 4))
  = Ok (1, 0, []).
Proof.
  apply (C90_last ex_last_scan (fun _ => None) (fun _ => None) (fun i _ => Z.of_nat i) false 4 ex_tab (map lit ex_last) _ _ _ _ _ _ _ _ _ _ [EvScan 1 None; EvScan 0 None; EvScan 0 None] 1 None (ex_call ex_last 4 0 ltac:(lia) eq_refl)); auto.
  - apply reading_iff. vm_compute. reflexivity.
  - intros c v [H|[H|[H|[]]]]; discriminate.
Qed.
(** The table of ExTable.v as entries with a shared state. *)
Example C90_case_own : steady (kscan ExTable.strtod ExTable.rexmatch Long64 unix_seps) kreset /\
  exists r, seen (share_parse (map e_hdr ExTable.tab) (own_scan (kscan ExTable.strtod ExTable.rexmatch Long64 unix_seps) ExTable.tab) (own_check kcheck) (own_reset kreset) false ExTable.jo ExTable.jc ExTable.jp
    (S (total (map lit ["-v"; "-n5"; "x"]%string)) + 0) (zlen (lit "p" :: map lit ["-v"; "-n5"; "x"]%string)) 1 (ExTable.heap0 ["p"; "-v"; "-n5"; "x"]%string) ExTable.s0 ExTable.tab (ExTable.en 4)) = Ok r /\ snd r = [].
Proof.
  split; [apply kinds_steady|].
  rewrite <- (C90_own _ _ _ _ (kinds_steady ExTable.strtod ExTable.rexmatch Long64 unix_seps) false 4 ExTable.tab (map lit ["-v"; "-n5"; "x"]%string) _ _ _ _ _ _ _ _ _ [EvScan 0 None; EvScan 1 (Some (lit "5"))] [lit "x"]
    (ExTable.call_ok "p" ["-v"; "-n5"; "x"]%string 4 0 ltac:(lia) eq_refl)) by (apply reading_iff; vm_compute; reflexivity).
  eexists. split; vm_compute; reflexivity.
Qed.

Print Assumptions C90_shared.
Print Assumptions C90_empty.
Print Assumptions C90_returns.
Print Assumptions C90_last.
Print Assumptions C90_calls.
Print Assumptions C90_own.
