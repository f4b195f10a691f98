(** Parsing with entries whose functions are safe is safe, and keeps the entries' invariants. *)
From Verif Require Import Base IntModel GetoptModel ParseModel ParseSpec GetoptProofs ParseIdeal ParseProofs ParseFacts ParseObserve.
From Coq Require Import ZArith List Ascii String Bool Lia.
Import ListNotations.
Open Scope Z_scope.


Section Safe.
Context {B : Type}.
Context (scan : hdr -> B -> option (option str -> res (B * Z))).
Context (check : hdr -> B -> option Z).
Context (reset : hdr -> B -> res B).

(** [Inv h b]: an entry with header [h] may have body [b]. [Val]: the values that may be scanned. *)
Record safe_kinds (Inv : hdr -> B -> Prop) (Val : str -> Prop) : Prop := {
  safe_suffix : forall c s, Val (c :: s) -> Val s;
  safe_reset : forall h b, Inv h b -> exists b', reset h b = Ok b' /\ Inv h b';
  safe_scan : forall h b f v, Inv h b -> (forall s, v = Some s -> Val s) -> scan h b = Some f -> exists b' c, f v = Ok (b', c) /\ Inv h b'
}.
Context (Inv : hdr -> B -> Prop) (Val : str -> Prop) (Hsafe : safe_kinds Inv Val).
Definition inv (e : entry B) : Prop := Inv (e_hdr e) (e_body e).

Lemma reset_safe tab : Forall inv tab -> exists t, ideal_reset reset tab = Ok t /\ Forall inv t.
Proof.
  induction 1 as [|e tab He Ht (t & E & H)]; cbn; [eauto|].
  destruct (safe_reset _ _ Hsafe _ _ He) as (b & Eb & Hb). rewrite Eb, E. cbn. eexists. split; [reflexivity|]. constructor; auto.
Qed.

Lemma Forall_lupd {A} (P : A -> Prop) l : forall i x, Forall P l -> P x -> Forall P (lupd l i x).
Proof. induction l; intros [|i] x Hl Hx; cbn; auto; inversion_clear Hl; constructor; auto. Qed.

Lemma event_safe ev tab errs : Forall inv tab -> ok_event (map e_hdr tab) ev -> carries Val ev ->
  exists t e, ideal_event scan ev (tab, errs) = Ok (t, e) /\ Forall inv t /\ map e_hdr t = map e_hdr tab.
Proof.
  intros Ht Hi Hc. destruct ev as [i v|c v]; cbn in *; [|eauto].
  rewrite map_length in Hi. destruct (nth_error tab i) as [e|] eqn:En; [|apply nth_error_None in En; lia].
  destruct (scan (e_hdr e) (e_body e)) as [f|] eqn:Es; [|eauto].
  assert (He : inv e) by (rewrite Forall_forall in Ht; apply Ht; eapply nth_error_In; eauto).
  destruct (safe_scan _ _ Hsafe _ _ f v He ltac:(intros x ->; exact Hc) Es) as (b & c & -> & Hb). cbn.
  eexists. eexists. split; [reflexivity|]. split; [apply Forall_lupd; auto|apply map_lupd_hdr; auto].
Qed.

Lemma events_safe evs : forall tab errs, Forall inv tab -> Forall (ok_event (map e_hdr tab)) evs -> Forall (carries Val) evs ->
  exists t e, ideal_events scan evs (tab, errs) = Ok (t, e) /\ Forall inv t /\ map e_hdr t = map e_hdr tab.
Proof.
  induction evs as [|ev evs IH]; intros tab errs Ht Ho Hc; cbn [ideal_events]; [eauto|].
  inversion_clear Ho. inversion_clear Hc.
  destruct (event_safe ev tab errs) as (t & e & -> & H3 & H4); auto. cbn [bind].
  destruct (IH t e H3) as (t' & e' & E & H5 & H6); auto; [rewrite H4; auto|].
  exists t', e'. rewrite H6, H4. auto.
Qed.

Lemma feed_safe h i : forall args b rej, Inv h b -> Forall Val args ->
  exists b' l r, feed scan h i b args rej = Ok (b', l, r) /\ Inv h b' /\ Forall Val l.
Proof.
  induction args as [|a args IH]; intros b rej Hb Ha; cbn [feed]; [eexists; eexists; eexists; eauto|].
  destruct (scan h b) as [f|] eqn:Es; [|eexists; eexists; eexists; eauto].
  inversion_clear Ha. destruct (safe_scan _ _ Hsafe _ _ f (Some a) Hb ltac:(intros x [= <-]; assumption) Es) as (b' & c & -> & Hb'). cbn [bind].
  destruct (c =? 0); [apply IH; auto|]. eexists. eexists. eexists. split; [reflexivity|]. split; auto.
Qed.

Lemma positional_safe : forall tab i args rej, Forall inv tab -> Forall Val args ->
  exists t e, ideal_positional scan i tab args rej = Ok (t, e) /\ Forall inv t /\ map e_hdr t = map e_hdr tab.
Proof.
  induction tab as [|e tab IH]; intros i args rej Ht Ha; destruct args as [|a args]; cbn [ideal_positional]; try (eexists; eexists; eauto; fail).
  inversion_clear Ht as [|? ? He Ht'].
  destruct (positional_hdr (e_hdr e)).
  - destruct (feed_safe (e_hdr e) i (a :: args) (e_body e) rej He Ha) as (b' & l & r & -> & Hb & Hl). cbn [bind].
    destruct (IH (S i) l r Ht' Hl) as (t & er & -> & H1 & H2). cbn [bind]. eexists. eexists. split; [reflexivity|].
    split; [constructor; auto|cbn; congruence].
  - destruct (IH (S i) (a :: args) rej Ht' Ha) as (t & er & -> & H1 & H2). cbn [bind]. eexists. eexists. split; [reflexivity|].
    split; [constructor; auto|cbn; congruence].
Qed.

Lemma ideal_safe posix tab rest evs pos : Forall inv tab -> Forall Val rest ->
  read_args posix (map e_hdr tab) rest = (evs, Finished pos) ->
  exists t errs, ideal_parse scan check reset evs pos tab = Ok (t, errs) /\ Forall inv t /\ map e_hdr t = map e_hdr tab.
Proof.
  intros Ht Hc Hr. destruct (read_args_carries Val (safe_suffix _ _ Hsafe) _ _ _ _ _ Hc Hr) as [H1 H2].
  pose proof (read_args_events_ok (map e_hdr tab) posix rest) as Ho. rewrite Hr in Ho. cbn [fst] in Ho.
  unfold ideal_parse. destruct (reset_safe tab Ht) as (t0 & E0 & H0). rewrite E0. cbn [bind].
  pose proof (ideal_reset_hdr _ _ _ E0) as Hh.
  destruct (events_safe evs t0 [] H0) as (t1 & e1 & -> & H3 & H4); [rewrite Hh; auto|auto|]. cbn [bind].
  destruct (positional_safe t1 0 pos None H3 H2) as (t2 & e2 & -> & H5 & H6). cbn [bind].
  eexists. eexists. split; [reflexivity|]. split; auto. congruence.
Qed.
Lemma ideal_empty_safe tab : Forall inv tab ->
  exists t errs, ideal_parse_empty check reset tab = Ok (t, errs) /\ Forall inv t /\ map e_hdr t = map e_hdr tab.
Proof.
  intros Ht. unfold ideal_parse_empty. destruct (reset_safe tab Ht) as (t0 & E0 & H0). rewrite E0. cbn [bind].
  pose proof (ideal_reset_hdr _ _ _ E0) as Hh. eexists. eexists. split; [reflexivity|]. auto.
Qed.

(** When reading hangs, the loop goes on for ever, without any undefined behaviour. *)
Lemma hang_safe posix jo jc jp cap fuel argv h s tab en a0 rest evs : Forall inv tab -> Forall Val rest ->
  call cap tab en h argv a0 rest fuel -> read_args posix (map e_hdr tab) rest = (evs, Hangs) ->
  forall fuel', arg_parse scan check reset posix jo jc jp fuel' (zlen (a0 :: rest)) argv h s tab en = OutOfFuel.
Proof.
  intros Ht Hv Hc Hr fuel'.
  destruct (parse_hangs scan check reset posix jo jc jp fuel' argv h s tab en a0 rest evs (c_hdrs _ _ _ _ _ _ _ _ Hc) (c_args _ _ _ _ _ _ _ _ Hc) (c_argv _ _ _ _ _ _ _ _ Hc) Hr) as (l & Hl & ->).
  destruct (reset_safe tab Ht) as (t0 & E0 & H0). rewrite E0. cbn [bind]. pose proof (ideal_reset_hdr _ _ _ E0) as Hh.
  pose proof (read_args_events_ok (map e_hdr tab) posix rest) as Ho. rewrite Hr in Ho. cbn [fst] in Ho.
  destruct (read_args_carries' Val (safe_suffix _ _ Hsafe) posix (map e_hdr tab) (List.length rest) rest (le_n _) Hv) as [Hca _].
  rewrite Hr in Hca. cbn [fst] in Hca. rewrite Forall_forall in Ho, Hca, Hl.
  destruct (events_safe l t0 [] H0) as (t1 & e1 & E1 & _).
  - apply Forall_forall. intros ev He. rewrite Hh. destruct (Hl ev He) as [Hi|Hq]; [auto|]. destruct ev; cbn in *; tauto.
  - apply Forall_forall. intros ev He. destruct (Hl ev He) as [Hi|Hq]; [auto|]. destruct ev as [i v|c v]; cbn in *; [destruct Hq as [_ ->]|]; exact I.
  - pose proof (sim_events scan cap l t0 [] (arg_end_resetfn en) (reset_rep cap en (c_end _ _ _ _ _ _ _ _ Hc))) as Hs.
    rewrite E1 in Hs. destruct (run scan l t0 (arg_end_resetfn en)) as [[t2 en2]| |]; cbn in Hs; try contradiction. reflexivity.
Qed.
End Safe.
