(** What a caller of arg_parse sees, as an equation. *)
From Verif Require Import Base IntModel GetoptModel PermuteProofs ParseModel ParseSpec LongOnlySpec OptTables GetoptProofs ParseIdeal ParseProofs ParseFacts.
From Coq Require Import ZArith List Ascii String Bool Lia.
Import ListNotations.
Open Scope Z_scope.

(** The table, the return value and the recorded errors; not the getopt variables nor the heap. *)
Definition observe {B} (r : res (heap * gst * list (entry B) * arg_end)) : res (list (entry B) * Z * list err) :=
  '(h, s, tab, en) <- r ;; Ok (tab, end_count en, recorded en).

(** What is visible of a list of errors in a table of capacity [cap]. *)
Definition visible {B} (cap : Z) (st : list (entry B) * list err) : list (entry B) * Z * list err :=
  (fst st, Z.min cap (zlen (snd st)), shown cap (snd st)).

(** A call of arg_parse: an error table of capacity [cap] >= 1, option strings without the characters
    the scanner reserves, argument strings, the argv array in the caller's memory, and enough fuel
    (one getopt_long call per character is enough). *)
Record call {B} (cap : Z) (tab : list (entry B)) (en : arg_end) (h : heap) (argv : nat) (a0 : str) (rest : list str) (fuel : nat) : Prop := {
  c_end : wf_end cap en;
  c_hdrs : Forall good_hdr (map e_hdr tab);
  c_args : Forall cstr rest;
  c_argv : holds h argv (a0 :: rest);
  c_fuel : (total rest < fuel)%nat
}.

Section Observe.
Context {B : Type}.
Context (scan : hdr -> B -> option (option str -> res (B * Z))).
Context (check : hdr -> B -> option Z).
Context (reset : hdr -> B -> res B).
Context (posix : bool).
Context (junko : nat -> rawopt) (junkc : nat -> ascii) (junkp : nat -> option str).
Notation parse := (arg_parse scan check reset posix junko junkc junkp).
Notation parse_in := (arg_parse_in scan check reset posix junko junkc junkp).

Lemma sim_observe cap h (m : res (list (entry B) * list err)) r :
  sim (Rfin cap h) m r -> observe r = (st <- m ;; Ok (visible cap st)).
Proof.
  destruct m as [[t errs]|u|]; destruct r as [[[[h' s'] t'] en']| |]; cbn; intros H; try contradiction; try congruence.
  destruct H as (_ & -> & HR). cbn in *. unfold visible. cbn [fst snd]. rewrite (r_count _ _ _ HR), (r_rec _ _ _ HR). reflexivity.
Qed.

Lemma observe_in_finishes cap longonly fuel argv h s tab en a0 rest evs pos :
  call cap tab en h argv a0 rest fuel -> read_args_in longonly posix (map e_hdr tab) rest = (evs, Finished pos) ->
  observe (parse_in longonly fuel (zlen (a0 :: rest)) argv h s tab en) = (st <- ideal_parse scan check reset evs pos tab ;; Ok (visible cap st)).
Proof.
  intros [H1 H2 H3 H4 H5] Hr. apply (sim_observe cap (h ++ [BFreed; BFreed; BFreed])). apply parse_in_finishes; auto.
  pose proof (read_args_in_len longonly posix (map e_hdr tab) rest) as Hl. rewrite Hr in Hl. cbn in Hl. lia.
Qed.

Lemma observe_in_empty cap longonly fuel argv h s tab en : wf_end cap en ->
  observe (parse_in longonly fuel 0 argv h s tab en) = (st <- ideal_parse_empty check reset tab ;; Ok (visible cap st)).
Proof. intros H. apply (sim_observe cap h). apply parse_in_empty; auto. Qed.

Lemma observe_in_hangs cap longonly fuel argv h s tab en a0 rest evs :
  call cap tab en h argv a0 rest fuel -> read_args_in longonly posix (map e_hdr tab) rest = (evs, Hangs) ->
  forall fuel' r, parse_in longonly fuel' (zlen (a0 :: rest)) argv h s tab en <> Ok r.
Proof.
  intros [H1 H2 H3 H4 H5] Hr fuel' r.
  destruct (parse_in_hangs scan check reset posix junko junkc junkp longonly fuel' argv h s tab en a0 rest evs H2 H3 H4 Hr) as (l & _ & ->).
  destruct (ideal_reset reset tab) as [t| |]; cbn [bind]; try discriminate.
  destruct (run scan l t (arg_end_resetfn en)) as [[? ?]| |]; discriminate.
Qed.

Lemma parse_in_heap cap longonly fuel argv h s tab en a0 rest h' s' tab' en' :
  call cap tab en h argv a0 rest fuel ->
  parse_in longonly fuel (zlen (a0 :: rest)) argv h s tab en = Ok (h', s', tab', en') ->
  h' = h ++ [BFreed; BFreed; BFreed] /\ map e_hdr tab' = map e_hdr tab.
Proof.
  intros Hc Hp. destruct (read_args_in longonly posix (map e_hdr tab) rest) as [evs [pos|]] eqn:Hr.
  - destruct Hc as [H1 H2 H3 H4 H5].
    pose proof (read_args_in_len longonly posix (map e_hdr tab) rest) as Hl. rewrite Hr in Hl. cbn in Hl.
    pose proof (parse_in_finishes scan check reset posix cap junko junkc junkp longonly fuel argv h s tab en a0 rest evs pos H1 H2 H3 H4 Hr ltac:(lia)) as Hs.
    rewrite Hp in Hs. destruct (ideal_parse scan check reset evs pos tab) as [[t er]| |] eqn:Ei; cbn in Hs; try contradiction.
    destruct Hs as (-> & -> & _). split; auto. clear Hp Hl Hr.
    unfold ideal_parse in Ei. apply bind_ok in Ei as (t0 & Er & Ei). apply (ideal_reset_hdr _) in Er. rewrite <- Er. clear Er.
    apply bind_ok in Ei as ([t1 e1] & Ee & Ei). apply bind_ok in Ei as ([t2 e2] & Ep & Ei). injection Ei as <- _.
    transitivity (map e_hdr t1).
    + clear Ee. revert Ep. generalize 0%nat. generalize (@None err). clear. intros rej n Ep. cbn [fst].
      revert rej n pos t2 e2 Ep.
      induction t1 as [|e t1 IH]; intros rej n pos t2 e2 Ep; destruct pos as [|a args]; cbn [ideal_positional] in Ep; try (injection Ep as <- <-; reflexivity).
      destruct (positional_hdr (e_hdr e)).
      * apply bind_ok in Ep as ([[b ar] rj] & _ & Ep). apply bind_ok in Ep as ([t er] & Ep & E). injection E as <- <-.
        cbn. f_equal. eapply IH; eauto.
      * apply bind_ok in Ep as ([t er] & Ep & E). injection E as <- <-. cbn. f_equal. eapply IH; eauto.
    + clear Ep. generalize dependent (@nil err). revert t0 t1 e1. clear.
      induction evs as [|ev evs IH]; intros t0 t1 e1 l Ee; cbn [ideal_events] in Ee.
      { injection Ee as <- _. reflexivity. }
      apply bind_ok in Ee as ([t er] & E1 & Ee). rewrite (IH _ _ _ _ Ee). clear IH Ee.
      destruct ev as [i v|c v]; cbn in E1; [|injection E1 as <- _; reflexivity].
      destruct (nth_error t0 i) as [e|] eqn:En; [|discriminate].
      destruct (scan (e_hdr e) (e_body e)); [|injection E1 as <- _; reflexivity].
      apply bind_ok in E1 as ([b c] & _ & E1). injection E1 as <- _. apply map_lupd_hdr. auto.
  - exfalso. eapply observe_in_hangs; eauto.
Qed.
(** The default build. *)
Lemma observe_finishes cap fuel argv h s tab en a0 rest evs pos :
  call cap tab en h argv a0 rest fuel -> read_args posix (map e_hdr tab) rest = (evs, Finished pos) ->
  observe (parse fuel (zlen (a0 :: rest)) argv h s tab en) = (st <- ideal_parse scan check reset evs pos tab ;; Ok (visible cap st)).
Proof. rewrite <- read_args_default. apply observe_in_finishes. Qed.
Lemma observe_empty cap fuel argv h s tab en : wf_end cap en ->
  observe (parse fuel 0 argv h s tab en) = (st <- ideal_parse_empty check reset tab ;; Ok (visible cap st)).
Proof. apply observe_in_empty. Qed.
Lemma observe_hangs cap fuel argv h s tab en a0 rest evs :
  call cap tab en h argv a0 rest fuel -> read_args posix (map e_hdr tab) rest = (evs, Hangs) ->
  forall fuel' r, parse fuel' (zlen (a0 :: rest)) argv h s tab en <> Ok r.
Proof. rewrite <- read_args_default. apply observe_in_hangs. Qed.
Lemma parse_heap cap fuel argv h s tab en a0 rest h' s' tab' en' :
  call cap tab en h argv a0 rest fuel ->
  parse fuel (zlen (a0 :: rest)) argv h s tab en = Ok (h', s', tab', en') ->
  h' = h ++ [BFreed; BFreed; BFreed] /\ map e_hdr tab' = map e_hdr tab.
Proof. apply parse_in_heap. Qed.
End Observe.
