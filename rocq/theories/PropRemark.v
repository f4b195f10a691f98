(** C62: remarks (arg_rem) have no effect on parsing. *)
From Verif Require Import Base IntModel FileModel DateModel GetoptModel ParseModel ParseSpec GetoptProofs ParseIdeal ParseProofs ParseFacts ParseObserve ParseLemmas ArgModel InsertProofs.
From Coq Require Import ZArith List Ascii String Bool Lia.
Import ListNotations.
Open Scope Z_scope.

Section Kinds.
Context {D : Type}.
Context (strtod : str -> D * nat).
Context (rexmatch : str -> Z -> str -> res bool).
Context (lm : long_model) (sp : seps).
Notation scan := (kscan strtod rexmatch lm sp).
Notation parse := (karg_parse strtod rexmatch lm sp).

Lemma remark_inert dt gl : bystander scan kcheck kreset (@arg_rem D dt gl) (arg_rem dt gl).
Proof. split; [reflexivity|]. split; [reflexivity|]. split; [reflexivity|]. left. reflexivity. Qed.

(** With a remark anywhere in the table the same command lines are parsed, with the same return value; every other entry comes
    out the same, the remark unchanged; and the same errors are recorded, of the same entries. *)
Theorem C62_remarks_are_inert :
  forall posix cap (l1 l2 : list (entry (body D))) dt gl rest,
  forall jo jc jp fuel argv h s en a0, call cap (l1 ++ l2) en h argv a0 rest fuel ->
  forall jo' jc' jp' fuel' argv' h' s' en' a0', call cap (l1 ++ arg_rem dt gl :: l2) en' h' argv' a0' rest fuel' ->
  forall o, observe (parse posix jo' jc' jp' fuel' (zlen (a0' :: rest)) argv' h' s' (l1 ++ arg_rem dt gl :: l2) en') = Ok o <->
    exists o0, observe (parse posix jo jc jp fuel (zlen (a0 :: rest)) argv h s (l1 ++ l2) en) = Ok o0 /\
      o = with_entry (List.length l1) (arg_rem dt gl) o0.
Proof.
  intros posix cap l1 l2 dt gl rest jo jc jp fuel argv h s en a0 Hc jo' jc' jp' fuel' argv' h' s' en' a0' Hc' o.
  set (k := List.length l1). set (r := @arg_rem D dt gl) in *.
  assert (Hk : (k <= List.length (l1 ++ l2))%nat) by (rewrite app_length; unfold k; lia).
  assert (Et : l1 ++ r :: l2 = put_at k r (l1 ++ l2)) by (unfold k; rewrite put_at_app; reflexivity).
  assert (Eh : map e_hdr (l1 ++ r :: l2) = put_at k (e_hdr r) (map e_hdr (l1 ++ l2))).
  { rewrite !map_app. cbn [map]. unfold k. rewrite <- (map_length e_hdr l1), put_at_app. reflexivity. }
  assert (Er : read_args posix (map e_hdr (l1 ++ r :: l2)) rest =
    (map (renumber_ev k) (fst (read_args posix (map e_hdr (l1 ++ l2)) rest)), snd (read_args posix (map e_hdr (l1 ++ l2)) rest))).
  { rewrite Eh. apply (read_args_put (e_hdr r) eq_refl eq_refl posix k) with (n := List.length rest); [rewrite map_length; exact Hk|auto]. }
  assert (Main : forall evs pos, read_args posix (map e_hdr (l1 ++ l2)) rest = (evs, Finished pos) ->
    observe (parse posix jo' jc' jp' fuel' (zlen (a0' :: rest)) argv' h' s' (l1 ++ r :: l2) en') =
    (o0 <- observe (parse posix jo jc jp fuel (zlen (a0 :: rest)) argv h s (l1 ++ l2) en) ;; Ok (with_entry k r o0))).
  { intros evs pos Hr. rewrite Hr in Er. cbn [fst snd] in Er. unfold karg_parse.
    rewrite (one_pass scan kcheck kreset _ _ _ _ _ _ _ _ _ _ _ _ _ _ _ Hc Hr), (one_pass scan kcheck kreset _ _ _ _ _ _ _ _ _ _ _ _ _ _ _ Hc' Er).
    rewrite Et, (parse_put scan kcheck kreset r r (remark_inert dt gl)) by auto.
    destruct (ideal_parse scan kcheck kreset evs pos (l1 ++ l2)) as [st| |]; cbn [bind]; [|reflexivity|reflexivity]. rewrite visible_onto. reflexivity. }
  split.
  - intros Ho. assert (Hf : exists evs pos, read_args posix (map e_hdr (l1 ++ l2)) rest = (evs, Finished pos)).
    { destruct (finished_of_ok scan kcheck kreset posix cap _ jo' jc' jp' fuel' argv' h' s' en' a0' rest o Hc' Ho) as (evs & pos & E).
      rewrite Er in E. injection E as _ E. destruct (read_args posix (map e_hdr (l1 ++ l2)) rest) as [evs' oc]. cbn [snd] in E. subst oc. eauto. }
    destruct Hf as (evs & pos & Hf). rewrite (Main _ _ Hf) in Ho. apply bind_ok in Ho as (o0 & Ho0 & Ho). injection Ho as <-. eauto.
  - intros (o0 & Ho & ->). destruct (finished_of_ok scan kcheck kreset posix cap _ jo jc jp fuel argv h s en a0 rest o0 Hc Ho) as (evs & pos & Hf).
    rewrite (Main _ _ Hf), Ho. reflexivity.
Qed.

(** Without any argument, not even the program name. *)
Theorem C62_remarks_are_inert_no_arguments :
  forall posix cap (l1 l2 : list (entry (body D))) dt gl en en', wf_end cap en -> wf_end cap en' ->
  forall jo jc jp fuel argv h s jo' jc' jp' fuel' argv' h' s',
  observe (parse posix jo' jc' jp' fuel' 0 argv' h' s' (l1 ++ arg_rem dt gl :: l2) en') =
  (o <- observe (parse posix jo jc jp fuel 0 argv h s (l1 ++ l2) en) ;; Ok (with_entry (List.length l1) (arg_rem dt gl) o)).
Proof.
  intros posix cap l1 l2 dt gl en en' He He' jo jc jp fuel argv h s jo' jc' jp' fuel' argv' h' s'. unfold karg_parse.
  set (k := List.length l1). set (r := @arg_rem D dt gl) in *.
  assert (Hk : (k <= List.length (l1 ++ l2))%nat) by (rewrite app_length; unfold k; lia).
  assert (Et : l1 ++ r :: l2 = put_at k r (l1 ++ l2)) by (unfold k; rewrite put_at_app; reflexivity).
  rewrite (observe_empty scan kcheck kreset posix jo' jc' jp' cap fuel' argv' h' s' _ en' He'), (observe_empty scan kcheck kreset posix jo jc jp cap fuel argv h s _ en He).
  rewrite Et. unfold ideal_parse_empty. rewrite (reset_put scan kcheck kreset r r (remark_inert dt gl)) by auto.
  destruct (ideal_reset kreset (l1 ++ l2)) as [t| |] eqn:E; [|reflexivity|reflexivity]. cbn [bind].
  assert (L : List.length t = List.length (l1 ++ l2)) by (rewrite <- (map_length e_hdr t), (ideal_reset_hdr _ _ _ E), map_length; reflexivity).
  rewrite (check_put scan kcheck kreset r r (remark_inert dt gl) k k t 0 eq_refl ltac:(lia)). rewrite <- visible_onto. reflexivity.
Qed.
End Kinds.

(** ** Examples *)
From Verif Require ExTable.
Local Open Scope string_scope.
Local Open Scope list_scope.
Local Open Scope Z_scope.
Definition ex_l1 : list (entry (body Z)) := firstn 2 ExTable.tab.
Definition ex_l2 : list (entry (body Z)) := skipn 2 ExTable.tab.
Definition ex_args : list string := ["-v"; "-nx"; "a"; "--output=f"; "b"; "c"].
Lemma ex_call0 : call 4 (ex_l1 ++ ex_l2) (ExTable.en 4) (ExTable.heap0 ("p" :: ex_args)) 1 (lit "p") (map lit ex_args) (S (total (map lit ex_args)) + 0).
Proof. exact (ExTable.call_ok "p" ex_args 4 0 ltac:(lia) eq_refl). Qed.
Lemma ex_call1 : call 4 (ex_l1 ++ arg_rem None (ExTable.o "see above") :: ex_l2) (ExTable.en 4) (ExTable.heap0 ("p" :: ex_args)) 1 (lit "p") (map lit ex_args) (S (total (map lit ex_args)) + 0).
Proof.
  destruct ex_call0 as [H1 H2 H3 H4 H5]. constructor; auto. rewrite map_app in *. apply Forall_app in H2 as [H2 H2']. apply Forall_app. split; auto.
  constructor; auto. split; exact I.
Qed.
(** A bad integer for entry 1 and a third string for what is entry 3 without the remark and entry 4 with it. *)
Definition ex_obs (tab : list (entry (body Z))) :=
  observe (ExTable.parse false ExTable.jo ExTable.jc ExTable.jp (S (total (map lit ex_args)) + 0) (zlen (lit "p" :: map lit ex_args)) 1 (ExTable.heap0 ("p" :: ex_args)) ExTable.s0 tab (ExTable.en 4)).
Example C62_case : exists t t', ex_obs (ex_l1 ++ ex_l2) = Ok (t, 2, [mk_err (PEntry 1) ARG_ERR_BADINT (ExTable.o "x"); mk_err (PEntry 3) ARG_ERR_MAXCOUNT (ExTable.o "c")]) /\
  ex_obs (ex_l1 ++ arg_rem None (ExTable.o "see above") :: ex_l2) = Ok (t', 2, [mk_err (PEntry 1) ARG_ERR_BADINT (ExTable.o "x"); mk_err (PEntry 4) ARG_ERR_MAXCOUNT (ExTable.o "c")]) /\
  t' = firstn 2 t ++ arg_rem None (ExTable.o "see above") :: skipn 2 t.
Proof.
  assert (E : exists t, ex_obs (ex_l1 ++ ex_l2) = Ok (t, 2, [mk_err (PEntry 1) ARG_ERR_BADINT (ExTable.o "x"); mk_err (PEntry 3) ARG_ERR_MAXCOUNT (ExTable.o "c")])).
  { eexists. vm_compute. reflexivity. }
  destruct E as (t & E). exists t, (put_at 2 (arg_rem None (ExTable.o "see above")) t). split; [exact E|]. split; [|reflexivity].
  apply (proj2 (C62_remarks_are_inert ExTable.strtod ExTable.rexmatch Long64 unix_seps false 4 ex_l1 ex_l2 None (ExTable.o "see above") (map lit ex_args)
    ExTable.jo ExTable.jc ExTable.jp _ _ _ ExTable.s0 _ _ ex_call0 ExTable.jo ExTable.jc ExTable.jp _ _ _ ExTable.s0 _ _ ex_call1 _)).
  eexists. split; [exact E|]. reflexivity.
Qed.

Print Assumptions C62_remarks_are_inert.
Print Assumptions C62_remarks_are_inert_no_arguments.
