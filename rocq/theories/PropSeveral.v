(** C75: several tables, parsed one after another in one process (as in examples/multisyntax.c), do not disturb one another. *)
From Verif Require Import Base IntModel FileModel DateModel GetoptModel ParseModel ParseSpec GetoptProofs ParseIdeal ParseProofs ParseFacts ParseObserve ParseLemmas PropParse ArgModel KindsSpec KindsProofs PropKinds CommandSpec CommandProofs PropCommand.
From Verif Require ExTable.
From Coq Require Import ZArith List Ascii String Bool Lia.
Import ListNotations.
Open Scope Z_scope.

(** A table and the arguments it is to be used for: its arg_end, the place of argv in memory, and the arguments there. *)
Record job (B : Type) := { j_cap : Z; j_tab : list (entry B); j_end : arg_end; j_argv : nat; j_a0 : str; j_rest : list str }.
Arguments j_cap {B}. Arguments j_tab {B}. Arguments j_end {B}. Arguments j_argv {B}. Arguments j_a0 {B}. Arguments j_rest {B}.

Section Each.
Context {B : Type}.
Context (scan : hdr -> B -> option (option str -> res (B * Z))).
Context (check : hdr -> B -> option Z).
Context (reset : hdr -> B -> res B).
Context (posix : bool) (jo : nat -> rawopt) (jc : nat -> ascii) (jp : nat -> option str) (fuel : nat).
Notation parse := (arg_parse scan check reset posix jo jc jp fuel).

(** A program that calls arg_parse for one job after the other. Memory and the getopt variables go from call to call. *)
Fixpoint parse_each (h : heap) (s : gst) (jobs : list (job B)) : res (heap * gst * list (list (entry B) * arg_end)) :=
  match jobs with
  | [] => Ok (h, s, [])
  | j :: jobs =>
      ' (h, s, tab, en) <- parse (zlen (j_a0 j :: j_rest j)) (j_argv j) h s (j_tab j) (j_end j) ;;
      ' (h, s, l) <- parse_each h s jobs ;;
      Ok (h, s, (tab, en) :: l)
  end.

(** The job done alone, in a process that has not called arg_parse before. *)
Definition alone (h : heap) (j : job B) := observe (parse (zlen (j_a0 j :: j_rest j)) (j_argv j) h gst_init (j_tab j) (j_end j)).
Definition seen (r : list (entry B) * arg_end) : list (entry B) * Z * list err := (fst r, end_count (snd r), recorded (snd r)).
Definition ready_to_call (h : heap) (j : job B) : Prop := call (j_cap j) (j_tab j) (j_end j) h (j_argv j) (j_a0 j) (j_rest j) fuel.

Lemma call_grown cap (tab : list (entry B)) en h h' argv a0 rest : call cap tab en h argv a0 rest fuel -> (forall p b, nth_error h p = Some b -> nth_error h' p = Some b) ->
  call cap tab en h' argv a0 rest fuel.
Proof. intros [C1 C2 C3 (x & C4) C5] H. constructor; auto. exists x. apply H. exact C4. Qed.

Lemma each_alone : forall jobs h0 h s, Forall (ready_to_call h0) jobs -> (forall p b, nth_error h0 p = Some b -> nth_error h p = Some b) ->
  (forall h' s' out, parse_each h s jobs = Ok (h', s', out) -> Forall2 (fun j r => alone h0 j = Ok (seen r)) jobs out /\
     (forall p b, nth_error h p = Some b -> nth_error h' p = Some b) /\ (forall p b, (List.length h <= p)%nat -> nth_error h' p = Some b -> b = BFreed)) /\
  (Forall (fun j => exists r, alone h0 j = Ok r) jobs -> exists h' s' out, parse_each h s jobs = Ok (h', s', out)).
Proof.
  induction jobs as [|j jobs IH]; intros h0 h s C G.
  - split; [|intros _; exists h, s, []; reflexivity]. intros h' s' out E. injection E as <- <- <-. split; [constructor|]. split; [auto|].
    intros p b L N. assert (nth_error h p = None) by (apply nth_error_None; lia). congruence.
  - pose proof (Forall_inv C) as Cj. pose proof (Forall_inv_tail C) as Cs. unfold ready_to_call in Cj.
    pose proof (call_grown _ _ _ _ h _ _ _ Cj G) as Cj'.
    destruct (C01_history_independent scan check reset posix (j_cap j) (j_tab j) (j_rest j) jo jc jp fuel (j_argv j) h0 gst_init (j_end j) (j_a0 j) jo jc jp fuel (j_argv j) h s (j_end j) (j_a0 j) Cj Cj') as [Same _].
    cbn [parse_each]. split.
    + intros h' s' out E. apply bind_ok in E as ([[[h1 s1] tab1] en1] & E1 & E). apply bind_ok in E as ([[h2 s2] l] & E2 & E). injection E as -> -> <-.
      destruct (C05_argv_unchanged_nothing_leaked scan check reset posix _ _ _ jo jc jp fuel _ h s _ _ h1 s1 tab1 en1 Cj' E1) as [K1 K2].
      destruct (proj1 (IH h0 h1 s1 Cs (fun p b N => K1 p b (G p b N))) _ _ _ E2) as (F & K3 & K4). split; [constructor; [|exact F]|split].
      * unfold alone, seen. cbn [fst snd]. apply (proj2 (Same _)). rewrite E1. reflexivity.
      * intros p b N. exact (K3 p b (K1 p b N)).
      * intros p b L N. destruct (Nat.le_gt_cases (List.length h1) p) as [L1|L1]; [exact (K4 p b L1 N)|].
        destruct (nth_error h1 p) as [b1|] eqn:N1; [|apply nth_error_None in N1; lia]. pose proof (K3 p b1 N1) as N2. rewrite N in N2. injection N2 as ->. exact (K2 p b1 L N1).
    + intro A. destruct (Forall_inv A) as (r & Er). pose proof (proj1 (Same r) Er) as E1.
      destruct (parse (zlen (j_a0 j :: j_rest j)) (j_argv j) h s (j_tab j) (j_end j)) as [[[[h1 s1] tab1] en1]| |] eqn:P; try discriminate. cbn [bind].
      destruct (C05_argv_unchanged_nothing_leaked scan check reset posix _ _ _ jo jc jp fuel _ h s _ _ h1 s1 tab1 en1 Cj' P) as [K1 _].
      destruct (proj2 (IH h0 h1 s1 Cs (fun p b N => K1 p b (G p b N))) (Forall_inv_tail A)) as (h2 & s2 & l & E2). rewrite E2. cbn [bind]. eauto.
Qed.

(** One after another, each table comes out as if it had been parsed alone: whatever the number of tables, their entries and their
    arguments, and whatever happened before. Nothing that was in memory is changed, and nothing is leaked. *)
Theorem C75_one_after_another : forall jobs h s, Forall (ready_to_call h) jobs ->
  (forall h' s' out, parse_each h s jobs = Ok (h', s', out) -> Forall2 (fun j r => alone h j = Ok (seen r)) jobs out /\
     (forall p b, nth_error h p = Some b -> nth_error h' p = Some b) /\ (forall p b, (List.length h <= p)%nat -> nth_error h' p = Some b -> b = BFreed)) /\
  ((exists h' s' out, parse_each h s jobs = Ok (h', s', out)) <-> Forall (fun j => exists r, alone h j = Ok r) jobs).
Proof.
  intros jobs h s C. destruct (each_alone jobs h h s C (fun p b N => N)) as [K1 K2]. split; [exact K1|]. split; [|exact K2].
  intros (h' & s' & out & E). destruct (K1 _ _ _ E) as [F _]. clear -F. induction F as [|j r jobs out H F IH]; constructor; [eauto|exact IH].
Qed.
End Each.

Section Kinds.
Context {D : Type}.
Context (strtod : str -> D * nat).
Context (rexmatch : str -> Z -> str -> res bool).
Context (sp : seps).
Hypothesis Hd : strtod_contract strtod.
Notation scan := (kscan strtod rexmatch Long64 sp).
Notation reached := (reached strtod rexmatch Long64 sp).
Notation shared := (shared strtod rexmatch Long64 sp).

(** A program with several syntaxes, one table each, tried on the same command line: the return value is 0 for exactly the tables
    that the command line is well-formed for (C59). So the tables with return value 0 do not depend on their order. *)
Theorem C75_syntaxes : forall ints posix jo jc jp fuel jobs h s h' s' out,
  Forall (ready_to_call fuel h) jobs -> Forall (fun j => reached ints (j_tab j)) jobs -> Forall (fun j => Forall (safe_value Long64 ints) (j_rest j)) jobs ->
  parse_each scan kcheck kreset posix jo jc jp fuel h s jobs = Ok (h', s', out) ->
  forall i j r, nth_error jobs i = Some j -> nth_error out i = Some r ->
  (end_count (snd r) = 0 <-> exists os pos runs, spells (map e_hdr (j_tab j)) posix (j_rest j) os pos /\ shared (j_tab j) os pos runs).
Proof.
  intros ints posix jo jc jp fuel jobs h s h' s' out C R V E i j r N1 N2.
  destruct (C75_one_after_another scan kcheck kreset posix jo jc jp fuel jobs h s C) as [K _]. destruct (K _ _ _ E) as [F _]. clear K E.
  assert (A : alone scan kcheck kreset posix jo jc jp fuel h j = Ok (seen r)).
  { clear -F N1 N2. revert i N1 N2. induction F as [|x y xs ys H F IH]; intros [|i] N1 N2; try discriminate; cbn in N1, N2; [congruence|exact (IH i N1 N2)]. }
  apply nth_error_In in N1. rewrite Forall_forall in C, R, V. specialize (C _ N1). specialize (R _ N1). specialize (V _ N1). clear F N1 N2.
  rewrite <- (C59_accepted_iff strtod rexmatch sp Hd ints posix (j_cap j) (j_tab j) (j_rest j) jo jc jp fuel (j_argv j) h gst_init (j_end j) (j_a0 j) R C V).
  unfold alone in A. unfold karg_parse.
  destruct (arg_parse scan kcheck kreset posix jo jc jp fuel (zlen (j_a0 j :: j_rest j)) (j_argv j) h gst_init (j_tab j) (j_end j)) as [[[[h1 s1] tab1] en1]| |]; try discriminate A.
  cbn [observe bind] in A. unfold seen in A. assert (EC : end_count en1 = end_count (snd r)) by congruence. rewrite <- EC. split.
  - intro Z0. exists h1, s1, tab1, en1. split; [reflexivity|exact Z0].
  - intros (h2 & s2 & t2 & e2 & X & Z0). congruence.
Qed.
End Kinds.

(** Two syntaxes, "-v ... word" and "-x word word", tried on "-v a"; and then the second one for its own command line. *)
Local Open Scope string_scope.
Local Open Scope list_scope.
Definition second_tab : list (entry (body Z)) := [arg_litn (ExTable.o "x") None 1 1 None; arg_strn None None None 2 2 None].
Definition ex_heap : heap := [BArgv (map Some (map lit ["p"; "-v"; "a"]) ++ [None]); BArgv (map Some (map lit ["p"; "-x"; "a"; "-"]) ++ [None])].
Definition ex_job (tab : list (entry (body Z))) (p : nat) (rest : list string) : job (body Z) :=
  {| j_cap := 4; j_tab := tab; j_end := ExTable.en 4; j_argv := p; j_a0 := lit "p"; j_rest := map lit rest |}.
Definition ex_jobs : list (job (body Z)) := [ex_job ExTable.tab 0 ["-v"; "a"]; ex_job second_tab 0 ["-v"; "a"]; ex_job second_tab 1 ["-x"; "a"; "-"]].
Example C75_case : Forall (ready_to_call 20 ex_heap) ex_jobs /\
  exists h s t1 e1 t2 e2 t3 e3,
    parse_each (kscan ExTable.strtod ExTable.rexmatch Long64 unix_seps) kcheck kreset false ExTable.jo ExTable.jc ExTable.jp 20 ex_heap ExTable.s0 ex_jobs = Ok (h, s, [(t1, e1); (t2, e2); (t3, e3)]) /\
    end_count e1 = 0 /\ recorded e2 = [mk_err PEnd 118 None] /\ end_count e3 = 0.
Proof.
  split.
  - assert (X : forall tab p rest, forallb ExTable.good_hdrb (map e_hdr tab) = true -> ExTable.strs_cstr (map lit rest) = true -> (total (map lit rest) < 20)%nat ->
      nth_error ex_heap p = Some (BArgv (map Some (map lit ("p" :: rest)) ++ [None])) -> ready_to_call 20 ex_heap (ex_job tab p rest)).
    { intros tab p rest G S T N. destruct (ExTable.call_ok "p" [] 4 0 ltac:(lia) eq_refl) as [W _ _ _ _]. constructor; cbn [j_cap j_tab j_end j_argv j_a0 j_rest ex_job].
      - exact W.
      - apply ExTable.good_hdrs_ok. exact G.
      - apply ExTable.strs_cstr_ok. exact S.
      - exists [None]. exact N.
      - exact T. }
    constructor; [|constructor; [|constructor; [|constructor]]]; apply X; try reflexivity; vm_compute; lia.
  - eexists _, _, _, _, _, _, _, _. split; [vm_compute; reflexivity|]. repeat split; vm_compute; reflexivity.
Qed.

Print Assumptions C75_one_after_another.
Print Assumptions C75_syntaxes.
