(** A small argument table, and command lines, for the examples beside the theorems. *)
From Verif Require Import Base IntModel FileModel DateModel GetoptModel ParseModel ParseSpec ParseProofs ParseFacts ParseObserve ArgModel.
From Coq Require Import ZArith List Ascii String Bool Lia.
Import ListNotations.
Open Scope Z_scope.

Definition strtod (s : str) : Z * nat := (zlen s, List.length s).
Definition rexmatch (p : str) (f : Z) (s : str) : res bool := Ok (str_eqb p s).
Definition parse := karg_parse strtod rexmatch Long64 unix_seps.
Definition o (s : string) : option str := Some (lit s).
(** -v/--verbose (any number), -n <int>, -o/--output <file>, one or two positional strings. *)
Definition tab : list (entry (body Z)) :=
  [arg_litn (o "v") (o "verbose,version") 0 3 None; arg_intn (fun _ => 7) (o "n") (o "num") None 0 2 None;
   arg_filen (o "o") (o "output") None 0 1 None; arg_strn None None None 1 2 None].
Definition hdrs := map e_hdr tab.
Definition en (cap : Z) : arg_end := arg_end_new (fun _ => 13) (fun _ => PEnd) (fun _ => None) cap.
Definition s0 : gst := {| optind := 5; optopt := 99; optreset := false; optarg := None; place_off := 3; place := lit "xyz"; nonopt_start := 4;
  nonopt_end := 9; posixly := -1; getoptval := 2; nargv := [] |}.
Definition jo (_ : nat) : rawopt := {| ro_name := Some 3; ro_has_arg := 7; ro_flag := false; ro_val := 1 |}.
Definition jc (_ : nat) : ascii := "z"%char.
Definition jp (_ : nat) : option str := None.
Definition args (l : list string) : list str := map lit l.
Definition heap0 (l : list string) : heap := [BTemp; BArgv (map Some (args l) ++ [None])].
Definition run (l : list string) :=
  parse false jo jc jp (S (total (args l))) (zlen l) 1 (heap0 l) s0 tab (en 4).

(** A decision procedure for the requirement on option strings. *)
Definition plainb (c : ascii) : bool := negb (ceqb c ":" || ceqb c ";" || ceqb c "?" || ceqb c "255" || ceqb c NUL).
Definition good_hdrb (h : hdr) : bool :=
  match h_shortopts h with Some so => forallb plainb so | None => true end &&
  match h_longopts h with
  | Some l => forallb (fun c => negb (ceqb c NUL)) l && negb (match l with [] => true | c :: _ => ceqb c "," end)
  | None => true
  end.
Lemma good_hdrb_ok h : good_hdrb h = true -> good_hdr h.
Proof.
  unfold good_hdrb, good_hdr, good_shortopts, good_longopts. intros H. apply andb_true_iff in H as [H1 H2]. split.
  - destruct (h_shortopts h) as [so|]; auto. intros c Hc. rewrite forallb_forall in H1. apply H1 in Hc.
    unfold plainb in Hc. apply negb_true_iff in Hc. rewrite !orb_false_iff in Hc. destruct Hc as [[[[A1 A2] A3] A4] A5].
    unfold plain_short. repeat split; intros ->; discriminate.
  - destruct (h_longopts h) as [l|]; auto. apply andb_true_iff in H2 as [H2 H3]. apply negb_true_iff in H3. split; [|split].
    + intros Hi. rewrite forallb_forall in H2. apply H2 in Hi. discriminate.
    + intros ->. discriminate.
    + destruct l as [|c l]; [discriminate|]. cbn. intros ->. discriminate.
Qed.
Lemma good_hdrs_ok t : forallb good_hdrb t = true -> Forall good_hdr t.
Proof. intros H. apply Forall_forall. intros h Hh. apply good_hdrb_ok. rewrite forallb_forall in H. auto. Qed.
Lemma good : Forall good_hdr hdrs.
Proof. apply good_hdrs_ok. reflexivity. Qed.
Definition strs_cstr (l : list str) : bool := forallb (fun s => forallb (fun c => negb (ceqb c NUL)) s) l.
Lemma strs_cstr_ok l : strs_cstr l = true -> Forall cstr l.
Proof.
  unfold strs_cstr. rewrite forallb_forall. intros H. apply Forall_forall. intros s Hs Hi. apply H in Hs.
  rewrite forallb_forall in Hs. apply Hs in Hi. apply negb_true_iff in Hi. destruct (ceqb_spec NUL NUL); congruence.
Qed.
Lemma call_ok a0 rest cap s : 1 <= cap -> strs_cstr (map lit rest) = true ->
  call cap tab (en cap) (heap0 (a0 :: rest)) 1 (lit a0) (map lit rest) (S (total (map lit rest)) + s).
Proof.
  intros Hc Hs. constructor.
  - unfold wf_end, en, arg_end_new. cbn. unfold fresh, zlen. rewrite !map_length, seq_length. repeat split; lia.
  - apply good.
  - apply strs_cstr_ok; auto.
  - exists [None]. cbn. reflexivity.
  - lia.
Qed.

