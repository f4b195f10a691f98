(** C13 (block exchange of the argv permutation) and C15 (building of the option tables). *)
From Verif Require Import Base IntModel GetoptModel PermuteProofs ParseModel ParseSpec OptTables.
From Coq Require Import ZArith List Ascii String Bool Lia.
Import ListNotations.
Open Scope Z_scope.

(** C13. Two adjacent blocks [a] and [b] (the second not empty) at any place in an array of any
    kind are exchanged; nothing else moves, and no division by zero or access outside the array
    happens. Since [pre] and [post] may be empty, the accesses are inside the two blocks. *)
Theorem C13_block_exchange :
  forall (A : Type) (pre a b post : list A), b <> [] ->
  permute_args (zlen pre) (zlen pre + zlen a) (zlen pre + zlen a + zlen b) (pre ++ a ++ b ++ post)
  = Ok (pre ++ b ++ a ++ post).
Proof. intros A. exact (@permute_args_exchange A). Qed.

Example C13_case :
  permute_args 2 8 12 [100; 101; 1; 2; 3; 4; 5; 6; 11; 12; 13; 14; 200]
  = Ok [100; 101; 11; 12; 13; 14; 1; 2; 3; 4; 5; 6; 200].
Proof. vm_compute. reflexivity. Qed.
Example C13_case_hyp : [11; 12; 13; 14] <> @nil Z. Proof. discriminate. Qed.

(** The condition on [b] is needed: with no options to move, gcd divides by zero. *)
Theorem C13_empty_second_block_refuted :
  exists (pre a post : list Z), permute_args (zlen pre) (zlen pre + zlen a) (zlen pre + zlen a) (pre ++ a ++ post) = UB DivByZero.
Proof. exists [1], [2; 3], [4]. vm_compute. reflexivity. Qed.

(** C15, long options: if every longopts string is NULL or non-empty and not starting with a comma,
    filling the block stays inside it whatever the block contained, and the scanner then sees
    exactly the comma separated names of the entries, each with the index of its entry. *)
Theorem C15_long_options_in_bounds :
  forall (junko : nat -> rawopt) (junkc : nat -> ascii) (t : list hdr),
  (forall h l, In h t -> h_longopts h = Some l -> cstr l /\ l <> [] /\ hd0 l <> ","%char) ->
  exists lo, alloc_longoptions junko junkc t = Ok lo /\
    map (fun o => (lo_name o, lo_val o)) lo = map (fun p => (fst p, Z.of_nat (fst (snd p)))) (long_names t 0).
Proof.
  intros junko junkc t H. exists (lopts_of t 0). split.
  - apply alloc_longoptions_ok. apply Forall_forall. intros h Hh. unfold good_longopts.
    destruct (h_longopts h) eqn:E; auto. eapply H; eauto.
  - change 0 with (Z.of_nat 0) at 1. generalize 0%nat. clear H.
    induction t as [|h t IH]; intros i; cbn [lopts_of long_names map]; auto.
    rewrite !map_app, !map_map. cbn [fst snd mk_lopt lo_name lo_val]. f_equal.
    replace (Z.of_nat i + 1) with (Z.of_nat (S i)) by lia. apply IH.
Qed.

(** C15, short options. *)
Theorem C15_short_options_in_bounds :
  forall (junkc : nat -> ascii) (t : list hdr),
  (forall h so, In h t -> h_shortopts h = Some so -> cstr so) ->
  exists s, alloc_shortoptions junkc t = Ok s.
Proof.
  intros junkc t H. eexists. apply alloc_shortoptions_ok.
  unfold cstr, short_string. intros Hin. apply in_flat_map in Hin as (h & Hh & Hin).
  apply in_flat_map in Hin as (c & Hc & Hin). unfold hdr_shorts in Hc.
  destruct (h_shortopts h) as [so|] eqn:E; [|destruct Hc]. pose proof (H _ _ Hh E) as HC.
  unfold short_one in Hin. destruct Hin as [->|Hin]; [exact (HC Hc)|].
  apply in_app_iff in Hin as [Hin|Hin].
  - destruct (h_hasvalue h); [|destruct Hin]. destruct Hin as [Hin|[]]. discriminate.
  - destruct (h_hasoptvalue h); [|destruct Hin]. destruct Hin as [Hin|[]]. discriminate.
Qed.

Definition ex_hdr (so lo : option string) (v ov : bool) : hdr :=
  {| h_hasvalue := v; h_hasoptvalue := ov; h_shortopts := option_map lit so; h_longopts := option_map lit lo;
     h_datatype := None; h_glossary := None; h_mincount := 0; h_maxcount := 2 |}.

Definition ex_junko (_ : nat) : rawopt := {| ro_name := Some 7; ro_has_arg := 9; ro_flag := false; ro_val := 77 |}.
Definition ex_junkc (_ : nat) : ascii := "#"%char.

Example C15_case :
  alloc_longoptions ex_junko ex_junkc [ex_hdr None (Some "verbose,debug"%string) false false; ex_hdr (Some "x"%string) None false false; ex_hdr None (Some "out,"%string) true false]
  = Ok [ {| lo_name := lit "verbose"; lo_has_arg := 0; lo_flag := true; lo_val := 0 |};
         {| lo_name := lit "debug"; lo_has_arg := 0; lo_flag := true; lo_val := 0 |};
         {| lo_name := lit "out"; lo_has_arg := 1; lo_flag := true; lo_val := 2 |} ].
Proof. vm_compute. reflexivity. Qed.
Example C15_case_short :
  alloc_shortoptions ex_junkc [ex_hdr (Some "ab"%string) None false false; ex_hdr (Some "o"%string) None true false; ex_hdr (Some "pq"%string) None true true]
  = Ok (lit ":abo:p::q::").
Proof. vm_compute. reflexivity. Qed.

(** C15, the conditions are needed: a leading comma overruns the block of options, an empty string
    is read past its end. *)
Theorem C15_leading_comma_refuted :
  exists t : list hdr, forall junko junkc, alloc_longoptions junko junkc t = UB OOBWrite.
Proof. exists [ex_hdr None (Some ",x"%string) false false]. intros. vm_compute. reflexivity. Qed.
Theorem C15_empty_longopts_refuted :
  exists t : list hdr, forall junko junkc, alloc_longoptions junko junkc t = UB OOBRead.
Proof. exists [ex_hdr None (Some ""%string) false false]. intros. vm_compute. reflexivity. Qed.

Print Assumptions C13_block_exchange.
Print Assumptions C13_empty_second_block_refuted.
Print Assumptions C15_long_options_in_bounds.
Print Assumptions C15_short_options_in_bounds.
Print Assumptions C15_leading_comma_refuted.
Print Assumptions C15_empty_longopts_refuted.
