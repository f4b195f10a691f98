(** Properties C17, C18, C19: integer arguments (arg_int). *)
From Verif Require Import Base IntModel IntSpec IntProofs.
From Coq Require Import ZArith List Ascii String Bool Lia.
Import ListNotations.
Open Scope Z_scope.

(** C17. On LP64, with a free slot, a text is stored with its mathematical value when it is a
    well-formed literal in the range of int, reported as overflow when it is a well-formed literal
    out of range, and reported as bad syntax otherwise. *)
Theorem C17_int_accepts :
  forall maxcount p s v,
  0 <= int_count p < maxcount -> zlen (int_ival p) = maxcount ->
  ~ doubly_negated_huge (LONG_MAX Long64) s ->
  int_literal s v -> int_range v ->
  arg_int_scanfn Long64 maxcount p (Some s) =
    Ok ({| int_count := int_count p + 1; int_ival := lupd (int_ival p) (Z.to_nat (int_count p)) v |}, 0).
Proof. exact int_scan_accepts. Qed.

Theorem C17_int_overflow :
  forall maxcount p s v,
  0 <= int_count p < maxcount ->
  ~ doubly_negated_huge (LONG_MAX Long64) s ->
  int_literal s v -> ~ int_range v ->
  arg_int_scanfn Long64 maxcount p (Some s) = Ok (p, ARG_ERR_OVERFLOW).
Proof. exact int_scan_overflow. Qed.

Theorem C17_int_bad_syntax :
  forall maxcount p s,
  0 <= int_count p < maxcount ->
  ~ doubly_negated_huge (LONG_MAX Long64) s ->
  (forall v, ~ int_literal s v) ->
  arg_int_scanfn Long64 maxcount p (Some s) = Ok (p, ARG_ERR_BADINT).
Proof. exact int_scan_bad. Qed.

Theorem C17_int_accepted_only_literals :
  forall maxcount p p' s,
  0 <= int_count p < maxcount -> zlen (int_ival p) = maxcount ->
  arg_int_scanfn Long64 maxcount p (Some s) = Ok (p', 0) ->
  exists v, int_literal s v /\ int_range v /\ int_count p' = int_count p + 1 /\
            nth_error (int_ival p') (Z.to_nat (int_count p)) = Some v.
Proof. exact int_scan_zero_sound. Qed.

(** With a 32-bit long (Windows) the claim is false: the C library saturates at INT_MAX and the
    range check cannot notice. *)
Theorem C17_int_long32_refuted :
  exists s v, int_literal s v /\ ~ int_range v /\ int_convert Long32 s = Ok (inl INT_MAX).
Proof.
  exists (lit "99999999999"), 99999999999. split; [|split].
  - exists [], (lit "99999999999"), 99999999999, [], 1, [].
    split; [reflexivity|]. split; [constructor|]. split; [|split; [constructor|split; [constructor|reflexivity]]].
    change 99999999999 with (1 * 99999999999).
    apply (number_dec [] 1 (lit "99999999999")); [constructor|].
    apply digits_iff; [lia|]. split; [discriminate|]. split; [|reflexivity].
    repeat constructor.
  - unfold int_range, INT_MAX, INT_MIN. lia.
  - vm_compute. reflexivity.
Qed.

(** Concrete cases. *)
Example C17_case_kb :
  arg_int_scanfn Long64 2 {| int_count := 1; int_ival := [7; 0] |} (Some (lit " -0x10kb "))
  = Ok ({| int_count := 2; int_ival := [7; -16384] |}, 0).
Proof. vm_compute. reflexivity. Qed.
Example C17_case_literal : int_literal (lit " -0x10kb ") (-16384).
Proof.
  exists (lit " "), (lit "-0x10"), (-16), (lit "kb"), 1024, (lit " ").
  split; [reflexivity|]. split; [repeat constructor|]. split.
  - change (-16) with (-1 * (1 * 16)).
    apply (number_prefixed (lit "-") (-1) (lit "0x") 16 [] [] 1 [] (lit "10") 16); try constructor.
    apply digits_iff; [lia|]. split; [discriminate|]. split; [repeat constructor|reflexivity].
  - split; [apply ss_k; simpl; tauto|]. split; [repeat constructor|reflexivity].
Qed.
Example C17_case_overflow :
  arg_int_scanfn Long64 2 {| int_count := 1; int_ival := [7; 0] |} (Some (lit "2GB"))
  = Ok ({| int_count := 1; int_ival := [7; 0] |}, ARG_ERR_OVERFLOW).
Proof. vm_compute. reflexivity. Qed.
Example C17_case_bad :
  arg_int_scanfn Long64 2 {| int_count := 1; int_ival := [7; 0] |} (Some (lit "12 KB"))
  = Ok ({| int_count := 1; int_ival := [7; 0] |}, ARG_ERR_BADINT).
Proof. vm_compute. reflexivity. Qed.

(** C18. Scanning an integer is undefined exactly on doubly negated saturating texts. *)
Theorem C18_int_undefined_iff :
  forall m maxcount p s,
  0 <= int_count p < maxcount -> zlen (int_ival p) = maxcount ->
  (exists u, arg_int_scanfn m maxcount p (Some s) = UB u) <-> doubly_negated_huge (LONG_MAX m) s.
Proof. exact int_ub_iff. Qed.

Example C18_case :
  arg_int_scanfn Long64 1 {| int_count := 0; int_ival := [0] |} (Some (lit "-0x-8000000000000000"))
  = UB SignedOverflow.
Proof. vm_compute. reflexivity. Qed.

(** C19. Every int, printed in decimal or with any base prefix, is read back exactly. *)
Theorem C19_int_roundtrip :
  forall maxcount p n, int_range n ->
  0 <= int_count p < maxcount -> zlen (int_ival p) = maxcount ->
  forall t, (t = digits_of 10 (Z.abs n) \/ exists px base, base_prefix px base /\ t = px ++ digits_of base (Z.abs n)) ->
  exists p', arg_int_scanfn Long64 maxcount p (Some (sign_text n ++ t)) = Ok (p', 0) /\
    int_count p' = int_count p + 1 /\
    nth_error (int_ival p') (Z.to_nat (int_count p)) = Some n.
Proof. exact int_roundtrip_scan. Qed.

Example C19_case_min : sign_text INT_MIN ++ digits_of 10 (Z.abs INT_MIN) = lit "-2147483648"
  /\ digits_of 16 48879 = lit "beef".
Proof. vm_compute. auto. Qed.

(** Cases taken from /repo/tests/testargint.c. *)
Example int_test_1 : int_convert Long64 (lit "0x0F") = Ok (inl 15). Proof. vm_compute. reflexivity. Qed.
Example int_test_2 : int_convert Long64 (lit "-0x0a") = Ok (inl (-10)). Proof. vm_compute. reflexivity. Qed.
Example int_test_3 : int_convert Long64 (lit "0b0101") = Ok (inl 5). Proof. vm_compute. reflexivity. Qed.
Example int_test_4 : int_convert Long64 (lit "0o123") = Ok (inl 83). Proof. vm_compute. reflexivity. Qed.
Example int_test_5 : int_convert Long64 (lit "1.0") = Ok (inr ARG_ERR_BADINT). Proof. vm_compute. reflexivity. Qed.
Example int_test_6 : int_convert Long64 (lit "0b00KB") = Ok (inl 0). Proof. vm_compute. reflexivity. Qed.

Print Assumptions C17_int_accepts.
Print Assumptions C17_int_overflow.
Print Assumptions C17_int_bad_syntax.
Print Assumptions C17_int_accepted_only_literals.
Print Assumptions C17_int_long32_refuted.
Print Assumptions C18_int_undefined_iff.
Print Assumptions C19_int_roundtrip.
