(** C27 and C57: floating point arguments, and the arrays behind the structures of entries. *)
From Coq Require Import ZArith String List Ascii Bool Lia.
From Verif Require Import Base IntModel ParseModel ArgModel LayoutModel.
Import ListNotations.
Open Scope Z_scope.

(** ** The expectation *)

(** The compilers considered: 64-bit or 32-bit pointers; struct tm padded to its alignment, which is at most that of a pointer. *)
Definition usual (A : abi) : Prop :=
  (ptr_size A = 8 /\ (tm_align A = 8 \/ tm_align A = 4) \/ ptr_size A = 4 /\ tm_align A = 4) /\
  0 < tm_size A /\ tm_size A mod tm_align A = 0.
(** The arrays lie one after the other between [from] and [upto], at addresses that suit their elements. *)
Fixpoint in_order (from upto : Z) (l : list placed) : Prop :=
  match l with
  | [] => from <= upto
  | p :: l => from <= p_addr p /\ p_addr p mod p_align p = 0 /\ 0 <= p_count p /\ in_order (p_addr p + p_size p * p_count p) upto l
  end.
(** ... between the structure and the end of the block. *)
Definition well_placed (base : Z) (l : layout) : Prop := in_order (base + l_head l) (base + l_bytes l) (l_arrays l).
Definition counts (l : layout) : list Z := map p_count (l_arrays l).
(** What the block needs, for [slots] bytes per occurrence: it must be a possible object (and not wrap around in size_t). *)
Definition possible (A : abi) (base bytes : Z) : Prop := 0 <= base /\ base mod ptr_size A = 0 /\ base + bytes < 2 ^ (8 * ptr_size A).

Lemma size_t_id A n : 0 <= n < 2 ^ (8 * ptr_size A) -> size_t A n = n.
Proof. intro H. unfold size_t. apply Z.mod_small. exact H. Qed.
Lemma round_up_mod n a : 0 < a -> round_up n a mod a = 0.
Proof. intro H. unfold round_up. rewrite Zplus_mod_idemp_r. replace (n + - n) with 0 by lia. apply Z.mod_0_l. lia. Qed.

(** The sizes of the structures on the two kinds of machine. *)
Lemma sizes A : usual A ->
  (ptr_size A = 8 /\ one_array A = 112 /\ arg_file_ A = 128 /\ arg_date_ A = 120 /\ arg_end_ A = 128 /\ privhdr_ A = (16, 8)) \/
  (ptr_size A = 4 /\ one_array A = 60 /\ arg_file_ A = 68 /\ arg_date_ A = 64 /\ arg_end_ A = 68 /\ privhdr_ A = (8, 4)).
Proof.
  intros [[[E _]|[E _]] _]; [left|right]; (split; [exact E|]); destruct A as [w s a]; cbn [ptr_size] in E; subst w; repeat split.
Qed.

Lemma norm_ge mn mx : mn <= normalise mn mx /\ mx <= normalise mn mx /\ (normalise mn mx = mn \/ normalise mn mx = mx).
Proof. unfold normalise. destruct (Z.ltb_spec mx mn); lia. Qed.

Lemma mod_add_mul a b n k : 0 < n -> a mod n = 0 -> k mod n = 0 -> (a + b * k) mod n = 0.
Proof. intros N A B. rewrite Z.add_mod, Z.mul_mod by lia. rewrite A, B, Z.mul_0_r, (Z.mod_0_l n), Z.add_0_l by lia. apply Z.mod_0_l. lia. Qed.
Lemma mod_add a b n : 0 < n -> a mod n = 0 -> b mod n = 0 -> (a + b) mod n = 0.
Proof. intros N A B. rewrite Z.add_mod by lia. rewrite A, B. apply Z.mod_0_l. lia. Qed.

(** ** C57: one statement per constructor *)
Section Constructors.
Context (A : abi) (U : usual A).
Notation W := (ptr_size A).

Theorem C57_int : forall base mn mx n, n = Z.max mn mx -> 0 <= n -> possible A base (one_array A + 4 * n) ->
  well_placed base (int_layout A base mn mx) /\ counts (int_layout A base mn mx) = [n].
Proof.
  intros base mn mx n E N (B0 & BM & BE). unfold well_placed, counts, int_layout. cbn [l_bytes l_head l_arrays map array p_count].
  assert (EN : normalise mn mx = n) by (unfold normalise; destruct (Z.ltb_spec mx mn); lia). rewrite EN.
  destruct (sizes A U) as [(EW & E1 & _)|(EW & E1 & _)]; rewrite EW, E1 in *.
  - rewrite (size_t_id A n), (size_t_id A) by (rewrite EW; change (8 * 8) with 64 in *; change (8 * 4) with 32 in *; lia).
    cbn [in_order array p_addr p_align p_count p_size fst snd int_]. split; [|reflexivity]. repeat split; try lia.
    rewrite <- (Z.mul_1_l 112) at 1. apply mod_add_mul; [lia| |reflexivity]. apply Z.mod_divide; [lia|]. apply Z.mod_divide in BM; [|lia]. destruct BM as [k ->]. exists (2 * k). lia.
  - rewrite (size_t_id A n), (size_t_id A) by (rewrite EW; change (8 * 8) with 64 in *; change (8 * 4) with 32 in *; lia).
    cbn [in_order array p_addr p_align p_count p_size fst snd int_]. split; [|reflexivity]. repeat split; try lia.
    apply mod_add; [lia|exact BM|reflexivity].
Qed.

Theorem C57_str : forall base mn mx n, n = Z.max mn mx -> 0 <= n -> possible A base (one_array A + W * n) ->
  well_placed base (str_layout A base mn mx) /\ counts (str_layout A base mn mx) = [n].
Proof.
  intros base mn mx n E N (B0 & BM & BE). unfold well_placed, counts, str_layout. cbn [l_bytes l_head l_arrays map array p_count].
  assert (EN : normalise mn mx = n) by (unfold normalise; destruct (Z.ltb_spec mx mn); lia). rewrite EN.
  destruct (sizes A U) as [(EW & E1 & _)|(EW & E1 & _)]; unfold pointer; rewrite EW, E1 in *;
    rewrite (size_t_id A n), (size_t_id A) by (rewrite EW; change (8 * 8) with 64 in *; change (8 * 4) with 32 in *; lia);
    cbn [in_order array p_addr p_align p_count p_size fst snd]; (split; [|reflexivity]); repeat split; try lia;
    apply mod_add; (lia || exact BM || reflexivity).
Qed.

Theorem C57_file : forall base mn mx n, n = Z.max mn mx -> 0 <= n -> possible A base (arg_file_ A + 3 * W * n) ->
  well_placed base (file_layout A base mn mx) /\ counts (file_layout A base mn mx) = [n; n; n].
Proof.
  intros base mn mx n E N (B0 & BM & BE). unfold well_placed, counts, file_layout. cbn [l_bytes l_head l_arrays map array p_count].
  assert (EN : normalise mn mx = n) by (unfold normalise; destruct (Z.ltb_spec mx mn); lia). rewrite EN.
  destruct (sizes A U) as [(EW & _ & E1 & _)|(EW & _ & E1 & _)]; unfold pointer; rewrite EW, E1 in *;
    rewrite (size_t_id A n), (size_t_id A) by (rewrite EW; change (8 * 8) with 64 in *; change (8 * 4) with 32 in *; lia);
    cbn [in_order array p_addr p_align p_count p_size fst snd]; (split; [|reflexivity]); repeat split; try lia;
    repeat (apply mod_add_mul; [lia| |reflexivity]); apply mod_add; (lia || exact BM || reflexivity).
Qed.

Theorem C57_date : forall base mn mx n, n = Z.max mn mx -> 0 <= n -> possible A base (arg_date_ A + tm_size A * n) ->
  well_placed base (date_layout A base mn mx) /\ counts (date_layout A base mn mx) = [n].
Proof.
  intros base mn mx n E N (B0 & BM & BE). unfold well_placed, counts, date_layout. cbn [l_bytes l_head l_arrays map array p_count].
  assert (EN : normalise mn mx = n) by (unfold normalise; destruct (Z.ltb_spec mx mn); lia). rewrite EN.
  assert (TS : 0 < tm_size A) by apply U. assert (NT : n <= n * tm_size A) by nia.
  destruct (sizes A U) as [(EW & _ & _ & E1 & _)|(EW & _ & _ & E1 & _)]; rewrite EW, E1 in *;
    rewrite (size_t_id A n), (size_t_id A) by (rewrite EW; change (8 * 8) with 64 in *; change (8 * 4) with 32 in *; nia);
    cbn [in_order array p_addr p_align p_count p_size fst snd]; (split; [|reflexivity]); repeat split; try nia.
  - apply Z.mod_divide in BM; [|lia]. destruct BM as [k ->]. destruct U as [[[_ [->| ->]]|[W4 _]] _]; [| |lia].
    + apply Z.mod_divide; [lia|]. exists (k + 15). lia.
    + apply Z.mod_divide; [lia|]. exists (2 * k + 30). lia.
  - destruct U as [[[W8 _]|[_ ->]] _]; [lia|]. apply mod_add; (lia || exact BM || reflexivity).
Qed.

Theorem C57_rex : forall base mn mx n, n = Z.max mn mx -> 0 <= n -> possible A base (one_array A + fst (privhdr_ A) + W * n) ->
  well_placed base (rex_layout A base mn mx) /\ counts (rex_layout A base mn mx) = [1; n].
Proof.
  intros base mn mx n E N (B0 & BM & BE). unfold well_placed, counts, rex_layout. cbn [l_bytes l_head l_arrays map array p_count].
  assert (EN : normalise mn mx = n) by (unfold normalise; destruct (Z.ltb_spec mx mn); lia). rewrite EN.
  destruct (sizes A U) as [(EW & E1 & _ & _ & _ & E2)|(EW & E1 & _ & _ & _ & E2)]; unfold pointer; rewrite EW, E1, E2 in *; cbn [fst snd] in *;
    rewrite (size_t_id A n), (size_t_id A) by (rewrite EW; change (8 * 8) with 64 in *; change (8 * 4) with 32 in *; lia);
    cbn [in_order array p_addr p_align p_count p_size fst snd]; (split; [|reflexivity]); repeat split; try lia;
    repeat (apply mod_add; [lia| |reflexivity]); exact BM.
Qed.

(** arg_end: with a 4 byte error code in front of the pointers, only even counts give aligned pointers on a 64-bit machine. *)
Theorem C57_end : forall base n, 0 <= n -> (W = 8 -> n mod 2 = 0) -> possible A base (arg_end_ A + (4 + 2 * W) * n) ->
  well_placed base (end_layout A base n) /\ counts (end_layout A base n) = [n; n; n].
Proof.
  intros base n N EV (B0 & BM & BE). unfold well_placed, counts, end_layout. cbn [l_bytes l_head l_arrays map array p_count].
  destruct (sizes A U) as [(EW & _ & _ & _ & E1 & _)|(EW & _ & _ & _ & E1 & _)]; unfold pointer; rewrite EW, E1 in *;
    rewrite (size_t_id A n), (size_t_id A) by (rewrite EW; change (8 * 8) with 64 in *; change (8 * 4) with 32 in *; lia);
    cbn [in_order array p_addr p_align p_count p_size fst snd int_]; (split; [|reflexivity]); repeat split; try lia.
  - apply Z.mod_divide; [lia|]. apply Z.mod_divide in BM; [|lia]. destruct BM as [k ->]. exists (2 * k + 32). lia.
  - specialize (EV eq_refl). apply Z.mod_divide in EV; [|lia]. destruct EV as [j ->]. apply Z.mod_divide in BM; [|lia]. destruct BM as [k ->].
    apply Z.mod_divide; [lia|]. exists (k + 16 + j). lia.
  - specialize (EV eq_refl). apply Z.mod_divide in EV; [|lia]. destruct EV as [j ->]. apply Z.mod_divide in BM; [|lia]. destruct BM as [k ->].
    apply Z.mod_divide; [lia|]. exists (k + 16 + j + 2 * j). lia.
  - apply mod_add; (lia || exact BM || reflexivity).
  - apply Z.mod_divide in BM; [|lia]. destruct BM as [k ->]. apply Z.mod_divide; [lia|]. exists (k + 17 + n). lia.
  - apply Z.mod_divide in BM; [|lia]. destruct BM as [k ->]. apply Z.mod_divide; [lia|]. exists (k + 17 + n + n). lia.
Qed.

(** ** C27: the array of doubles, wherever the allocator put the block *)
Theorem C27_placement : forall base mn mx n, n = Z.max mn mx -> 0 <= n -> n < INT_MAX ->
  0 <= base -> base + one_array A + 8 * (n + 1) < 2 ^ (8 * W) ->
  exists l, dbl_layout A base mn mx = Ok l /\ well_placed base l /\ counts l = [n].
Proof.
  intros base mn mx n E N NI B0 BE. unfold dbl_layout.
  assert (EN : normalise mn mx = n) by (unfold normalise; destruct (Z.ltb_spec mx mn); lia). rewrite EN.
  assert (IN : in_intb (n + 1) = true) by (unfold in_intb, INT_MIN, INT_MAX in *; apply andb_true_iff; split; apply Z.leb_le; lia).
  rewrite IN. cbn [bind]. eexists. split; [reflexivity|]. unfold well_placed, counts. cbn [l_bytes l_head l_arrays map array p_count]. split; [|reflexivity].
  assert (R := Z.mod_pos_bound (base + one_array A) 8 ltac:(lia)).
  assert (P : 0 < one_array A) by (destruct (sizes A U) as [(_ & -> & _)|(_ & -> & _)]; lia).
  rewrite (size_t_id A (n + 1)), (size_t_id A (one_array A + _)), (size_t_id A) by lia.
  cbn [in_order array p_addr p_align p_count p_size fst snd]. repeat split; try lia.
  replace (base + one_array A + 8 - (base + one_array A) mod 8) with (8 * (1 + (base + one_array A) / 8)).
  - rewrite Z.mul_comm. apply Z.mod_mul. lia.
  - rewrite (Z.div_mod (base + one_array A) 8) at 2 by lia. lia.
Qed.
End Constructors.

(** ** C27: a value is taken iff strtod reads the whole text *)
(** [strtod s = (d, k)]: the value and the number of characters read; a C string has no NUL and strtod stays inside it. *)
Theorem C27_scan : forall D (strtod : str -> D * nat) maxcount (p : @arg_dbl D) s d k,
  0 <= dbl_count p < maxcount -> zlen (dbl_dval p) = maxcount -> strtod s = (d, k) -> (k <= List.length s)%nat ->
  (k = List.length s -> exists q, arg_dbl_scanfn strtod maxcount p (Some s) = Ok (q, 0) /\
     dbl_count q = dbl_count p + 1 /\
     nth_error (dbl_dval q) (Z.to_nat (dbl_count p)) = Some d /\
     (forall i, i <> Z.to_nat (dbl_count p) -> nth_error (dbl_dval q) i = nth_error (dbl_dval p) i)) /\
  (k <> List.length s -> arg_dbl_scanfn strtod maxcount p (Some s) = Ok (p, ARG_ERR_BADDOUBLE)).
Proof.
  intros D strtod mx p s d k C L S K. unfold arg_dbl_scanfn. destruct (Z.eqb_spec (dbl_count p) mx); [lia|]. rewrite S.
  destruct (Nat.ltb_spec (List.length s) k); [lia|].
  destruct (skipn k s) as [|c r] eqn:E.
  - assert (k = List.length s) by (assert (X := skipn_length k s); rewrite E in X; cbn in X; lia).
    split; [intros _|congruence].
    rewrite aset_ok by lia. cbn [bind]. eexists. split; [reflexivity|]. cbn [dbl_count dbl_dval]. repeat split.
    + apply nth_error_lupd_eq. unfold zlen in L. lia.
    + intros i NE. apply nth_error_lupd_neq. auto.
  - split; [|reflexivity]. intros ->. rewrite skipn_all in E. discriminate.
Qed.

(** The two refused cases of the first statement: the empty text is a number; "1x" is not. *)
Corollary C27_empty : forall D (strtod : str -> D * nat) maxcount (p : @arg_dbl D) d k,
  0 <= dbl_count p < maxcount -> zlen (dbl_dval p) = maxcount -> strtod [] = (d, k) -> (k <= 0)%nat ->
  exists q, arg_dbl_scanfn strtod maxcount p (Some []) = Ok (q, 0) /\ nth_error (dbl_dval q) (Z.to_nat (dbl_count p)) = Some d.
Proof.
  intros D strtod mx p d k C L S K. destruct (C27_scan D strtod mx p [] d k C L S K) as [H _].
  destruct H as (q & E & _ & V & _); [cbn [List.length]; lia|]. exists q. auto.
Qed.

(** ** What goes wrong outside the hypotheses *)
(** With an odd count the pointer arrays of arg_end are not aligned on a 64-bit machine, wherever the block is. *)
Theorem C57_end_odd_refuted : forall A base n, usual A -> ptr_size A = 8 -> base mod 8 = 0 -> n mod 2 = 1 ->
  exists error parent argval, l_arrays (end_layout A base n) = [error; parent; argval] /\
    p_addr parent mod p_align parent = 4 /\ p_addr argval mod p_align argval = 4.
Proof.
  intros A base n U EW BM ODD. do 3 eexists. split; [reflexivity|].
  destruct (sizes A U) as [(_ & _ & _ & _ & E1 & _)|(EW' & _)]; [|lia].
  unfold pointer. cbn [p_addr p_align array fst snd]. rewrite EW, E1.
  apply Z.mod_divide in BM; [|lia]. destruct BM as [k ->].
  assert (exists j, n = 2 * j + 1) as [j ->] by (exists (n / 2); rewrite (Z.div_mod n 2) at 1 by lia; lia).
  split.
  - replace (k * 8 + 128 + (2 * j + 1) * 4) with (4 + (k + 16 + j) * 8) by lia. rewrite Z.mod_add by lia. reflexivity.
  - replace (k * 8 + 128 + (2 * j + 1) * 4 + (2 * j + 1) * 8) with (4 + (k + 16 + j + 2 * j + 1) * 8) by lia. rewrite Z.mod_add by lia. reflexivity.
Qed.

Definition lp64 : abi := {| ptr_size := 8; tm_size := 56; tm_align := 8 |}.
Definition ilp32 : abi := {| ptr_size := 4; tm_size := 44; tm_align := 4 |}.

(** On a 32-bit machine the size of the block wraps around: room for no value at all where 2^30 are promised. *)
Theorem C57_wrap_refuted : exists base mx, 0 <= mx <= INT_MAX /\ base mod 4 = 0 /\
  l_bytes (int_layout ilp32 base 0 mx) = l_head (int_layout ilp32 base 0 mx) /\ counts (int_layout ilp32 base 0 mx) = [mx] /\
  ~ well_placed base (int_layout ilp32 base 0 mx).
Proof.
  exists 4096, 1073741824. split; [unfold INT_MAX; lia|]. split; [reflexivity|]. split; [reflexivity|]. split; [reflexivity|].
  unfold well_placed. vm_compute. intros (_ & _ & _ & H). apply H. reflexivity.
Qed.
(** A negative maximum makes the block smaller than the structure written into it, on every machine. *)
Theorem C57_negative_refuted : exists base mn mx, l_bytes (int_layout lp64 base mn mx) < l_head (int_layout lp64 base mn mx).
Proof. exists 4096, (-5), (-5). reflexivity. Qed.
(** The largest maximum overflows in arg_dbln's own arithmetic. *)
Theorem C27_intmax_refuted : forall A base mn, mn <= INT_MAX -> dbl_layout A base mn INT_MAX = UB SignedOverflow.
Proof.
  intros A base mn H. unfold dbl_layout, normalise. destruct (Z.ltb_spec INT_MAX mn); [lia|]. reflexivity.
Qed.

(** ** Examples *)
Example C57_ex : usual lp64 /\ usual ilp32 /\ possible lp64 65552 (arg_file_ lp64 + 3 * 8 * 5) /\
  file_layout lp64 65552 1 5 = {| l_bytes := 248; l_head := 128; l_arrays :=
    [ {| p_addr := 65680; p_size := 8; p_align := 8; p_count := 5 |};
      {| p_addr := 65720; p_size := 8; p_align := 8; p_count := 5 |};
      {| p_addr := 65760; p_size := 8; p_align := 8; p_count := 5 |} ] |} /\
  end_layout ilp32 4100 3 = {| l_bytes := 104; l_head := 68; l_arrays :=
    [ {| p_addr := 4168; p_size := 4; p_align := 4; p_count := 3 |};
      {| p_addr := 4180; p_size := 4; p_align := 4; p_count := 3 |};
      {| p_addr := 4192; p_size := 4; p_align := 4; p_count := 3 |} ] |} /\
  date_layout lp64 64 2 0 = {| l_bytes := 232; l_head := 120; l_arrays := [ {| p_addr := 184; p_size := 56; p_align := 8; p_count := 2 |} ] |} /\
  rex_layout lp64 64 0 1 = {| l_bytes := 136; l_head := 112; l_arrays :=
    [ {| p_addr := 176; p_size := 16; p_align := 8; p_count := 1 |}; {| p_addr := 192; p_size := 8; p_align := 8; p_count := 1 |} ] |}.
Proof.
  split; [|split; [|split]].
  - unfold usual, lp64. cbn [ptr_size tm_size tm_align]. split; [left; auto|split; [lia|reflexivity]].
  - unfold usual, ilp32. cbn [ptr_size tm_size tm_align]. split; [right; auto|split; [lia|reflexivity]].
  - unfold possible. split; [lia|split; reflexivity].
  - repeat split.
Qed.
(** The block of arg_dbln is at an address that is only a multiple of four: 60 bytes of structure, four of padding. *)
Example C27_ex : dbl_layout ilp32 4096 1 3 = Ok {| l_bytes := 92; l_head := 60; l_arrays := [ {| p_addr := 4160; p_size := 8; p_align := 8; p_count := 3 |} ] |} /\
  dbl_layout ilp32 4100 1 3 = Ok {| l_bytes := 92; l_head := 60; l_arrays := [ {| p_addr := 4168; p_size := 8; p_align := 8; p_count := 3 |} ] |}.
Proof. split; reflexivity. Qed.
(** A stand-in for strtod that reads digits. *)
Definition digits_only (s : str) : Z * nat :=
  (fix go s v n := match s with c :: s => if isdigitb c then go s (v * 10 + (uc c - 48)) (S n) else (v, n) | [] => (v, n) end) s 0 0%nat.
Example C27_scan_ex : let p := {| dbl_count := 1; dbl_dval := [7; 0; 0] |} in
  arg_dbl_scanfn digits_only 3 p (Some (lit "42")) = Ok ({| dbl_count := 2; dbl_dval := [7; 42; 0] |}, 0) /\
  arg_dbl_scanfn digits_only 3 p (Some (lit "4x")) = Ok (p, ARG_ERR_BADDOUBLE) /\
  arg_dbl_scanfn digits_only 3 p (Some (lit "")) = Ok ({| dbl_count := 2; dbl_dval := [7; 0; 0] |}, 0).
Proof. repeat split. Qed.

Print Assumptions C27_scan.
Print Assumptions C27_empty.
Print Assumptions C27_placement.
Print Assumptions C27_intmax_refuted.
Print Assumptions C57_int.
Print Assumptions C57_str.
Print Assumptions C57_file.
Print Assumptions C57_date.
Print Assumptions C57_rex.
Print Assumptions C57_end.
Print Assumptions C57_end_odd_refuted.
Print Assumptions C57_wrap_refuted.
Print Assumptions C57_negative_refuted.
