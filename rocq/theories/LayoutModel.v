(** LayoutModel: how the constructors compute the size of the block of an entry and place its arrays in it. *)
From Coq Require Import ZArith List Bool.
From Verif Require Import Base.
Import ListNotations.
Open Scope Z_scope.

(** What the compiler decides: the size (and alignment) of pointers, also of pointers to functions, and of size_t; size and
    alignment of struct tm. int has 4 bytes and double 8. *)
Record abi := { ptr_size : Z; tm_size : Z; tm_align : Z }.

(** The layout of a structure with the given (size, alignment) of its members: each at the next multiple of its alignment, the
    whole padded to a multiple of the largest. *)
Definition round_up (n a : Z) : Z := n + (- n) mod a.
Definition members_end (fields : list (Z * Z)) : Z := fold_left (fun off f => round_up off (snd f) + fst f) fields 0.
Definition struct_align (fields : list (Z * Z)) : Z := fold_left (fun a f => Z.max a (snd f)) fields 1.
Definition struct_size (fields : list (Z * Z)) : Z := round_up (members_end fields) (struct_align fields).

(** An array in the block: address, size and alignment of an element, number of elements. *)
Record placed := { p_addr : Z; p_size : Z; p_align : Z; p_count : Z }.
(** [l_head]: sizeof the structure itself, at the start of the block. *)
Record layout := { l_bytes : Z; l_head : Z; l_arrays : list placed }.

Section Layout.
Context (A : abi).
Notation W := (ptr_size A).
Definition pointer : Z * Z := (W, W).
Definition int_ : Z * Z := (4, 4).
Definition char_ : Z * Z := (1, 1).

(** Conversion to size_t *)
Definition size_t (n : Z) : Z := n mod 2 ^ (8 * W).

(** struct arg_hdr: argtable3.h lines 104-118 *)
Definition hdr_fields : list (Z * Z) :=
  [char_; pointer; pointer; pointer; pointer; int_; int_; pointer; pointer; pointer; pointer; pointer; pointer].
Definition hdr_ : Z * Z := (struct_size hdr_fields, struct_align hdr_fields).
(** struct arg_int, arg_dbl, arg_str, arg_rex (one array: lines 139-170), arg_file (175-181), arg_date (186-191), arg_end (198-204) *)
Definition one_array : Z := struct_size [hdr_; int_; pointer].
Definition arg_file_ : Z := struct_size [hdr_; int_; pointer; pointer; pointer].
Definition arg_date_ : Z := struct_size [hdr_; pointer; int_; pointer].
Definition arg_end_ : Z := struct_size [hdr_; int_; pointer; pointer; pointer].
(** struct privhdr: arg_rex.c lines 120-123 *)
Definition privhdr_ : Z * Z := (struct_size [pointer; int_], struct_align [pointer; int_]).

Definition array (addr : Z) (elem : Z * Z) (count : Z) : placed := {| p_addr := addr; p_size := fst elem; p_align := snd elem; p_count := count |}.
(** maxcount = (maxcount < mincount) ? mincount : maxcount; in all constructors but arg_end's *)
Definition normalise (mincount maxcount : Z) : Z := if maxcount <? mincount then mincount else maxcount.

(** Every function gets [base], the address of the block from xmalloc, and the two counts. *)

(** arg_intn: arg_int.c lines 262-285 *)
Definition int_layout (base mincount maxcount : Z) : layout :=
  let maxcount := normalise mincount maxcount in
  {| l_bytes := size_t (one_array + size_t maxcount * 4); l_head := one_array;
     l_arrays := [array (base + one_array) int_ maxcount] |}.
(** arg_strn: arg_str.c lines 115-138 *)
Definition str_layout (base mincount maxcount : Z) : layout :=
  let maxcount := normalise mincount maxcount in
  {| l_bytes := size_t (one_array + size_t maxcount * W); l_head := one_array;
     l_arrays := [array (base + one_array) pointer maxcount] |}.
(** arg_filen: arg_file.c lines 169-197 *)
Definition file_layout (base mincount maxcount : Z) : layout :=
  let maxcount := normalise mincount maxcount in
  let filename := base + arg_file_ in
  let basename := filename + maxcount * W in
  let extension := basename + maxcount * W in
  {| l_bytes := size_t (arg_file_ + W * size_t maxcount + W * size_t maxcount + W * size_t maxcount); l_head := arg_file_;
     l_arrays := [array filename pointer maxcount; array basename pointer maxcount; array extension pointer maxcount] |}.
(** arg_daten: arg_date.c lines 127-156 *)
Definition date_layout (base mincount maxcount : Z) : layout :=
  let maxcount := normalise mincount maxcount in
  {| l_bytes := size_t (arg_date_ + size_t maxcount * tm_size A); l_head := arg_date_;
     l_arrays := [array (base + arg_date_) (tm_size A, tm_align A) maxcount] |}.
(** arg_rexn: arg_rex.c lines 242-271; the first array is the one private structure *)
Definition rex_layout (base mincount maxcount : Z) : layout :=
  let maxcount := normalise mincount maxcount in
  let priv := base + one_array in
  {| l_bytes := size_t (one_array + fst privhdr_ + size_t maxcount * W); l_head := one_array;
     l_arrays := [array priv privhdr_ 1; array (priv + fst privhdr_) pointer maxcount] |}.
(** arg_dbln: arg_dbl.c lines 123-152 *)
Definition dbl_layout (base mincount maxcount : Z) : res layout :=
  let maxcount := normalise mincount maxcount in
  n <- (if in_intb (maxcount + 1) then Ok (maxcount + 1) else UB SignedOverflow) ;;
  let addr := base + one_array in
  let rem := addr mod 8 in
  let dval := size_t (addr + 8 - rem) in
  Ok {| l_bytes := size_t (one_array + size_t n * 8); l_head := one_array; l_arrays := [array dval (8, 8) maxcount] |}.
(** arg_end: arg_end.c lines 78-109 *)
Definition end_layout (base maxcount : Z) : layout :=
  let error := base + arg_end_ in
  let parent := error + maxcount * 4 in
  let argval := parent + maxcount * W in
  {| l_bytes := size_t (arg_end_ + size_t maxcount * 4 + size_t maxcount * W + size_t maxcount * W); l_head := arg_end_;
     l_arrays := [array error int_ maxcount; array parent pointer maxcount; array argval pointer maxcount] |}.
End Layout.
