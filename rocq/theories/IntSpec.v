(** Specification of integer arguments, independent of the model in IntModel.v:
    a grammar with values. *)
From Verif Require Import Base.
From Coq Require Import ZArith List Ascii String Bool.
Import ListNotations.
Open Scope Z_scope.

(** White space of the C locale: space, \t, \n, \v, \f, \r. *)
Definition space_char (c : ascii) : Prop :=
  In c [" "; "009"; "010"; "011"; "012"; "013"]%char.
Definition spaces (w : str) : Prop := Forall space_char w.

(** [digit_of base c d]: character [c] is the digit of value [d] in [base]. *)
Definition digit_of (base : Z) (c : ascii) (d : nat) : Prop :=
  Z.of_nat d < base /\
  (nth_error (lit "0123456789abcdef") d = Some c \/ nth_error (lit "0123456789ABCDEF") d = Some c).

(** Non-empty digit strings and the number they denote. *)
Inductive digits (base : Z) : str -> Z -> Prop :=
| digits_one c d : digit_of base c d -> digits base [c] (Z.of_nat d)
| digits_more s v c d : digits base s v -> digit_of base c d ->
                        digits base (s ++ [c]) (v * base + Z.of_nat d).

Inductive sign : str -> Z -> Prop :=
| sign_none : sign [] 1
| sign_plus : sign (lit "+") 1
| sign_minus : sign (lit "-") (-1).

(** The prefixes that select a base. *)
Inductive base_prefix : str -> Z -> Prop :=
| bp_x : base_prefix (lit "0x") 16 | bp_X : base_prefix (lit "0X") 16
| bp_o : base_prefix (lit "0o") 8  | bp_O : base_prefix (lit "0O") 8
| bp_b : base_prefix (lit "0b") 2  | bp_B : base_prefix (lit "0B") 2.

(** After the prefix the C library's own integer syntax applies, which again allows white
    space, a sign and, for base 16, another 0x. *)
Inductive inner_prefix (base : Z) : str -> Prop :=
| ip_none : inner_prefix base []
| ip_x : base = 16 -> inner_prefix base (lit "0x")
| ip_X : base = 16 -> inner_prefix base (lit "0X").

Inductive number : str -> Z -> Prop :=
| number_dec sg k ds v : sign sg k -> digits 10 ds v -> number (sg ++ ds) (k * v)
| number_prefixed sg k px base w sg2 k2 ip ds v :
    sign sg k -> base_prefix px base -> spaces w -> sign sg2 k2 -> inner_prefix base ip ->
    digits base ds v ->
    number (sg ++ px ++ w ++ sg2 ++ ip ++ ds) (k * (k2 * v)).

Inductive size_suffix : str -> Z -> Prop :=
| ss_none : size_suffix [] 1
| ss_k a b : In a ["k"; "K"]%char -> In b ["b"; "B"]%char -> size_suffix [a; b] 1024
| ss_m a b : In a ["m"; "M"]%char -> In b ["b"; "B"]%char -> size_suffix [a; b] 1048576
| ss_g a b : In a ["g"; "G"]%char -> In b ["b"; "B"]%char -> size_suffix [a; b] 1073741824.

(** [int_literal s v]: the text [s] is a well-formed integer argument of mathematical value [v]. *)
Definition int_literal (s : str) (v : Z) : Prop :=
  exists w1 n nv sf k w2,
    s = w1 ++ n ++ sf ++ w2 /\ spaces w1 /\ number n nv /\ size_suffix sf k /\ spaces w2 /\
    v = nv * k.

(** A text that begins with two minus signs around a base prefix, followed by a number of
    magnitude above the maximum of [long]. *)
Definition doubly_negated_huge (lmax : Z) (s : str) : Prop :=
  exists w1 px base w ip ds v rest,
    s = w1 ++ lit "-" ++ px ++ w ++ lit "-" ++ ip ++ ds ++ rest /\
    spaces w1 /\ base_prefix px base /\ spaces w /\ inner_prefix base ip /\
    digits base ds v /\ lmax < v.
