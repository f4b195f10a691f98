(** Model of /repo/src/arg_int.c: scanning of integer arguments. *)
From Verif Require Import Base.
From Coq Require Import ZArith List Ascii String Bool.
Import ListNotations.
Open Scope Z_scope.

(** Error codes, /repo/src/argtable3.h and argtable3_private.h (enum with ARG_ERR_MINCOUNT = 1). *)
Definition ARG_ERR_MINCOUNT : Z := 1.
Definition ARG_ERR_MAXCOUNT : Z := 2.
Definition ARG_ERR_BADINT : Z := 3.
Definition ARG_ERR_OVERFLOW : Z := 4.
Definition ARG_ERR_BADDOUBLE : Z := 5.
Definition ARG_ERR_BADDATE : Z := 6.
Definition ARG_ERR_REGNOMATCH : Z := 7.

(** Width of C [long]: LP64 (Linux, macOS) or 32-bit long (Windows, 32-bit targets). *)
Inductive long_model := Long64 | Long32.
Definition LONG_MAX (m : long_model) : Z :=
  match m with Long64 => 9223372036854775807 | Long32 => 2147483647 end.
Definition LONG_MIN (m : long_model) : Z := - LONG_MAX m - 1.

(** Digit values as in strtol (C11 7.22.1.4). *)
Definition digit_val (c : ascii) : option Z :=
  if isdigitb c then Some (uc c - 48)
  else if isupperb c then Some (uc c - 55)
  else if islowerb c then Some (uc c - 87)
  else None.

(** Consume the longest run of digits valid in [base]; returns the accumulated value,
    whether at least one digit was seen, and the rest. *)
Fixpoint strtol_digits (base : Z) (s : str) (acc : Z) (any : bool) : Z * bool * str :=
  match s with
  | [] => (acc, any, s)
  | c :: s' =>
      match digit_val c with
      | Some d => if d <? base then strtol_digits base s' (acc * base + d) true else (acc, any, s)
      | None => (acc, any, s)
      end
  end.

Fixpoint skip_space (s : str) : str :=
  match s with
  | c :: s' => if isspaceb c then skip_space s' else s
  | [] => []
  end.

(** Sign handling shared by strtol and strtol0X (arg_int.c lines 69-81). *)
Definition scan_sign (s : str) : bool * str :=
  match s with
  | c :: s' => if ceqb c "+" then (false, s') else if ceqb c "-" then (true, s') else (false, s)
  | [] => (false, s)
  end.

Definition clamp_long (m : long_model) (z : Z) : Z :=
  if LONG_MAX m <? z then LONG_MAX m else if z <? LONG_MIN m then LONG_MIN m else z.

(** Is there a digit of the base here? (decides whether strtol treats 0x as a prefix) *)
Definition starts_digit (base : Z) (s : str) : bool :=
  match s with
  | c :: _ => match digit_val c with Some d => d <? base | None => false end
  | [] => false
  end.

(** strtol of the C library (C11 7.22.1.4), C locale, for base 2, 8, 10, 16: white space,
    sign, for base 16 an optional 0x prefix (only when a hex digit follows), the longest run
    of digits; saturating. Returns the value and the end pointer as the remaining suffix;
    [None] when no conversion is performed (then *endptr is the original pointer).
    C23's optional 0b prefix for base 2 is not modelled. *)
Definition strtol (m : long_model) (s : str) (base : Z) : option (Z * str) :=
  let s1 := skip_space s in
  let '(neg, s2) := scan_sign s1 in
  let s3 := match s2 with
            | z :: x :: t =>
                if (base =? 16) && ceqb z "0" && (ceqb x "x" || ceqb x "X") && starts_digit base t
                then t else s2
            | _ => s2
            end in
  let '(v, any, rest) := strtol_digits base s3 0 false in
  if any then Some (clamp_long m (if neg then - v else v), rest) else None.

(** strtol0X, arg_int.c lines 58-108. [Ok None] is the failure indication *endptr == str.
    The multiplication s * val (line 107) is the only arithmetic that can overflow. *)
Definition strtol0X (m : long_model) (s : str) (X : ascii) (base : Z) : res (option (Z * str)) :=
  let p1 := skip_space s in
  let '(neg, p2) := scan_sign p1 in
  match p2 with
  | z :: p3 =>
      if ceqb z "0" then
        match p3 with
        | x :: p4 =>
            if ceqb (toupper x) (toupper X) then
              match strtol m p4 base with
              | None => Ok None
              | Some (val, rest) =>
                  let r := (if neg then -1 else 1) * val in
                  if (LONG_MIN m <=? r) && (r <=? LONG_MAX m) then Ok (Some (r, rest))
                  else UB SignedOverflow
              end
            else Ok None
        | [] => Ok None     (* the terminator never equals toupper(X) *)
        end
      else Ok None
  | [] => Ok None
  end.

(** detectsuffix, arg_int.c lines 112-137. *)
Fixpoint detectsuffix (s suffix : str) {struct suffix} : bool :=
  match s, suffix with
  | [], [] => true                                         (* line 118: both at the terminator *)
  | c :: s', d :: suffix' =>
      if ceqb (toupper c) (toupper d) then detectsuffix s' suffix'
      else false                                           (* lines 128-129 *)
  | [], _ :: _ => false                                    (* lines 128-129 *)
  | c :: s', [] =>                                         (* lines 132-136 *)
      match skip_space s with [] => true | _ => false end
  end.

(** C division truncates towards zero. *)
Definition cdiv (a b : Z) : Z := Z.quot a b.

(** The conversion part of arg_int_scanfn, lines 151-203: [Ok (inl val)] is the value to be
    stored, [Ok (inr errorcode)] an error. *)
Definition scan_prefixed (m : long_model) (s : str) : res (option (Z * str)) :=
  r <- strtol0X m s "X" 16 ;;
  match r with Some x => Ok (Some x) | None =>
  r <- strtol0X m s "O" 8 ;;
  match r with Some x => Ok (Some x) | None =>
  r <- strtol0X m s "B" 2 ;;
  match r with Some x => Ok (Some x) | None => Ok (strtol m s 10)
  end end end.

Definition apply_suffix (val : Z) (e0 : Z) (mult : Z) : Z * Z :=   (* (errorcode, val) *)
  if (cdiv INT_MAX mult <? val) || (val <? cdiv INT_MIN mult) then (ARG_ERR_OVERFLOW, val)
  else (e0, val * mult).

Definition int_convert (m : long_model) (argval : str) : res (Z + Z) :=
  r <- scan_prefixed m argval ;;
  match r with
  | None => Ok (inr ARG_ERR_BADINT)                        (* line 167 *)
  | Some (val, rest) =>
      let e0 := if (INT_MAX <? val) || (val <? INT_MIN) then ARG_ERR_OVERFLOW else 0 in
      let '(e, v) :=
        if detectsuffix rest (lit "KB") then apply_suffix val e0 1024
        else if detectsuffix rest (lit "MB") then apply_suffix val e0 1048576
        else if detectsuffix rest (lit "GB") then apply_suffix val e0 1073741824
        else if negb (detectsuffix rest []) then (ARG_ERR_BADINT, val)
        else (e0, val) in
      if e =? 0 then Ok (inl v) else Ok (inr e)
  end.

(** struct arg_int, the parts that change: count and the ival array
    (argtable3.h, struct arg_int). *)
Record arg_int := { int_count : Z; int_ival : list Z }.

(** arg_int_resetfn, arg_int.c lines 43-46. *)
Definition arg_int_resetfn (p : arg_int) : arg_int :=
  {| int_count := 0; int_ival := int_ival p |}.

(** arg_int_scanfn, arg_int.c lines 139-208. [argval = None] is NULL. *)
Definition arg_int_scanfn (m : long_model) (maxcount : Z) (p : arg_int) (argval : option str)
  : res (arg_int * Z) :=
  if int_count p =? maxcount then Ok (p, ARG_ERR_MAXCOUNT)
  else match argval with
  | None => Ok ({| int_count := int_count p + 1; int_ival := int_ival p |}, 0)
  | Some s =>
      r <- int_convert m s ;;
      match r with
      | inr e => Ok (p, e)
      | inl v =>
          a <- aset (int_ival p) (int_count p) v ;;
          Ok ({| int_count := int_count p + 1; int_ival := a |}, 0)
      end
  end.

(** arg_int_checkfn, arg_int.c lines 210-214. *)
Definition arg_int_checkfn (mincount : Z) (p : arg_int) : Z :=
  if int_count p <? mincount then ARG_ERR_MINCOUNT else 0.
