(** Model of /repo/src/arg_getopt_long.c (the embedded getopt, ARG_REPLACE_GETOPT == 1).

    Not modelled here but in GetoptSay.v: the messages printed when [opterr] is set (arg_parse clears
    it, and the option string begins with a colon, so PRINT_ERROR is false), dash_prefix (used for
    these messages only), options == NULL, and the entry point getopt. *)
From Verif Require Import Base.
From Coq Require Import ZArith List Ascii String Bool.
Import ListNotations.
Open Scope Z_scope.

(** ** gcd, lines 174-187. C's % on int; division by zero is undefined. *)
Fixpoint c_gcd (fuel : nat) (a b : Z) : res Z :=
  match fuel with
  | O => OutOfFuel
  | S f =>
      if b =? 0 then UB DivByZero
      else let c := Z.rem a b in
           if c =? 0 then Ok b else c_gcd f b c
  end.

(** ** permute_args, lines 194-224. *)
Section Permute.
Context {A : Type}.

(** The inner loop, lines 212-222: state is (pos, nargv). *)
Fixpoint permute_inner (n : nat) (panonopt_end nnonopts nopts cstart : Z) (pos : Z) (v : list A)
  : res (list A) :=
  match n with
  | O => Ok v
  | S n' =>
      let pos' := if panonopt_end <=? pos then pos - nnonopts else pos + nopts in
      swap <- aget v pos' ;;
      x <- aget v cstart ;;
      v1 <- aset v pos' x ;;
      v2 <- aset v1 cstart swap ;;
      permute_inner n' panonopt_end nnonopts nopts cstart pos' v2
  end.

(** The outer loop, lines 209-223, for i from [i] with [n] iterations left. *)
Fixpoint permute_outer (n : nat) (i cyclelen panonopt_end nnonopts nopts : Z) (v : list A)
  : res (list A) :=
  match n with
  | O => Ok v
  | S n' =>
      v' <- permute_inner (Z.to_nat cyclelen) panonopt_end nnonopts nopts (panonopt_end + i) (panonopt_end + i) v ;;
      permute_outer n' (i + 1) cyclelen panonopt_end nnonopts nopts v'
  end.

Definition permute_args (panonopt_start panonopt_end opt_end : Z) (v : list A) : res (list A) :=
  let nnonopts := panonopt_end - panonopt_start in
  let nopts := opt_end - panonopt_end in
  ncycle <- c_gcd (S (Z.to_nat nopts)) nnonopts nopts ;;
  (* the division is by a gcd of a non-zero number; the check keeps the model faithful *)
  if ncycle =? 0 then UB DivByZero else
  let cyclelen := Z.quot (opt_end - panonopt_start) ncycle in
  permute_outer (Z.to_nat ncycle) 0 cyclelen panonopt_end nnonopts nopts v.
End Permute.

(** ** State *)

(** struct option (arg_getopt.h). [lo_flag] tells whether the flag pointer is non-NULL; if so it
    points at the variable [getoptval] of the state. *)
Record lopt := { lo_name : str; lo_has_arg : Z; lo_flag : bool; lo_val : Z }.

(** The process-wide variables, lines 69-73, 102-106, and the static posixly_correct (line 402).
    [place] is the text it points to; [place_off] its offset in nargv[optind] (0 for EMSG). *)
Record gst := {
  optind : Z; optopt : Z; optreset : bool; optarg : option str;
  place_off : Z; place : str;
  nonopt_start : Z; nonopt_end : Z;
  posixly : Z;
  getoptval : Z;              (* struct longoptions.getoptval, argtable3.c line 88 *)
  nargv : list str            (* the argv array being scanned, without its NULL terminator *)
}.

Definition set_optind v s := {| optind := v; optopt := optopt s; optreset := optreset s; optarg := optarg s; place_off := place_off s; place := place s; nonopt_start := nonopt_start s; nonopt_end := nonopt_end s; posixly := posixly s; getoptval := getoptval s; nargv := nargv s |}.
Definition set_optopt v s := {| optind := optind s; optopt := v; optreset := optreset s; optarg := optarg s; place_off := place_off s; place := place s; nonopt_start := nonopt_start s; nonopt_end := nonopt_end s; posixly := posixly s; getoptval := getoptval s; nargv := nargv s |}.
Definition set_optreset v s := {| optind := optind s; optopt := optopt s; optreset := v; optarg := optarg s; place_off := place_off s; place := place s; nonopt_start := nonopt_start s; nonopt_end := nonopt_end s; posixly := posixly s; getoptval := getoptval s; nargv := nargv s |}.
Definition set_optarg v s := {| optind := optind s; optopt := optopt s; optreset := optreset s; optarg := v; place_off := place_off s; place := place s; nonopt_start := nonopt_start s; nonopt_end := nonopt_end s; posixly := posixly s; getoptval := getoptval s; nargv := nargv s |}.
Definition set_place o v s := {| optind := optind s; optopt := optopt s; optreset := optreset s; optarg := optarg s; place_off := o; place := v; nonopt_start := nonopt_start s; nonopt_end := nonopt_end s; posixly := posixly s; getoptval := getoptval s; nargv := nargv s |}.
Definition set_nonopt a b s := {| optind := optind s; optopt := optopt s; optreset := optreset s; optarg := optarg s; place_off := place_off s; place := place s; nonopt_start := a; nonopt_end := b; posixly := posixly s; getoptval := getoptval s; nargv := nargv s |}.
Definition set_posixly v s := {| optind := optind s; optopt := optopt s; optreset := optreset s; optarg := optarg s; place_off := place_off s; place := place s; nonopt_start := nonopt_start s; nonopt_end := nonopt_end s; posixly := v; getoptval := getoptval s; nargv := nargv s |}.
Definition set_getoptval v s := {| optind := optind s; optopt := optopt s; optreset := optreset s; optarg := optarg s; place_off := place_off s; place := place s; nonopt_start := nonopt_start s; nonopt_end := nonopt_end s; posixly := posixly s; getoptval := v; nargv := nargv s |}.
Definition set_nargv v s := {| optind := optind s; optopt := optopt s; optreset := optreset s; optarg := optarg s; place_off := place_off s; place := place s; nonopt_start := nonopt_start s; nonopt_end := nonopt_end s; posixly := posixly s; getoptval := getoptval s; nargv := v |}.

Definition EMSG (s : gst) : gst := set_place 0 [] s.

(** Reading nargv[i]; the slot after the last argument holds NULL (arg_parse, argtable3.c
    line 464). *)
Definition nargv_get (s : gst) (i : Z) : res (option str) :=
  if i =? zlen (nargv s) then Ok None else x <- aget (nargv s) i ;; Ok (Some x).

(** strchr of a character other than NUL: the suffix from its first occurrence. *)
Fixpoint strchr (s : str) (c : ascii) : option str :=
  match s with
  | [] => None
  | x :: s' => if ceqb x c then Some s else strchr s' c
  end.

(** strncmp(a, b, n) == 0 for n <= strlen(a): the first n characters of [a] are a prefix of [b]. *)
Fixpoint is_prefix (a b : str) : bool :=
  match a, b with
  | [], _ => true
  | x :: a', y :: b' => ceqb x y && is_prefix a' b'
  | _ :: _, [] => false
  end.

Definition BADCH : Z := 63.
Definition BADARG (options : str) : Z := match options with c :: _ => if ceqb c ":" then 58 else 63 | [] => 63 end.
Definition INORDER : Z := 1.

(** ** parse_long_options, lines 231-390 *)

(** The search loop, lines 272-299: [i] is the index of the head of [opts]. Result: (match,
    exact_match, second_partial_match), match as index and option. [nm] is the first
    current_argv_len characters of current_argv. *)
Fixpoint long_search (nm : str) (short_too longonly : bool) (opts : list lopt) (i : Z)
    (mtch : option (Z * lopt)) (second : bool) : option (Z * lopt) * bool * bool :=
  match opts with
  | [] => (mtch, false, second)
  | o :: opts' =>
      if negb (is_prefix nm (lo_name o)) then long_search nm short_too longonly opts' (i + 1) mtch second
      else if Nat.eqb (List.length (lo_name o)) (List.length nm) then (Some (i, o), true, second)
      else if short_too && Nat.eqb (List.length nm) 1 then long_search nm short_too longonly opts' (i + 1) mtch second
      else match mtch with
           | None => long_search nm short_too longonly opts' (i + 1) (Some (i, o)) second
           | Some (_, m) =>
               let differs := longonly || negb (lo_has_arg o =? lo_has_arg m)
                              || negb (Bool.eqb (lo_flag o) (lo_flag m)) || negb (lo_val o =? lo_val m) in
               long_search nm short_too longonly opts' (i + 1) mtch (second || differs)
           end
  end.

(** Text before the first '=' and, if there is one, the text after it (lines 265-270). *)
Fixpoint split_eq (s : str) : str * option str :=
  match s with
  | [] => ([], None)
  | c :: s' => if ceqb c "=" then ([], Some s')
               else let '(a, b) := split_eq s' in (c :: a, b)
  end.

Definition parse_long_options (options : str) (lopts : list lopt) (short_too longonly : bool) (s : gst)
  : res (Z * gst) :=
  let current_argv := place s in
  let s := set_optind (optind s + 1) s in
  let '(nm, has_equal) := split_eq current_argv in
  let '(mtch, exact, second) := long_search nm short_too longonly lopts 0 None false in
  if negb exact && second then Ok (BADCH, set_optopt 0 s)                  (* lines 300-311 *)
  else match mtch with
  | Some (_, o) =>
      match lo_has_arg o =? 0, has_equal with
      | true, Some _ =>                                                    (* lines 312-334 *)
          Ok (BADCH, set_optopt (if lo_flag o then 0 else lo_val o) s)
      | _, _ =>
          s <- (if (lo_has_arg o =? 1) || (lo_has_arg o =? 2) then         (* lines 335-346 *)
                  match has_equal with
                  | Some v => Ok (set_optarg (Some v) s)
                  | None => if lo_has_arg o =? 1 then
                              v <- nargv_get s (optind s) ;;
                              Ok (set_optarg v (set_optind (optind s + 1) s))
                            else Ok s
                  end
                else Ok s) ;;
          match lo_has_arg o =? 1, optarg s with
          | true, None =>                                                  (* lines 347-368 *)
              Ok (BADARG options, set_optind (optind s - 1) (set_optopt (if lo_flag o then 0 else lo_val o) s))
          | _, _ =>                                                        (* lines 383-389 *)
              if lo_flag o then Ok (0, set_getoptval (lo_val o) s) else Ok (lo_val o, s)
          end
      end
  | None =>                                                                (* lines 369-382 *)
      if short_too then Ok (-1, set_optind (optind s - 1) s)
      else Ok (BADCH, set_optopt 0 s)
  end.

(** ** getopt_internal, lines 396-613 *)

Section Internal.
Context (getenv_posixly : bool).            (* is POSIXLY_CORRECT in the environment? *)
Context (nargc : Z) (lopts : option (list lopt)) (longonly : bool).

(** Lines 548-612: a short option (or -W). *)
Definition gi_short (options : str) (s : gst) : res (Z * gst) :=
  match place s with
  | [] => UB OOBRead           (* never reached: place is not empty here *)
  | c :: p =>
      let s := set_place (place_off s + 1) p s in
      let atend := match p with [] => true | _ => false end in
      let bad := (* lines 548-570 *)
        if ceqb c "-" && atend then Ok (-1, s)
        else Ok (BADCH, set_optopt (sc c) (if atend then set_optind (optind s + 1) s else s)) in
      if ceqb c ":" || (ceqb c "-" && negb atend) then bad
      else match strchr options c with
      | None => bad
      | Some oli =>
          let oli1 := tl oli in
          if match lopts with Some _ => ceqb c "W" && ceqb (hd0 oli1) ";" | None => false end then
            (* lines 571-590 *)
            let lo := match lopts with Some l => l | None => [] end in
            if negb atend then
              '(r, s) <- parse_long_options options lo false longonly s ;; Ok (r, EMSG s)
            else
              let s := set_optind (optind s + 1) s in
              if nargc <=? optind s then Ok (BADARG options, set_optopt (sc c) (EMSG s))
              else
                v <- nargv_get s (optind s) ;;
                match v with
                | None => UB NullDeref
                | Some a =>
                    '(r, s) <- parse_long_options options lo false longonly (set_place 0 a s) ;;
                    Ok (r, EMSG s)
                end
          else if negb (ceqb (hd0 oli1) ":") then                           (* lines 591-593 *)
            Ok (sc c, if atend then set_optind (optind s + 1) s else s)
          else                                                              (* lines 594-610 *)
            let s := set_optarg None s in
            if negb atend then
              let s := set_optarg (Some p) s in
              let s := EMSG s in
              Ok (sc c, set_optind (optind s + 1) s)
            else if negb (ceqb (hd0 (tl oli1)) ":") then
              let s := set_optind (optind s + 1) s in
              if nargc <=? optind s then Ok (BADARG options, set_optopt (sc c) (EMSG s))
              else
                v <- nargv_get s (optind s) ;;
                let s := EMSG (set_optarg v s) in
                Ok (sc c, set_optind (optind s + 1) s)
            else
              let s := EMSG s in
              Ok (sc c, set_optind (optind s + 1) s)
      end
  end.

(** Lines 518-546: long options, else short. The test place != nargv[optind] is a test that the
    offset is not 0. *)
Definition gi_scan (options : str) (s : gst) : res (Z * gst) :=
  match lopts with
  | Some lo =>
      _ <- nargv_get s (optind s) ;;
      if negb (place_off s =? 0) && (ceqb (hd0 (place s)) "-" || longonly) then
        if ceqb (hd0 (place s)) "-" then
          let s := set_place (place_off s + 1) (tl (place s)) s in
          match place s with
          | [] => Ok (BADARG options, s)                                   (* lines 530-533 *)
          | _ =>
              '(r, s) <- parse_long_options options lo false longonly s ;;
              if negb (r =? -1) then Ok (r, EMSG s) else gi_short options s
          end
        else
          let short_too := negb (ceqb (hd0 (place s)) ":") &&
            match strchr options (hd0 (place s)) with Some _ => true | None => false end in
          '(r, s) <- parse_long_options options lo short_too longonly s ;;
          if negb (r =? -1) then Ok (r, EMSG s) else gi_short options s
      else gi_short options s
  | None => gi_short options s
  end.

(** Lines 438-516: label start. [permute], [allargs] are the flags. *)
Fixpoint gi_start (fuel : nat) (options : str) (permute allargs : bool) (s : gst) : res (Z * gst) :=
  match fuel with
  | O => OutOfFuel
  | S f =>
      if optreset s || match place s with [] => true | _ => false end then
        let s := set_optreset false s in
        if nargc <=? optind s then                                         (* lines 441-458 *)
          let s := EMSG s in
          s <- (if negb (nonopt_end s =? -1) then
                  v <- permute_args (nonopt_start s) (nonopt_end s) (optind s) (nargv s) ;;
                  Ok (set_optind (optind s - (nonopt_end s - nonopt_start s)) (set_nargv v s))
                else if negb (nonopt_start s =? -1) then Ok (set_optind (nonopt_start s) s)
                else Ok s) ;;
          Ok (-1, set_nonopt (-1) (-1) s)
        else
          a <- nargv_get s (optind s) ;;
          match a with
          | None => UB NullDeref
          | Some p =>
              if negb (ceqb (hd0 p) "-") || match tl p with [] => true | _ => false end then
                (* lines 459-494: a non-option *)
                let s := EMSG s in
                if allargs then
                  Ok (INORDER, set_optind (optind s + 1) (set_optarg (Some p) s))
                else if negb permute then Ok (-1, s)
                else
                  s <- (if nonopt_start s =? -1 then Ok (set_nonopt (optind s) (nonopt_end s) s)
                        else if negb (nonopt_end s =? -1) then
                          v <- permute_args (nonopt_start s) (nonopt_end s) (optind s) (nargv s) ;;
                          Ok (set_nonopt (optind s - (nonopt_end s - nonopt_start s)) (-1) (set_nargv v s))
                        else Ok s) ;;
                  gi_start f options permute allargs (set_optind (optind s + 1) s)
              else
                (* lines 495-515 *)
                let s := if negb (nonopt_start s =? -1) && (nonopt_end s =? -1)
                         then set_nonopt (nonopt_start s) (optind s) s else s in
                let p1 := tl p in
                let s := set_place 1 p1 s in
                if ceqb (hd0 p1) "-" && match tl p1 with [] => true | _ => false end then
                  (* the argument is exactly -- *)
                  let s := EMSG (set_optind (optind s + 1) s) in
                  s <- (if negb (nonopt_end s =? -1) then
                          v <- permute_args (nonopt_start s) (nonopt_end s) (optind s) (nargv s) ;;
                          Ok (set_optind (optind s - (nonopt_end s - nonopt_start s)) (set_nargv v s))
                        else Ok s) ;;
                  Ok (-1, set_nonopt (-1) (-1) s)
                else gi_scan options s
          end
      else gi_scan options s
  end.

(** Entry, lines 404-437. *)
Definition getopt_internal (fuel : nat) (options : str) (permute0 : bool) (s : gst) : res (Z * gst) :=
  let s := if optind s =? 0 then set_optreset true (set_optind 1 s) else s in
  let s := if (posixly s =? -1) || optreset s then set_posixly (if getenv_posixly then 1 else 0) s else s in
  let allargs := ceqb (hd0 options) "-" in
  let permute := if allargs then permute0
                 else if negb (posixly s =? 0) || ceqb (hd0 options) "+" then false else permute0 in
  let options' := if ceqb (hd0 options) "+" || ceqb (hd0 options) "-" then tl options else options in
  let s := set_optarg None s in
  let s := if optreset s then set_nonopt (-1) (-1) s else s in
  gi_start fuel options' permute allargs s.

End Internal.

(** getopt_long, lines 640-647 (FLAG_PERMUTE), and getopt_long_only, lines 653-660. *)
Definition getopt_long (posix : bool) (fuel : nat) (nargc : Z) (options : str) (lopts : list lopt) (s : gst) :=
  getopt_internal posix nargc (Some lopts) false fuel options true s.
Definition getopt_long_only (posix : bool) (fuel : nat) (nargc : Z) (options : str) (lopts : list lopt) (s : gst) :=
  getopt_internal posix nargc (Some lopts) true fuel options true s.

(** The values of the variables at program start (lines 69-73, 102-106, 402). *)
Definition gst_init : gst :=
  {| optind := 1; optopt := 63; optreset := false; optarg := None; place_off := 0; place := [];
     nonopt_start := -1; nonopt_end := -1; posixly := -1; getoptval := 0; nargv := [] |}.
