(** arg_parse on entries whose functions use the option scanner themselves, above all by calling arg_parse for other tables: a check function
    that looks at the words of a value, or an option that reads further arguments from elsewhere. The variables of the scanner (optind, optarg,
    optopt, optreset, place, nonopt_start, nonopt_end, posixly_correct; arg_getopt_long.c lines 69-73, 102-106, 402) exist once in the process, and
    the loops of arg_parse use them after each call of a function. So here every function of an entry gets the state [gst] of the scanner and may
    change it. Two fields of [gst] belong to one call of arg_parse and are out of reach of the functions: the copy of the arguments [nargv]
    (argtable3.c lines 452-464) and [getoptval] (line 88); see [call]. The memory that holds the copy is left out here (ParseModel.v and ShareModel.v
    have it); apart from that, this is ShareModel.v. A reset function returns nothing; here its code is ignored. *)
From Verif Require Import Base IntModel GetoptModel ParseModel.
From Coq Require Import ZArith List Ascii String Bool.
Import ListNotations.
Open Scope Z_scope.

Section Nest.
Context {G : Type}.

(** A function of an entry, as called from a parse: [nargv] and [getoptval] are the same as before. *)
Definition call (f : gst -> G -> res (gst * G * Z)) (s : gst) (g : G) : res (gst * G * Z) :=
  '(s', g, c) <- f s g ;; Ok (set_nargv (nargv s) (set_getoptval (getoptval s) s'), g, c).

Context (tab : list hdr).                                            (* the headers of the table, without the arg_end entry *)
Context (scanf : nat -> option (option str -> gst -> G -> res (gst * G * Z))).
Context (checkf : nat -> option (gst -> G -> res (gst * G * Z))).
Context (resetf : nat -> option (gst -> G -> res (gst * G * Z))).
Context (posix : bool).                                              (* POSIXLY_CORRECT set? *)

(** argtable3.c lines 275-279 and 317-322. The error is recorded with what optarg is after the call (lines 278, 321). *)
Definition nest_scanfn (i : Z) (s : gst) (g : G) (en : arg_end) : res (gst * G * arg_end) :=
  _ <- aget tab i ;;
  match scanf (Z.to_nat i) with
  | None => Ok (s, g, en)
  | Some f =>
      '(s, g, errorcode) <- call (f (optarg s)) s g ;;
      if errorcode =? 0 then Ok (s, g, en)
      else en <- arg_register_error en (PEntry (Z.to_nat i)) errorcode (optarg s) ;; Ok (s, g, en)
  end.

(** argtable3.c lines 265-326: the switch in arg_parse_tagged. *)
Definition nest_switch (copt : Z) (s : gst) (g : G) (en : arg_end) : res (gst * G * arg_end) :=
  if copt =? 0 then
    let tabindex := getoptval s in
    e <- aget tab tabindex ;;
    en <- match optarg s with
          | Some [] => if h_hasvalue e then
                         a <- nargv_get s (optind s - 1) ;;
                         arg_register_error en PEnd ARG_EMISSARG a
                       else Ok en
          | _ => Ok en
          end ;;
    nest_scanfn tabindex s g en
  else if copt =? 63 then
    if optopt s =? 0 then
      a <- nargv_get s (optind s - 1) ;;
      en <- arg_register_error en PEnd ARG_ELONGOPT a ;; Ok (s, g, en)
    else en <- arg_register_error en PEnd (optopt s) None ;; Ok (s, g, en)
  else if copt =? 58 then
    a <- nargv_get s (optind s - 1) ;;
    en <- arg_register_error en PEnd ARG_EMISSARG a ;; Ok (s, g, en)
  else
    let tabindex := find_shortoption tab 0 (chr copt) in
    if tabindex =? -1 then en <- arg_register_error en PEnd copt None ;; Ok (s, g, en)
    else nest_scanfn tabindex s g en.

(** argtable3.c lines 257-327. *)
Fixpoint nest_tagged (longonly : bool) (fuel : nat) (nargc : Z) (shortoptions : str) (longoptions : list lopt)
    (s : gst) (g : G) (en : arg_end) : res (gst * G * arg_end) :=
  match fuel with
  | O => OutOfFuel
  | S f =>
      '(copt, s) <- getopt_in longonly posix (S (List.length (nargv s))) nargc shortoptions longoptions s ;;
      if copt =? -1 then Ok (s, g, en)
      else
        '(s, g, en) <- nest_switch copt s g en ;;
        nest_tagged longonly f nargc shortoptions longoptions s g en
  end.

(** argtable3.c lines 396-399: an error for each argument from optind on. *)
Fixpoint nest_rest (fuel : nat) (argc : Z) (s : gst) (en : arg_end) : res (gst * arg_end) :=
  match fuel with
  | O => OutOfFuel
  | S f =>
      if argc <=? optind s then Ok (s, en)
      else a <- nargv_get s (optind s) ;;
           en <- arg_register_error en PEnd ARG_ENOMATCH a ;;
           nest_rest f argc (set_optind (optind s + 1) s) en
  end.
(** argtable3.c lines 333-402, arg_parse_untagged. [todo]: the part of the table from [tabindex] on. The argument remembered with a refusal
    is the one at optind after the call (line 383), and optind is counted up from what it is then (line 372). *)
Fixpoint nest_untagged (fuel : nat) (tabindex : nat) (todo : list hdr) (argc : Z) (last : pending) (s : gst) (g : G) (en : arg_end)
  : res (gst * G * arg_end) :=
  match fuel with
  | O => OutOfFuel
  | S f =>
      match todo with
      | [] =>
          '(s, en) <- match last with
                      | Some (p, c, v) => en <- arg_register_error en p c v ;; Ok (set_optind (optind s + 1) s, en)
                      | None => Ok (s, en)
                      end ;;
          '(s, en) <- nest_rest (S (Z.to_nat (argc - optind s))) argc s en ;;
          Ok (s, g, en)
      | h :: todo' =>
          if argc <=? optind s then Ok (s, g, en)
          else
            match h_longopts h, h_shortopts h with
            | None, None =>
                match scanf tabindex with
                | None => nest_untagged f (S tabindex) todo' argc last s g en
                | Some k =>
                    a <- nargv_get s (optind s) ;;
                    '(s, g, errorcode) <- call (k a) s g ;;
                    if errorcode =? 0 then nest_untagged f tabindex todo argc None (set_optind (optind s + 1) s) g en
                    else a <- nargv_get s (optind s) ;;
                         nest_untagged f (S tabindex) todo' argc (Some (PEntry tabindex, errorcode, a)) s g en
                end
            | _, _ => nest_untagged f (S tabindex) todo' argc last s g en
            end
      end
  end.

(** argtable3.c lines 404-415, arg_parse_check. *)
Fixpoint nest_check (i : nat) (t : list hdr) (s : gst) (g : G) (en : arg_end) : res (gst * G * arg_end) :=
  match t with
  | [] => Ok (s, g, en)
  | _ :: t' =>
      '(s, g, en) <- match checkf i with
                     | Some f => '(s, g, c) <- call f s g ;;
                                 if c =? 0 then Ok (s, g, en) else en <- arg_register_error en (PEntry i) c None ;; Ok (s, g, en)
                     | None => Ok (s, g, en)
                     end ;;
      nest_check (S i) t' s g en
  end.

(** argtable3.c lines 417-425, arg_reset. *)
Fixpoint nest_reset (i : nat) (t : list hdr) (s : gst) (g : G) : res (gst * G) :=
  match t with
  | [] => Ok (s, g)
  | _ :: t' =>
      '(s, g) <- match resetf i with Some f => '(s, g, _) <- call f s g ;; Ok (s, g) | None => Ok (s, g) end ;;
      nest_reset (S i) t' s g
  end.

Context (junko : nat -> rawopt) (junkc : nat -> ascii).

(** argtable3.c lines 427-480, arg_parse, on the argument vector [args]; [fuel] bounds the turns of its loops. *)
Definition nest_parse_in (longonly : bool) (fuel : nat) (args : list str) (s : gst) (g : G) (en : arg_end) : res (gst * G * arg_end) :=
  let argc := zlen args in
  '(s, g) <- nest_reset 0 tab s g ;;
  let en := arg_end_resetfn en in
  if argc =? 0 then nest_check 0 tab s g en
  else
    longoptions <- alloc_longoptions junko junkc tab ;;
    shortoptions <- alloc_shortoptions junkc tab ;;
    let s := set_getoptval 0 (set_nargv args (set_optind 0 s)) in
    '(s, g, en) <- nest_tagged longonly fuel argc shortoptions longoptions s g en ;;
    '(s, g, en) <- nest_untagged (S (List.length tab + List.length args + fuel)) 0 tab argc None s g en ;;
    if end_count en =? 0 then nest_check 0 tab s g en else Ok (s, g, en).
Definition nest_parse := nest_parse_in false.
End Nest.
