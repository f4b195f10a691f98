(** Model of /repo/src/arg_getopt_long.c with the messages it prints, of getopt (lines 622-634), and of arg_parse with its effect on
    opterr.

    The functions of GetoptModel.v and ParseModel.v again, each with the list of the messages it passes to warnx, in the order of the calls.
    A message is the text after formatting; warnx itself (of err.h; lines 144-166 on Windows) writes it to stderr, with the name of the
    program in front except on Windows, and a newline behind it. The function for Windows is in WarnModel.v.

    dash_prefix (line 112) is set before each call of parse_long_options (lines 528, 535 and 584), so here it is an argument of that
    function: the text current_dash of lines 243-259. PropGetopt.v proves that without the messages these are the functions of
    GetoptModel.v. *)
From Verif Require Import Base IntModel GetoptModel ParseModel.
From Coq Require Import ZArith List Ascii String Bool.
Import ListNotations.
Open Scope Z_scope.

(** A computation and the messages it prints. *)
Definition said (A : Type) : Type := res A * list str.
Definition sbind {A B} (m : said A) (k : A -> said B) : said B :=
  match fst m with
  | Ok x => let r := k x in (fst r, snd m ++ snd r)
  | UB w => (UB w, snd m)
  | OutOfFuel => (OutOfFuel, snd m)
  end.
(** A computation that prints nothing. *)
Definition mute {A} (m : res A) : said A := (m, []).
Notation "x <~ m ;; k" := (sbind m (fun x => k)) (at level 61, m at next level, right associativity).
Notation "' p <~ m ;; k" := (sbind m (fun x => match x with p => k end)) (at level 61, p pattern, m at next level, right associativity).

(** PRINT_ERROR, line 75. *)
Definition PRINT_ERROR (opterr : bool) (options : str) : bool := opterr && negb (ceqb (hd0 options) ":").
(** if (PRINT_ERROR) warnx(...). *)
Definition warn (opterr : bool) (options : str) (message : str) : said unit :=
  (Ok tt, if PRINT_ERROR opterr options then [message] else []).

(** The messages, lines 109-118. *)
Definition recargchar (c : ascii) : str := lit "option requires an argument -- " ++ [c].
Definition illoptchar (c : ascii) : str := lit "illegal option -- " ++ [c].
Definition gnuoptchar (c : ascii) : str := lit "invalid option -- " ++ [c].
Definition recargstring (dash nm : str) : str := lit "option `" ++ dash ++ nm ++ lit "' requires an argument".
Definition ambig (dash nm : str) : str := lit "option `" ++ dash ++ nm ++ lit "' is ambiguous".
Definition noarg (dash nm : str) : str := lit "option `" ++ dash ++ nm ++ lit "' doesn't allow an argument".
Definition illoptstring (dash nm : str) : str := lit "unrecognized option `" ++ dash ++ nm ++ lit "'".

(** parse_long_options, lines 231-390. *)
Definition parse_long_options_w (opterr : bool) (dash options : str) (lopts : list lopt) (short_too longonly : bool) (s : gst)
  : said (Z * gst) :=
  let current_argv := place s in
  let s := set_optind (optind s + 1) s in
  let '(nm, has_equal) := split_eq current_argv in
  let '(mtch, exact, second) := long_search nm short_too longonly lopts 0 None false in
  if negb exact && second then                                             (* lines 300-311 *)
    _ <~ warn opterr options (ambig dash nm) ;; mute (Ok (BADCH, set_optopt 0 s))
  else match mtch with
  | Some (_, o) =>
      match lo_has_arg o =? 0, has_equal with
      | true, Some _ =>                                                    (* lines 312-334 *)
          _ <~ warn opterr options (noarg dash nm) ;;
          mute (Ok (BADCH, set_optopt (if lo_flag o then 0 else lo_val o) s))
      | _, _ =>
          s <~ mute (if (lo_has_arg o =? 1) || (lo_has_arg o =? 2) then    (* lines 335-346 *)
                  match has_equal with
                  | Some v => Ok (set_optarg (Some v) s)
                  | None => if lo_has_arg o =? 1 then
                              v <- nargv_get s (optind s) ;;
                              Ok (set_optarg v (set_optind (optind s + 1) s))
                            else Ok s
                  end
                else Ok s) ;;
          match lo_has_arg o =? 1, optarg s with
          | true, None =>                                                  (* lines 347-368 *)
              _ <~ warn opterr options (recargstring dash current_argv) ;;
              mute (Ok (BADARG options, set_optind (optind s - 1) (set_optopt (if lo_flag o then 0 else lo_val o) s)))
          | _, _ =>                                                        (* lines 383-389 *)
              mute (if lo_flag o then Ok (0, set_getoptval (lo_val o) s) else Ok (lo_val o, s))
          end
      end
  | None =>                                                                (* lines 369-382 *)
      if short_too then mute (Ok (-1, set_optind (optind s - 1) s))
      else _ <~ warn opterr options (illoptstring dash current_argv) ;; mute (Ok (BADCH, set_optopt 0 s))
  end.

Section Internal.
Context (getenv_posixly : bool).
Context (opterr : bool).
Context (nargc : Z) (lopts : option (list lopt)) (longonly : bool).

(** Lines 548-612. *)
Definition gi_short_w (options : str) (s : gst) : said (Z * gst) :=
  match place s with
  | [] => mute (UB OOBRead)
  | c :: p =>
      let s := set_place (place_off s + 1) p s in
      let atend := match p with [] => true | _ => false end in
      let bad := (* lines 548-570 *)
        if ceqb c "-" && atend then mute (Ok (-1, s))
        else _ <~ warn opterr options (if negb (posixly s =? 0) then illoptchar c else gnuoptchar c) ;;
             mute (Ok (BADCH, set_optopt (sc c) (if atend then set_optind (optind s + 1) s else s))) in
      if ceqb c ":" || (ceqb c "-" && negb atend) then bad
      else match strchr options c with
      | None => bad
      | Some oli =>
          let oli1 := tl oli in
          if match lopts with Some _ => ceqb c "W" && ceqb (hd0 oli1) ";" | None => false end then
            (* lines 571-590 *)
            let lo := match lopts with Some l => l | None => [] end in
            if negb atend then
              '(r, s) <~ parse_long_options_w opterr (lit "-W ") options lo false longonly s ;; mute (Ok (r, EMSG s))
            else
              let s := set_optind (optind s + 1) s in
              if nargc <=? optind s then
                _ <~ warn opterr options (recargchar c) ;; mute (Ok (BADARG options, set_optopt (sc c) (EMSG s)))
              else
                v <~ mute (nargv_get s (optind s)) ;;
                match v with
                | None => mute (UB NullDeref)
                | Some a =>
                    '(r, s) <~ parse_long_options_w opterr (lit "-W ") options lo false longonly (set_place 0 a s) ;;
                    mute (Ok (r, EMSG s))
                end
          else if negb (ceqb (hd0 oli1) ":") then                           (* lines 591-593 *)
            mute (Ok (sc c, if atend then set_optind (optind s + 1) s else s))
          else                                                              (* lines 594-610 *)
            let s := set_optarg None s in
            if negb atend then
              let s := set_optarg (Some p) s in
              let s := EMSG s in
              mute (Ok (sc c, set_optind (optind s + 1) s))
            else if negb (ceqb (hd0 (tl oli1)) ":") then
              let s := set_optind (optind s + 1) s in
              if nargc <=? optind s then
                _ <~ warn opterr options (recargchar c) ;; mute (Ok (BADARG options, set_optopt (sc c) (EMSG s)))
              else
                v <~ mute (nargv_get s (optind s)) ;;
                let s := EMSG (set_optarg v s) in
                mute (Ok (sc c, set_optind (optind s + 1) s))
            else
              let s := EMSG s in
              mute (Ok (sc c, set_optind (optind s + 1) s))
      end
  end.

(** Lines 518-546. *)
Definition gi_scan_w (options : str) (s : gst) : said (Z * gst) :=
  match lopts with
  | Some lo =>
      _ <~ mute (nargv_get s (optind s)) ;;
      if negb (place_off s =? 0) && (ceqb (hd0 (place s)) "-" || longonly) then
        if ceqb (hd0 (place s)) "-" then
          let s := set_place (place_off s + 1) (tl (place s)) s in
          match place s with
          | [] => mute (Ok (BADARG options, s))                            (* lines 530-533 *)
          | _ =>
              '(r, s) <~ parse_long_options_w opterr (lit "--") options lo false longonly s ;;
              if negb (r =? -1) then mute (Ok (r, EMSG s)) else gi_short_w options s
          end
        else
          let short_too := negb (ceqb (hd0 (place s)) ":") &&
            match strchr options (hd0 (place s)) with Some _ => true | None => false end in
          '(r, s) <~ parse_long_options_w opterr (lit "-") options lo short_too longonly s ;;
          if negb (r =? -1) then mute (Ok (r, EMSG s)) else gi_short_w options s
      else gi_short_w options s
  | None => gi_short_w options s
  end.

(** Lines 438-516. *)
Fixpoint gi_start_w (fuel : nat) (options : str) (permute allargs : bool) (s : gst) : said (Z * gst) :=
  match fuel with
  | O => mute OutOfFuel
  | S f =>
      if optreset s || match place s with [] => true | _ => false end then
        let s := set_optreset false s in
        if nargc <=? optind s then                                         (* lines 441-458 *)
          let s := EMSG s in
          s <~ mute (if negb (nonopt_end s =? -1) then
                  v <- permute_args (nonopt_start s) (nonopt_end s) (optind s) (nargv s) ;;
                  Ok (set_optind (optind s - (nonopt_end s - nonopt_start s)) (set_nargv v s))
                else if negb (nonopt_start s =? -1) then Ok (set_optind (nonopt_start s) s)
                else Ok s) ;;
          mute (Ok (-1, set_nonopt (-1) (-1) s))
        else
          a <~ mute (nargv_get s (optind s)) ;;
          match a with
          | None => mute (UB NullDeref)
          | Some p =>
              if negb (ceqb (hd0 p) "-") || match tl p with [] => true | _ => false end then
                (* lines 459-494: a non-option *)
                let s := EMSG s in
                if allargs then
                  mute (Ok (INORDER, set_optind (optind s + 1) (set_optarg (Some p) s)))
                else if negb permute then mute (Ok (-1, s))
                else
                  s <~ mute (if nonopt_start s =? -1 then Ok (set_nonopt (optind s) (nonopt_end s) s)
                        else if negb (nonopt_end s =? -1) then
                          v <- permute_args (nonopt_start s) (nonopt_end s) (optind s) (nargv s) ;;
                          Ok (set_nonopt (optind s - (nonopt_end s - nonopt_start s)) (-1) (set_nargv v s))
                        else Ok s) ;;
                  gi_start_w f options permute allargs (set_optind (optind s + 1) s)
              else
                (* lines 495-515 *)
                let s := if negb (nonopt_start s =? -1) && (nonopt_end s =? -1)
                         then set_nonopt (nonopt_start s) (optind s) s else s in
                let p1 := tl p in
                let s := set_place 1 p1 s in
                if ceqb (hd0 p1) "-" && match tl p1 with [] => true | _ => false end then
                  let s := EMSG (set_optind (optind s + 1) s) in
                  s <~ mute (if negb (nonopt_end s =? -1) then
                          v <- permute_args (nonopt_start s) (nonopt_end s) (optind s) (nargv s) ;;
                          Ok (set_optind (optind s - (nonopt_end s - nonopt_start s)) (set_nargv v s))
                        else Ok s) ;;
                  mute (Ok (-1, set_nonopt (-1) (-1) s))
                else gi_scan_w options s
          end
      else gi_scan_w options s
  end.

(** Entry, lines 404-437; [options0] is None if the pointer is NULL (lines 404-405). *)
Definition getopt_internal_w (fuel : nat) (options0 : option str) (permute0 : bool) (s : gst) : said (Z * gst) :=
  match options0 with
  | None => mute (Ok (-1, s))
  | Some options =>
      let s := if optind s =? 0 then set_optreset true (set_optind 1 s) else s in
      let s := if (posixly s =? -1) || optreset s then set_posixly (if getenv_posixly then 1 else 0) s else s in
      let allargs := ceqb (hd0 options) "-" in
      let permute := if allargs then permute0
                     else if negb (posixly s =? 0) || ceqb (hd0 options) "+" then false else permute0 in
      let options' := if ceqb (hd0 options) "+" || ceqb (hd0 options) "-" then tl options else options in
      let s := set_optarg None s in
      let s := if optreset s then set_nonopt (-1) (-1) s else s in
      gi_start_w fuel options' permute allargs s
  end.
End Internal.

(** getopt, lines 622-634; getopt_long, lines 640-647; getopt_long_only, lines 653-660. The first argument tells whether POSIXLY_CORRECT is
    in the environment, the second whether opterr is not 0. *)
Definition getopt_w (posix opterr : bool) (fuel : nat) (nargc : Z) (options : option str) (s : gst) :=
  getopt_internal_w posix opterr nargc None false fuel options false s.
Definition getopt_long_w (posix opterr : bool) (fuel : nat) (nargc : Z) (options : option str) (lopts : list lopt) (s : gst) :=
  getopt_internal_w posix opterr nargc (Some lopts) false fuel options true s.
Definition getopt_long_only_w (posix opterr : bool) (fuel : nat) (nargc : Z) (options : option str) (lopts : list lopt) (s : gst) :=
  getopt_internal_w posix opterr nargc (Some lopts) true fuel options true s.

(** What a program sees after a call: the value returned, optopt and optarg. *)
Record seen := { seen_ret : Z; seen_optopt : Z; seen_optarg : option str }.
Definition see (r : Z) (s : gst) : seen := {| seen_ret := r; seen_optopt := optopt s; seen_optarg := optarg s |}.

(** while ((c = f(...)) != -1) ...: all that is seen before the call that returns -1, and the state after that call. [fuel] bounds the number
    of calls. *)
Fixpoint scan_all (call : gst -> said (Z * gst)) (fuel : nat) (s : gst) : said (list seen * gst) :=
  match fuel with
  | O => mute OutOfFuel
  | S f =>
      '(r, s) <~ call s ;;
      if r =? -1 then mute (Ok ([], s))
      else '(l, s') <~ scan_all call f s ;; mute (Ok (see r s :: l, s'))
  end.
(** The calls of the three functions, with the arguments of main. *)
Definition call_getopt (posix opterr : bool) (options : str) (s : gst) : said (Z * gst) :=
  getopt_w posix opterr (S (List.length (nargv s))) (zlen (nargv s)) (Some options) s.
Definition call_getopt_long (posix opterr : bool) (options : str) (lopts : list lopt) (s : gst) : said (Z * gst) :=
  getopt_long_w posix opterr (S (List.length (nargv s))) (zlen (nargv s)) (Some options) lopts s.
Definition call_getopt_long_only (posix opterr : bool) (options : str) (lopts : list lopt) (s : gst) : said (Z * gst) :=
  getopt_long_only_w posix opterr (S (List.length (nargv s))) (zlen (nargv s)) (Some options) lopts s.

(** ** arg_parse *)
Section Parse.
Context {B : Type}.
Context (scan : hdr -> B -> option (option str -> res (B * Z))).
Context (check : hdr -> B -> option Z).
Context (reset : hdr -> B -> res B).
Context (posix : bool).

(** argtable3.c lines 257-327; opterr is 0 (line 251). *)
Fixpoint tagged_loop_w (opterr : bool) (longonly : bool) (fuel : nat) (nargc : Z) (shortoptions : str) (longoptions : list lopt)
    (s : gst) (tab : list (entry B)) (en : arg_end) : said (gst * list (entry B) * arg_end) :=
  match fuel with
  | O => mute OutOfFuel
  | S f =>
      '(copt, s) <~ (if longonly then getopt_long_only_w else getopt_long_w) posix opterr (S (List.length (nargv s))) nargc (Some shortoptions) longoptions s ;;
      if copt =? -1 then mute (Ok (s, tab, en))
      else
        '(tab, en) <~ mute (dispatch scan copt s tab en) ;;
        tagged_loop_w opterr longonly f nargc shortoptions longoptions s tab en
  end.

Context (junko : nat -> rawopt) (junkc : nat -> ascii) (junkp : nat -> option str).

(** arg_parse_tagged, lines 235-331. The last component of the result is opterr afterwards. *)
Definition arg_parse_tagged_w (opterr longonly : bool) (fuel : nat) (argc : Z) (p : nat) (h : heap) (s : gst) (tab : list (entry B)) (en : arg_end)
  : said (heap * gst * list (entry B) * arg_end * bool) :=
  longoptions <~ mute (alloc_longoptions junko junkc (map e_hdr tab)) ;;
  let '(h, pl) := halloc h BTemp in
  shortoptions <~ mute (alloc_shortoptions junkc (map e_hdr tab)) ;;
  let '(h, ps) := halloc h BTemp in
  args <~ mute (load_args (Z.to_nat argc) 0 p h) ;;
  let s := set_getoptval 0 (set_nargv args (set_optind 0 s)) in
  let opterr := false in
  '(s, tab, en) <~ tagged_loop_w opterr longonly fuel argc shortoptions longoptions s tab en ;;
  h <~ mute (store_args (nargv s) 0 p h) ;;
  h <~ mute (hfree h ps) ;;
  h <~ mute (hfree h pl) ;;
  mute (Ok (h, s, tab, en, opterr)).

(** arg_parse, lines 427-480. *)
Definition arg_parse_w (opterr longonly : bool) (fuel : nat) (argc : Z) (argv : nat) (h : heap) (s : gst) (tab : list (entry B)) (en : arg_end)
  : said (heap * gst * list (entry B) * arg_end * bool) :=
  tab <~ mute (reset_loop reset tab) ;;
  let en := arg_end_resetfn en in
  if argc =? 0 then
    en <~ mute (check_loop check 0 tab en) ;; mute (Ok (h, s, tab, en, opterr))
  else
    let '(h, copy) := halloc h (BArgv (fresh junkp (argc + 1))) in
    h <~ mute (copy_loop (Z.to_nat argc) 0 argv copy h) ;;
    h <~ mute (hset h copy argc None) ;;
    '(h, s, tab, en, opterr) <~ arg_parse_tagged_w opterr longonly fuel argc copy h s tab en ;;
    args <~ mute (load_args (Z.to_nat (argc - optind s)) (optind s) copy h) ;;
    '(tab, en) <~ mute (arg_parse_untagged scan tab args en) ;;
    en <~ mute (if end_count en =? 0 then check_loop check 0 tab en else Ok en) ;;
    h <~ mute (hfree h copy) ;;
    mute (Ok (h, s, tab, en, opterr)).
End Parse.
