(** Model of /repo/src/arg_getopt_long.c with the index of the long option that getopt_long and getopt_long_only store through their
    argument [idx] (lines 383-384).

    The functions of GetoptModel.v again, each with the list of the values that it stores in the variable, in the order of the stores;
    here [idx] is not NULL. PropIndex.v proves that without the index these are the functions of GetoptModel.v. The messages are in
    GetoptSay.v. *)
From Verif Require Import Base GetoptModel.
From Coq Require Import ZArith List Ascii String Bool.
Import ListNotations.
Open Scope Z_scope.

(** A computation and what it stores in the variable. *)
Definition noted (A : Type) : Type := res A * list Z.
Definition nbind {A B} (m : noted A) (k : A -> noted B) : noted B :=
  match fst m with
  | Ok x => let r := k x in (fst r, snd m ++ snd r)
  | UB w => (UB w, snd m)
  | OutOfFuel => (OutOfFuel, snd m)
  end.
(** A computation that does not touch the variable. *)
Definition quiet {A} (m : res A) : noted A := (m, []).
(** *idx = match, line 384. *)
Definition note (k : Z) : noted unit := (Ok tt, [k]).
Notation "x <! m ;; k" := (nbind m (fun x => k)) (at level 61, m at next level, right associativity).
Notation "' p <! m ;; k" := (nbind m (fun x => match x with p => k end)) (at level 61, p pattern, m at next level, right associativity).

(** parse_long_options, lines 231-390. *)
Definition parse_long_options_i (options : str) (lopts : list lopt) (short_too longonly : bool) (s : gst)
  : noted (Z * gst) :=
  let current_argv := place s in
  let s := set_optind (optind s + 1) s in
  let '(nm, has_equal) := split_eq current_argv in
  let '(mtch, exact, second) := long_search nm short_too longonly lopts 0 None false in
  if negb exact && second then                                             (* lines 300-311 *)
    quiet (Ok (BADCH, set_optopt 0 s))
  else match mtch with
  | Some (k, o) =>
      match lo_has_arg o =? 0, has_equal with
      | true, Some _ =>                                                    (* lines 312-334 *)
          quiet (Ok (BADCH, set_optopt (if lo_flag o then 0 else lo_val o) s))
      | _, _ =>
          s <! quiet (if (lo_has_arg o =? 1) || (lo_has_arg o =? 2) then    (* lines 335-346 *)
                  match has_equal with
                  | Some v => Ok (set_optarg (Some v) s)
                  | None => if lo_has_arg o =? 1 then
                              v <- nargv_get s (optind s) ;;
                              Ok (set_optarg v (set_optind (optind s + 1) s))
                            else Ok s
                  end
                else Ok s) ;;
          match lo_has_arg o =? 1, optarg s with
          | true, None =>                                                  (* lines 347-368 *)
              quiet (Ok (BADARG options, set_optind (optind s - 1) (set_optopt (if lo_flag o then 0 else lo_val o) s)))
          | _, _ =>                                                        (* lines 383-389 *)
              _ <! note k ;; quiet (if lo_flag o then Ok (0, set_getoptval (lo_val o) s) else Ok (lo_val o, s))
          end
      end
  | None =>                                                                (* lines 369-382 *)
      if short_too then quiet (Ok (-1, set_optind (optind s - 1) s))
      else quiet (Ok (BADCH, set_optopt 0 s))
  end.

Section Internal.
Context (getenv_posixly : bool).
Context (nargc : Z) (lopts : option (list lopt)) (longonly : bool).

(** Lines 548-612. *)
Definition gi_short_i (options : str) (s : gst) : noted (Z * gst) :=
  match place s with
  | [] => quiet (UB OOBRead)
  | c :: p =>
      let s := set_place (place_off s + 1) p s in
      let atend := match p with [] => true | _ => false end in
      let bad := (* lines 548-570 *)
        if ceqb c "-" && atend then quiet (Ok (-1, s))
        else quiet (Ok (BADCH, set_optopt (sc c) (if atend then set_optind (optind s + 1) s else s))) in
      if ceqb c ":" || (ceqb c "-" && negb atend) then bad
      else match strchr options c with
      | None => bad
      | Some oli =>
          let oli1 := tl oli in
          if match lopts with Some _ => ceqb c "W" && ceqb (hd0 oli1) ";" | None => false end then
            (* lines 571-590 *)
            let lo := match lopts with Some l => l | None => [] end in
            if negb atend then
              '(r, s) <! parse_long_options_i options lo false longonly s ;; quiet (Ok (r, EMSG s))
            else
              let s := set_optind (optind s + 1) s in
              if nargc <=? optind s then
                quiet (Ok (BADARG options, set_optopt (sc c) (EMSG s)))
              else
                v <! quiet (nargv_get s (optind s)) ;;
                match v with
                | None => quiet (UB NullDeref)
                | Some a =>
                    '(r, s) <! parse_long_options_i options lo false longonly (set_place 0 a s) ;;
                    quiet (Ok (r, EMSG s))
                end
          else if negb (ceqb (hd0 oli1) ":") then                           (* lines 591-593 *)
            quiet (Ok (sc c, if atend then set_optind (optind s + 1) s else s))
          else                                                              (* lines 594-610 *)
            let s := set_optarg None s in
            if negb atend then
              let s := set_optarg (Some p) s in
              let s := EMSG s in
              quiet (Ok (sc c, set_optind (optind s + 1) s))
            else if negb (ceqb (hd0 (tl oli1)) ":") then
              let s := set_optind (optind s + 1) s in
              if nargc <=? optind s then
                quiet (Ok (BADARG options, set_optopt (sc c) (EMSG s)))
              else
                v <! quiet (nargv_get s (optind s)) ;;
                let s := EMSG (set_optarg v s) in
                quiet (Ok (sc c, set_optind (optind s + 1) s))
            else
              let s := EMSG s in
              quiet (Ok (sc c, set_optind (optind s + 1) s))
      end
  end.

(** Lines 518-546. *)
Definition gi_scan_i (options : str) (s : gst) : noted (Z * gst) :=
  match lopts with
  | Some lo =>
      _ <! quiet (nargv_get s (optind s)) ;;
      if negb (place_off s =? 0) && (ceqb (hd0 (place s)) "-" || longonly) then
        if ceqb (hd0 (place s)) "-" then
          let s := set_place (place_off s + 1) (tl (place s)) s in
          match place s with
          | [] => quiet (Ok (BADARG options, s))                            (* lines 530-533 *)
          | _ =>
              '(r, s) <! parse_long_options_i options lo false longonly s ;;
              if negb (r =? -1) then quiet (Ok (r, EMSG s)) else gi_short_i options s
          end
        else
          let short_too := negb (ceqb (hd0 (place s)) ":") &&
            match strchr options (hd0 (place s)) with Some _ => true | None => false end in
          '(r, s) <! parse_long_options_i options lo short_too longonly s ;;
          if negb (r =? -1) then quiet (Ok (r, EMSG s)) else gi_short_i options s
      else gi_short_i options s
  | None => gi_short_i options s
  end.

(** Lines 438-516. *)
Fixpoint gi_start_i (fuel : nat) (options : str) (permute allargs : bool) (s : gst) : noted (Z * gst) :=
  match fuel with
  | O => quiet OutOfFuel
  | S f =>
      if optreset s || match place s with [] => true | _ => false end then
        let s := set_optreset false s in
        if nargc <=? optind s then                                         (* lines 441-458 *)
          let s := EMSG s in
          s <! quiet (if negb (nonopt_end s =? -1) then
                  v <- permute_args (nonopt_start s) (nonopt_end s) (optind s) (nargv s) ;;
                  Ok (set_optind (optind s - (nonopt_end s - nonopt_start s)) (set_nargv v s))
                else if negb (nonopt_start s =? -1) then Ok (set_optind (nonopt_start s) s)
                else Ok s) ;;
          quiet (Ok (-1, set_nonopt (-1) (-1) s))
        else
          a <! quiet (nargv_get s (optind s)) ;;
          match a with
          | None => quiet (UB NullDeref)
          | Some p =>
              if negb (ceqb (hd0 p) "-") || match tl p with [] => true | _ => false end then
                (* lines 459-494: a non-option *)
                let s := EMSG s in
                if allargs then
                  quiet (Ok (INORDER, set_optind (optind s + 1) (set_optarg (Some p) s)))
                else if negb permute then quiet (Ok (-1, s))
                else
                  s <! quiet (if nonopt_start s =? -1 then Ok (set_nonopt (optind s) (nonopt_end s) s)
                        else if negb (nonopt_end s =? -1) then
                          v <- permute_args (nonopt_start s) (nonopt_end s) (optind s) (nargv s) ;;
                          Ok (set_nonopt (optind s - (nonopt_end s - nonopt_start s)) (-1) (set_nargv v s))
                        else Ok s) ;;
                  gi_start_i f options permute allargs (set_optind (optind s + 1) s)
              else
                (* lines 495-515 *)
                let s := if negb (nonopt_start s =? -1) && (nonopt_end s =? -1)
                         then set_nonopt (nonopt_start s) (optind s) s else s in
                let p1 := tl p in
                let s := set_place 1 p1 s in
                if ceqb (hd0 p1) "-" && match tl p1 with [] => true | _ => false end then
                  let s := EMSG (set_optind (optind s + 1) s) in
                  s <! quiet (if negb (nonopt_end s =? -1) then
                          v <- permute_args (nonopt_start s) (nonopt_end s) (optind s) (nargv s) ;;
                          Ok (set_optind (optind s - (nonopt_end s - nonopt_start s)) (set_nargv v s))
                        else Ok s) ;;
                  quiet (Ok (-1, set_nonopt (-1) (-1) s))
                else gi_scan_i options s
          end
      else gi_scan_i options s
  end.

(** Entry, lines 404-437; [options0] is None if the pointer is NULL (lines 404-405). *)
Definition getopt_internal_i (fuel : nat) (options0 : option str) (permute0 : bool) (s : gst) : noted (Z * gst) :=
  match options0 with
  | None => quiet (Ok (-1, s))
  | Some options =>
      let s := if optind s =? 0 then set_optreset true (set_optind 1 s) else s in
      let s := if (posixly s =? -1) || optreset s then set_posixly (if getenv_posixly then 1 else 0) s else s in
      let allargs := ceqb (hd0 options) "-" in
      let permute := if allargs then permute0
                     else if negb (posixly s =? 0) || ceqb (hd0 options) "+" then false else permute0 in
      let options' := if ceqb (hd0 options) "+" || ceqb (hd0 options) "-" then tl options else options in
      let s := set_optarg None s in
      let s := if optreset s then set_nonopt (-1) (-1) s else s in
      gi_start_i fuel options' permute allargs s
  end.
End Internal.

(** getopt_long, lines 640-647; getopt_long_only, lines 653-660. *)
Definition getopt_long_i (posix : bool) (fuel : nat) (nargc : Z) (options : option str) (lopts : list lopt) (s : gst) :=
  getopt_internal_i posix nargc (Some lopts) false fuel options true s.
Definition getopt_long_only_i (posix : bool) (fuel : nat) (nargc : Z) (options : option str) (lopts : list lopt) (s : gst) :=
  getopt_internal_i posix nargc (Some lopts) true fuel options true s.
(** The value of the variable after a call, [old] being the value before. *)
Definition idx_after (old : Z) (w : list Z) : Z := last w old.
