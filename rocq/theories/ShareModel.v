(** arg_parse on entries whose functions belong to the program and share its variables. ParseModel.v gives every entry contents of its
    own, which only its own functions touch: that is how the entries of the library behave. A program may also put entries of its own
    making into the table (argtable3.h lines 87-118: the functions of an entry are fields of its header), and these functions may do
    anything with the variables of the program: an option that undoes an earlier one, a counter used by several options, output. Here
    the functions are given and return the state [g] of the program, of any type, and entry number [i] of the table has the functions
    [scanf i], [checkf i], [resetf i]. The functions do not change the headers of the table, the argument vector or the arg_end entry,
    and do not themselves call arg_parse or getopt. The rest is as in ParseModel.v and uses its definitions. *)
From Verif Require Import Base IntModel GetoptModel ParseModel.
From Coq Require Import ZArith List Ascii String Bool.
Import ListNotations.
Open Scope Z_scope.

Section Share.
Context {G : Type}.
Context (tab : list hdr).                                            (* the headers of the table, without the arg_end entry *)
Context (scanf : nat -> option (option str -> G -> res (G * Z))).    (* scanfn; None when NULL *)
Context (checkf : nat -> option (G -> res (G * Z))).                 (* checkfn *)
Context (resetf : nat -> option (G -> res G)).                       (* resetfn *)
Context (posix : bool).                                              (* POSIXLY_CORRECT set? *)

(** argtable3.c lines 275-279 and 317-322: calling scanfn and recording its error. *)
Definition call_scanfn (i : Z) (arg : option str) (g : G) (en : arg_end) : res (G * arg_end) :=
  _ <- aget tab i ;;
  match scanf (Z.to_nat i) with
  | None => Ok (g, en)
  | Some f =>
      '(g, errorcode) <- f arg g ;;
      if errorcode =? 0 then Ok (g, en)
      else en <- arg_register_error en (PEntry (Z.to_nat i)) errorcode arg ;; Ok (g, en)
  end.

(** argtable3.c lines 265-326: the switch in arg_parse_tagged. *)
Definition switch (copt : Z) (s : gst) (g : G) (en : arg_end) : res (G * arg_end) :=
  if copt =? 0 then
    let tabindex := getoptval s in
    e <- aget tab tabindex ;;
    en <- match optarg s with
          | Some [] => if h_hasvalue e then
                         a <- nargv_get s (optind s - 1) ;;
                         arg_register_error en PEnd ARG_EMISSARG a
                       else Ok en
          | _ => Ok en
          end ;;
    call_scanfn tabindex (optarg s) g en
  else if copt =? 63 then
    if optopt s =? 0 then
      a <- nargv_get s (optind s - 1) ;;
      en <- arg_register_error en PEnd ARG_ELONGOPT a ;; Ok (g, en)
    else en <- arg_register_error en PEnd (optopt s) None ;; Ok (g, en)
  else if copt =? 58 then
    a <- nargv_get s (optind s - 1) ;;
    en <- arg_register_error en PEnd ARG_EMISSARG a ;; Ok (g, en)
  else
    let tabindex := find_shortoption tab 0 (chr copt) in
    if tabindex =? -1 then en <- arg_register_error en PEnd copt None ;; Ok (g, en)
    else call_scanfn tabindex (optarg s) g en.

(** argtable3.c lines 257-327: the loop around it. *)
Fixpoint tagged (longonly : bool) (fuel : nat) (nargc : Z) (shortoptions : str) (longoptions : list lopt)
    (s : gst) (g : G) (en : arg_end) : res (gst * G * arg_end) :=
  match fuel with
  | O => OutOfFuel
  | S f =>
      '(copt, s) <- getopt_in longonly posix (S (List.length (nargv s))) nargc shortoptions longoptions s ;;
      if copt =? -1 then Ok (s, g, en)
      else
        '(g, en) <- switch copt s g en ;;
        tagged longonly f nargc shortoptions longoptions s g en
  end.

(** argtable3.c lines 340-399: the loop of arg_parse_untagged and what follows it. [todo] is the part of the table not yet passed,
    beginning with entry [tabindex]; [args] the arguments from optind on. *)
Fixpoint untagged (fuel : nat) (tabindex : nat) (todo : list hdr) (args : list str) (last : pending) (g : G) (en : arg_end)
  : res (G * arg_end) :=
  match fuel with
  | O => OutOfFuel
  | S f =>
      match todo with
      | [] =>
          '(en, args) <- match last with
                         | Some (p, c, v) => en <- arg_register_error en p c v ;; Ok (en, tl args)
                         | None => Ok (en, args)
                         end ;;
          en <- untagged_rest args en ;;
          Ok (g, en)
      | h :: todo' =>
          match args with
          | [] => Ok (g, en)
          | a :: args' =>
              match h_longopts h, h_shortopts h with
              | None, None =>
                  match scanf tabindex with
                  | None => untagged f (S tabindex) todo' args last g en
                  | Some k =>
                      '(g, errorcode) <- k (Some a) g ;;
                      if errorcode =? 0 then untagged f tabindex todo args' None g en
                      else untagged f (S tabindex) todo' args (Some (PEntry tabindex, errorcode, Some a)) g en
                  end
              | _, _ => untagged f (S tabindex) todo' args last g en
              end
          end
      end
  end.

(** argtable3.c lines 404-415, arg_parse_check. [i]: the index of the head of [t]. *)
Fixpoint check_all (i : nat) (t : list hdr) (g : G) (en : arg_end) : res (G * arg_end) :=
  match t with
  | [] => Ok (g, en)
  | _ :: t' =>
      '(g, en) <- match checkf i with
                  | Some f => '(g, c) <- f g ;;
                              if c =? 0 then Ok (g, en) else en <- arg_register_error en (PEntry i) c None ;; Ok (g, en)
                  | None => Ok (g, en)
                  end ;;
      check_all (S i) t' g en
  end.

(** argtable3.c lines 417-425, arg_reset. *)
Fixpoint reset_all (i : nat) (t : list hdr) (g : G) : res G :=
  match t with
  | [] => Ok g
  | _ :: t' => g <- match resetf i with Some f => f g | None => Ok g end ;; reset_all (S i) t' g
  end.

Context (junko : nat -> rawopt) (junkc : nat -> ascii) (junkp : nat -> option str).

(** argtable3.c lines 235-331, arg_parse_tagged, on the argv block [p]. *)
Definition share_parse_tagged (longonly : bool) (fuel : nat) (argc : Z) (p : nat) (h : heap) (s : gst) (g : G) (en : arg_end)
  : res (heap * gst * G * arg_end) :=
  longoptions <- alloc_longoptions junko junkc tab ;;
  let '(h, pl) := halloc h BTemp in
  shortoptions <- alloc_shortoptions junkc tab ;;
  let '(h, ps) := halloc h BTemp in
  args <- load_args (Z.to_nat argc) 0 p h ;;
  let s := set_getoptval 0 (set_nargv args (set_optind 0 s)) in
  '(s, g, en) <- tagged longonly fuel argc shortoptions longoptions s g en ;;
  h <- store_args (nargv s) 0 p h ;;
  h <- hfree h ps ;;
  h <- hfree h pl ;;
  Ok (h, s, g, en).

(** argtable3.c lines 427-480, arg_parse. The parameters are those of [arg_parse_in]. *)
Definition share_parse_in (longonly : bool) (fuel : nat) (argc : Z) (argv : nat) (h : heap) (s : gst) (g : G) (en : arg_end)
  : res (heap * gst * G * arg_end) :=
  g <- reset_all 0 tab g ;;
  let en := arg_end_resetfn en in
  if argc =? 0 then
    '(g, en) <- check_all 0 tab g en ;; Ok (h, s, g, en)
  else
    let '(h, copy) := halloc h (BArgv (fresh junkp (argc + 1))) in
    h <- copy_loop (Z.to_nat argc) 0 argv copy h ;;
    h <- hset h copy argc None ;;
    '(h, s, g, en) <- share_parse_tagged longonly fuel argc copy h s g en ;;
    args <- load_args (Z.to_nat (argc - optind s)) (optind s) copy h ;;
    '(g, en) <- untagged (S (List.length tab + List.length args)) 0 tab args None g en ;;
    '(g, en) <- (if end_count en =? 0 then check_all 0 tab g en else Ok (g, en)) ;;
    h <- hfree h copy ;;
    Ok (h, s, g, en).
Definition share_parse := share_parse_in false.
End Share.
