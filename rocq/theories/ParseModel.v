(** Model of the parser in /repo/src/argtable3.c lines 60-480 (embedded getopt; [arg_parse] is
    the default build, [arg_parse_in true] the build with ARG_LONG_ONLY) and of struct arg_end (arg_end.c lines 41-130).

    The model is parametric in the kinds of table entries: an entry is a header (never changed by
    the library) and a body of type [B], with its three function pointers [scan], [check] and
    [reset] given as parameters. ArgModel.v instantiates them with the library's own kinds.

    Simplifications: entries are told apart by their position in the table (no entry occurs twice
    in it); hdr.parent is the entry itself, as every constructor sets it; the table contains the
    terminating arg_end entry exactly once, at the end; only the first terminator matters to the
    code. *)
From Verif Require Import Base IntModel GetoptModel.
From Coq Require Import ZArith List Ascii String Bool.
Import ListNotations.
Open Scope Z_scope.

(** struct arg_hdr (argtable3.h). *)
Record hdr := {
  h_hasvalue : bool;              (* flag & ARG_HASVALUE *)
  h_hasoptvalue : bool;           (* flag & ARG_HASOPTVALUE *)
  h_shortopts : option str; h_longopts : option str;
  h_datatype : option str; h_glossary : option str;
  h_mincount : Z; h_maxcount : Z
}.

(** Error codes, argtable3.h / argtable3_private.h. *)
Definition ARG_ELIMIT : Z := 1.
Definition ARG_EMALLOC : Z := 2.
Definition ARG_ENOMATCH : Z := 3.
Definition ARG_ELONGOPT : Z := 4.
Definition ARG_EMISSARG : Z := 5.

(** The parent pointer of a recorded error: the arg_end entry or a table entry. *)
Inductive owner := PEnd | PEntry (i : nat).
Record err := { err_owner : owner; err_code : Z; err_argval : option str }.

(** struct arg_end: three parallel arrays of [maxcount] elements. *)
Record arg_end := {
  end_max : Z; end_count : Z;
  end_error : list Z; end_parent : list owner; end_argval : list (option str)
}.

(** arg_end_resetfn, arg_end.c lines 41-44. *)
Definition arg_end_resetfn (e : arg_end) : arg_end :=
  {| end_max := end_max e; end_count := 0; end_error := end_error e; end_parent := end_parent e; end_argval := end_argval e |}.

(** arg_register_error, argtable3.c lines 60-72. *)
Definition arg_register_error (e : arg_end) (parent : owner) (error : Z) (argval : option str) : res arg_end :=
  if end_count e <? end_max e then
    er <- aset (end_error e) (end_count e) error ;;
    pa <- aset (end_parent e) (end_count e) parent ;;
    av <- aset (end_argval e) (end_count e) argval ;;
    Ok {| end_max := end_max e; end_count := end_count e + 1; end_error := er; end_parent := pa; end_argval := av |}
  else
    er <- aset (end_error e) (end_max e - 1) ARG_ELIMIT ;;
    pa <- aset (end_parent e) (end_max e - 1) PEnd ;;
    av <- aset (end_argval e) (end_max e - 1) None ;;
    Ok {| end_max := end_max e; end_count := end_count e; end_error := er; end_parent := pa; end_argval := av |}.

(** find_shortoption, lines 78-85; the index of the first match, -1 if none. *)
Fixpoint find_shortoption (t : list hdr) (i : Z) (c : ascii) : Z :=
  match t with
  | [] => -1
  | h :: t' =>
      if match h_shortopts h with Some so => match strchr so c with Some _ => true | None => false end | None => false end
      then i else find_shortoption t' (i + 1) c
  end.

(** ** Option tables *)

(** Uninitialised bytes of a fresh block. *)
Definition fresh {A} (junk : nat -> A) (n : Z) : list A := map junk (seq 0 (Z.to_nat n)).

(** Copying a name, lines 159-161: copies up to a comma or the end, then a NUL. *)
Fixpoint copy_name (l : str) (pos : Z) (store : list ascii) : res (str * Z * list ascii) :=
  match l with
  | c :: l' =>
      if ceqb c "," then
        st <- aset store pos NUL ;; Ok (l, pos + 1, st)
      else
        st <- aset store pos c ;; copy_name l' (pos + 1) st
  | [] => st <- aset store pos NUL ;; Ok ([], pos + 1, st)
  end.

(** struct option as filled in: the name is a position in the store. *)
Record rawopt := { ro_name : option Z; ro_has_arg : Z; ro_flag : bool; ro_val : Z }.

Definition long_has_arg (h : hdr) : Z :=
  if h_hasoptvalue h then 2 else if h_hasvalue h then 1 else 0.

(** Lines 155-177, for the entry at [tabindex]. The fuel bounds the iterations by the length of
    the string; running out of it is a separate outcome. *)
Fixpoint fill_entry (fuel : nat) (h : hdr) (tabindex : Z) (l : str) (st : Z * list rawopt * Z * list ascii)
  : res (Z * list rawopt * Z * list ascii) :=
  match l with
  | [] => Ok st
  | _ :: _ =>
      match fuel with
      | O => OutOfFuel
      | S f =>
          let '(oi, opts, pos, store) := st in
          '(l1, pos1, store1) <- copy_name l pos store ;;
          let l2 := match l1 with c :: t => if ceqb c "," then t else l1 | [] => [] end in
          opts1 <- aset opts oi {| ro_name := Some pos; ro_has_arg := long_has_arg h; ro_flag := true; ro_val := tabindex |} ;;
          fill_entry f h tabindex l2 (oi + 1, opts1, pos1, store1)
      end
  end.

Fixpoint fill_entries (t : list hdr) (tabindex : Z) (st : Z * list rawopt * Z * list ascii)
  : res (Z * list rawopt * Z * list ascii) :=
  match t with
  | [] => Ok st
  | h :: t' =>
      st' <- match h_longopts h with
             | Some l => fill_entry (List.length l) h tabindex l st
             | None => Ok st
             end ;;
      fill_entries t' (tabindex + 1) st'
  end.

(** Lines 133-138: strchr(longopts + 1, ',') starts one past the current position, which must
    not be beyond the terminator. *)
Definition count_commas (s : str) : Z := zlen (filter (fun c => ceqb c ",") s).
Definition count_names (l : option str) : res Z :=
  match l with
  | None => Ok 0
  | Some [] => UB OOBRead                 (* "" + 1 is past the terminator *)
  | Some (_ :: r) => Ok (1 + count_commas r)
  end.
Definition longopts_len (l : option str) : Z := (match l with Some s => zlen s | None => 0 end) + 1.

(** Lines 131-139; the terminator has longopts NULL and counts one character. *)
Fixpoint count_all (t : list hdr) (noptions len : Z) : res (Z * Z) :=
  match t with
  | [] => Ok (noptions, len + 1)
  | h :: t' =>
      k <- count_names (h_longopts h) ;;
      count_all t' (noptions + k) (len + longopts_len (h_longopts h))
  end.

(** Reading back a C string from the store. *)
Fixpoint read_cstr (store : list ascii) : res str :=
  match store with
  | [] => UB OOBRead
  | c :: s => if ceqb c NUL then Ok [] else r <- read_cstr s ;; Ok (c :: r)
  end.

(** What the scanner sees: the entries up to the one with name NULL. *)
Fixpoint view_options (opts : list rawopt) (store : list ascii) : res (list lopt) :=
  match opts with
  | [] => UB OOBRead
  | o :: opts' =>
      match ro_name o with
      | None => Ok []
      | Some p =>
          nm <- read_cstr (skipn (Z.to_nat p) store) ;;
          r <- view_options opts' store ;;
          Ok ({| lo_name := nm; lo_has_arg := ro_has_arg o; lo_flag := ro_flag o; lo_val := ro_val o |} :: r)
      end
  end.

(** alloc_longoptions, lines 112-187, together with the view the scanner has of the result.
    The block is kept as its two arrays, struct option[noptions] and char[longoptlen]. *)
Definition alloc_longoptions (junko : nat -> rawopt) (junkc : nat -> ascii) (t : list hdr) : res (list lopt) :=
  '(noptions, len) <- count_all t 1 0 ;;
  '(oi, opts, pos, store) <- fill_entries t 0 (0, fresh junko noptions, 0, fresh junkc len) ;;
  opts' <- aset opts oi {| ro_name := None; ro_has_arg := 0; ro_flag := false; ro_val := 0 |} ;;
  view_options opts' store.

(** alloc_shortoptions, lines 189-225. *)
Definition put (buf : list ascii) (pos : Z) (c : ascii) : res (list ascii * Z) :=
  b <- aset buf pos c ;; Ok (b, pos + 1).

Fixpoint short_chars (h : hdr) (so : str) (buf : list ascii) (pos : Z) : res (list ascii * Z) :=
  match so with
  | [] => Ok (buf, pos)
  | c :: so' =>
      '(buf, pos) <- put buf pos c ;;
      '(buf, pos) <- (if h_hasvalue h then put buf pos ":" else Ok (buf, pos)) ;;
      '(buf, pos) <- (if h_hasoptvalue h then put buf pos ":" else Ok (buf, pos)) ;;
      short_chars h so' buf pos
  end.
Fixpoint short_entries (t : list hdr) (buf : list ascii) (pos : Z) : res (list ascii * Z) :=
  match t with
  | [] => Ok (buf, pos)
  | h :: t' =>
      '(buf, pos) <- short_chars h (match h_shortopts h with Some so => so | None => [] end) buf pos ;;
      short_entries t' buf pos
  end.
Definition short_len (t : list hdr) : Z :=
  fold_left (fun n h => n + 3 * (match h_shortopts h with Some so => zlen so | None => 0 end)) t 2.
Definition alloc_shortoptions (junkc : nat -> ascii) (t : list hdr) : res str :=
  let buf := fresh junkc (short_len t) in
  '(buf, pos) <- put buf 0 ":" ;;
  '(buf, pos) <- short_entries t buf pos ;;
  buf <- aset buf pos NUL ;;
  read_cstr buf.

(** ** Parsing *)
Section Parse.
Context {B : Type}.
Context (scan : hdr -> B -> option (option str -> res (B * Z))).   (* scanfn; None when NULL *)
Context (check : hdr -> B -> option Z).                            (* checkfn *)
Context (reset : hdr -> B -> res B).                               (* resetfn *)
Context (posix : bool).                                            (* POSIXLY_CORRECT set? *)

Record entry := { e_hdr : hdr; e_body : B }.
Definition set_body (b : B) (e : entry) : entry := {| e_hdr := e_hdr e; e_body := b |}.

(** Calling table[i]->scanfn(parent, arg) and recording its error (lines 275-279 and 317-322). *)
Definition call_scan (tab : list entry) (i : Z) (arg : option str) (en : arg_end) : res (list entry * arg_end) :=
  e <- aget tab i ;;
  match scan (e_hdr e) (e_body e) with
  | None => Ok (tab, en)
  | Some f =>
      '(b, errorcode) <- f arg ;;
      tab' <- aset tab i (set_body b e) ;;
      if errorcode =? 0 then Ok (tab', en)
      else en' <- arg_register_error en (PEntry (Z.to_nat i)) errorcode arg ;; Ok (tab', en')
  end.

(** The switch in arg_parse_tagged, lines 265-326. *)
Definition dispatch (copt : Z) (s : gst) (tab : list entry) (en : arg_end) : res (list entry * arg_end) :=
  if copt =? 0 then
    let tabindex := getoptval s in
    e <- aget tab tabindex ;;
    en <- match optarg s with
          | Some [] => if h_hasvalue (e_hdr e) then
                         a <- nargv_get s (optind s - 1) ;;
                         arg_register_error en PEnd ARG_EMISSARG a
                       else Ok en
          | _ => Ok en
          end ;;
    call_scan tab tabindex (optarg s) en
  else if copt =? 63 then
    if optopt s =? 0 then
      a <- nargv_get s (optind s - 1) ;;
      en <- arg_register_error en PEnd ARG_ELONGOPT a ;; Ok (tab, en)
    else en <- arg_register_error en PEnd (optopt s) None ;; Ok (tab, en)
  else if copt =? 58 then
    a <- nargv_get s (optind s - 1) ;;
    en <- arg_register_error en PEnd ARG_EMISSARG a ;; Ok (tab, en)
  else
    let tabindex := find_shortoption (map e_hdr tab) 0 (chr copt) in
    if tabindex =? -1 then en <- arg_register_error en PEnd copt None ;; Ok (tab, en)
    else call_scan tab tabindex (optarg s) en.

(** The macro at lines 254-258: which function scans the arguments. *)
Definition getopt_in (longonly : bool) := if longonly then getopt_long_only else getopt_long.

(** The loop, lines 257-327. *)
Fixpoint tagged_loop (longonly : bool) (fuel : nat) (nargc : Z) (shortoptions : str) (longoptions : list lopt)
    (s : gst) (tab : list entry) (en : arg_end) : res (gst * list entry * arg_end) :=
  match fuel with
  | O => OutOfFuel
  | S f =>
      '(copt, s) <- getopt_in longonly posix (S (List.length (nargv s))) nargc shortoptions longoptions s ;;
      if copt =? -1 then Ok (s, tab, en)
      else
        '(tab, en) <- dispatch copt s tab en ;;
        tagged_loop longonly f nargc shortoptions longoptions s tab en
  end.

(** arg_parse_untagged, lines 333-402. *)
Definition pending := option (owner * Z * option str).

(** Lines 396-399: everything left is unexpected. *)
Fixpoint untagged_rest (args : list str) (en : arg_end) : res arg_end :=
  match args with
  | [] => Ok en
  | a :: args' => en <- arg_register_error en PEnd ARG_ENOMATCH (Some a) ;; untagged_rest args' en
  end.

(** The loop, lines 340-386. [todo] is the part of the table not yet passed, [args] the arguments
    from optind on; [tabindex] is the index of the head of [todo], [done] the entries passed, in
    reverse. Each iteration either consumes an argument or passes an entry, hence the fuel. *)
Fixpoint untagged_loop (fuel : nat) (done : list entry) (tabindex : nat) (todo : list entry)
    (args : list str) (last : pending) (en : arg_end) : res (list entry * arg_end) :=
  match fuel with
  | O => OutOfFuel
  | S f =>
      match todo with
      | [] =>
          (* lines 388-399 *)
          '(en, args) <- match last with
                         | Some (p, c, v) => en <- arg_register_error en p c v ;; Ok (en, tl args)
                         | None => Ok (en, args)
                         end ;;
          en <- untagged_rest args en ;;
          Ok (rev done, en)
      | e :: todo' =>
          match args with
          | [] => Ok (rev done ++ todo, en)
          | a :: args' =>
              match h_longopts (e_hdr e), h_shortopts (e_hdr e) with
              | None, None =>
                  match scan (e_hdr e) (e_body e) with
                  | None => untagged_loop f (e :: done) (S tabindex) todo' args last en
                  | Some g =>
                      '(b, errorcode) <- g (Some a) ;;
                      let e' := set_body b e in
                      if errorcode =? 0 then untagged_loop f done tabindex (e' :: todo') args' None en
                      else untagged_loop f (e' :: done) (S tabindex) todo' args (Some (PEntry tabindex, errorcode, Some a)) en
                  end
              | _, _ => untagged_loop f (e :: done) (S tabindex) todo' args last en
              end
          end
      end
  end.

Definition arg_parse_untagged (tab : list entry) (args : list str) (en : arg_end) : res (list entry * arg_end) :=
  untagged_loop (S (List.length tab + List.length args)) [] 0 tab args None en.

(** arg_parse_check, lines 404-415; the terminator's checkfn is NULL. *)
Fixpoint check_loop (i : nat) (t : list entry) (en : arg_end) : res arg_end :=
  match t with
  | [] => Ok en
  | e :: t' =>
      en <- match check (e_hdr e) (e_body e) with
            | Some c => if c =? 0 then Ok en else arg_register_error en (PEntry i) c None
            | None => Ok en
            end ;;
      check_loop (S i) t' en
  end.

(** arg_reset, lines 417-425. *)
Fixpoint reset_loop (t : list entry) : res (list entry) :=
  match t with
  | [] => Ok []
  | e :: t' => b <- reset (e_hdr e) (e_body e) ;; t'' <- reset_loop t' ;; Ok (set_body b e :: t'')
  end.

(** Heap blocks that arg_parse itself touches: pointer arrays, other temporary blocks, freed
    blocks. A block is named by its position. *)
Inductive block := BArgv (l : list (option str)) | BTemp | BFreed.
Definition heap := list block.
Definition halloc (h : heap) (b : block) : heap * nat := (h ++ [b], List.length h).
Definition hfree (h : heap) (p : nat) : res heap :=
  match nth_error h p with
  | Some BFreed => UB DoubleFree
  | Some _ => Ok (lupd h p BFreed)
  | None => UB BadFree
  end.
Definition hget (h : heap) (p : nat) (i : Z) : res (option str) :=
  match nth_error h p with
  | Some (BArgv l) => aget l i
  | Some BFreed => UB UseAfterFree
  | _ => UB OOBRead
  end.
Definition hset (h : heap) (p : nat) (i : Z) (v : option str) : res heap :=
  match nth_error h p with
  | Some (BArgv l) => l' <- aset l i v ;; Ok (lupd h p (BArgv l'))
  | Some BFreed => UB UseAfterFree
  | _ => UB OOBWrite
  end.

(** Lines 461-462. *)
Fixpoint copy_loop (n : nat) (i : Z) (src dst : nat) (h : heap) : res heap :=
  match n with
  | O => Ok h
  | S n' => v <- hget h src i ;; h <- hset h dst i v ;; copy_loop n' (i + 1) src dst h
  end.

(** Reading / writing back the arguments of an argv block: getopt works on the block through the
    nargv pointer; the model hands it the contents and stores them back afterwards. *)
Fixpoint load_args (n : nat) (i : Z) (p : nat) (h : heap) : res (list str) :=
  match n with
  | O => Ok []
  | S n' => v <- hget h p i ;;
            match v with
            | None => UB NullDeref
            | Some a => r <- load_args n' (i + 1) p h ;; Ok (a :: r)
            end
  end.
Fixpoint store_args (l : list str) (i : Z) (p : nat) (h : heap) : res heap :=
  match l with
  | [] => Ok h
  | a :: l' => h <- hset h p i (Some a) ;; store_args l' (i + 1) p h
  end.

Context (junko : nat -> rawopt) (junkc : nat -> ascii) (junkp : nat -> option str).

(** arg_parse_tagged, lines 235-331, on the argv block [p]. *)
Definition arg_parse_tagged (longonly : bool) (fuel : nat) (argc : Z) (p : nat) (h : heap) (s : gst) (tab : list entry) (en : arg_end)
  : res (heap * gst * list entry * arg_end) :=
  longoptions <- alloc_longoptions junko junkc (map e_hdr tab) ;;
  let '(h, pl) := halloc h BTemp in
  shortoptions <- alloc_shortoptions junkc (map e_hdr tab) ;;
  let '(h, ps) := halloc h BTemp in
  args <- load_args (Z.to_nat argc) 0 p h ;;
  let s := set_getoptval 0 (set_nargv args (set_optind 0 s)) in
  '(s, tab, en) <- tagged_loop longonly fuel argc shortoptions longoptions s tab en ;;
  h <- store_args (nargv s) 0 p h ;;
  h <- hfree h ps ;;
  h <- hfree h pl ;;
  Ok (h, s, tab, en).

(** arg_parse, lines 427-480. Result: the heap, the getopt state, the table, the end entry (whose
    count is the return value). [fuel] bounds the number of getopt_long calls. [longonly]: built with ARG_LONG_ONLY. *)
Definition arg_parse_in (longonly : bool) (fuel : nat) (argc : Z) (argv : nat) (h : heap) (s : gst) (tab : list entry) (en : arg_end)
  : res (heap * gst * list entry * arg_end) :=
  tab <- reset_loop tab ;;
  let en := arg_end_resetfn en in
  if argc =? 0 then
    en <- check_loop 0 tab en ;; Ok (h, s, tab, en)
  else
    let '(h, copy) := halloc h (BArgv (fresh junkp (argc + 1))) in
    h <- copy_loop (Z.to_nat argc) 0 argv copy h ;;
    h <- hset h copy argc None ;;
    '(h, s, tab, en) <- arg_parse_tagged longonly fuel argc copy h s tab en ;;
    args <- load_args (Z.to_nat (argc - optind s)) (optind s) copy h ;;
    '(tab, en) <- arg_parse_untagged tab args en ;;
    en <- (if end_count en =? 0 then check_loop 0 tab en else Ok en) ;;
    h <- hfree h copy ;;
    Ok (h, s, tab, en).
Definition arg_parse := arg_parse_in false.
End Parse.

Arguments entry B : clear implicits.
