(** AllocModel: allocation that may fail (arg_utils.c lines 44-111), and the constructors and the compilation of patterns with it.

    Only who owns which block is modelled here, not what is in the blocks (LayoutModel, RexModel). *)
From Coq Require Import ZArith String List Ascii Bool.
From Verif Require Import Base LayoutModel RexModel.
Import ListNotations.
Open Scope Z_scope.

(** [live]: the blocks allocated and not freed; [asked]: how often memory was asked for (the number of the next block);
    [err]: what was written to stderr; [handled]: how often the panic function was called. *)
Record world := { live : list nat; asked : nat; err : str; handled : nat }.
(** How a call ends: it returns; the program ends with exit or abort; the panic function of the user does not return (it ends the
    program or jumps away); undefined behaviour. *)
Inductive outcome (A : Type) := Returned (a : A) (w : world) | Exited (code : Z) (w : world) | Aborted (w : world) | Left (w : world) | Undefined (u : ub) (w : world).
Arguments Returned {A}. Arguments Exited {A}. Arguments Aborted {A}. Arguments Left {A}. Arguments Undefined {A}.
Definition act (A : Type) := world -> outcome A.
Definition give {A} (a : A) : act A := fun w => Returned a w.
Definition andthen {A B} (m : act A) (k : A -> act B) : act B := fun w =>
  match m w with Returned a w => k a w | Exited c w => Exited c w | Aborted w => Aborted w | Left w => Left w | Undefined u w => Undefined u w end.
Notation "x <== m ; k" := (andthen m (fun x => k)) (at level 61, m at next level, right associativity).

(** s_panic (line 45), set by arg_set_panic (lines 78-80): the library's own function, or one of the user
    that returns or does not. *)
Inductive handler := Own | User (returns : bool).

Section Alloc.
(** Whether the n-th request, of so many bytes, is granted *)
Context (granted : nat -> Z -> bool).
(** getenv("EF_DUMPCORE") *)
Context (dumpcore : option str).
Context (h : handler).

(** C library: malloc and calloc (of [n] bytes), realloc, free *)
Definition malloc (n : Z) : act (option nat) := fun w =>
  if granted (asked w) n then Returned (Some (asked w)) {| live := asked w :: live w; asked := S (asked w); err := err w; handled := handled w |}
  else Returned None {| live := live w; asked := S (asked w); err := err w; handled := handled w |}.
Definition drop (b : nat) (l : list nat) : list nat := remove Nat.eq_dec b l.
Definition realloc (p : option nat) (n : Z) : act (option nat) :=
  match p with
  | None => malloc n
  | Some b => fun w =>
      if in_dec Nat.eq_dec b (live w) then
        if granted (asked w) n then Returned (Some (asked w)) {| live := asked w :: drop b (live w); asked := S (asked w); err := err w; handled := handled w |}
        else Returned None {| live := live w; asked := S (asked w); err := err w; handled := handled w |}
      else Undefined UseAfterFree w
  end.
Definition free (p : option nat) : act unit :=
  match p with
  | None => give tt
  | Some b => fun w =>
      if in_dec Nat.eq_dec b (live w) then Returned tt {| live := drop b (live w); asked := asked w; err := err w; handled := handled w |}
      else Undefined DoubleFree w
  end.
(** Using a pointer *)
Definition deref (p : option nat) : act unit := match p with Some _ => give tt | None => fun w => Undefined NullDeref w end.

Definition EXIT_FAILURE : Z := 1.
(** panic: lines 54-76. The message has no conversions in it. *)
Definition panic (msg : str) : act unit := fun w =>
  let w := {| live := live w; asked := asked w; err := err w ++ msg; handled := S (handled w) |} in
  match dumpcore with
  | Some (_ :: _) => Aborted w
  | _ => Exited EXIT_FAILURE w
  end.
Definition s_panic (msg : str) : act unit :=
  match h with
  | Own => panic msg
  | User returns => fun w =>
      let w := {| live := live w; asked := asked w; err := err w; handled := S (handled w) |} in
      if returns then Returned tt w else Left w
  end.
Definition out_of_memory : str := lit "Out of memory!" ++ ["010"%char].

(** xmalloc: lines 82-88 *)
Definition xmalloc (size : Z) : act (option nat) :=
  ret <== malloc size;
  _ <== (match ret with None => s_panic out_of_memory | Some _ => give tt end);
  give ret.
(** xcalloc: lines 90-98 *)
Definition xcalloc (count size : Z) : act (option nat) :=
  let some := negb (count =? 0) && negb (size =? 0) in
  let allocated_count := if some then count else 1 in
  let allocated_size := if some then size else 1 in
  ret <== malloc (allocated_count * allocated_size);
  _ <== (match ret with None => s_panic out_of_memory | Some _ => give tt end);
  give ret.
(** xrealloc: lines 100-107 *)
Definition xrealloc (ptr : option nat) (size : Z) : act (option nat) :=
  let allocated_size := if negb (size =? 0) then size else 1 in
  ret <== realloc ptr allocated_size;
  _ <== (match ret with None => s_panic out_of_memory | Some _ => give tt end);
  give ret.
(** xfree: lines 109-111 *)
Definition xfree (ptr : option nat) : act unit := free ptr.

(** ** Patterns *)

(** TRex: _nodes, _jmpbuf and _matches; the structure itself is the pointer that is passed around. *)
Record trex_ := { t_nodes : option nat; t_jmpbuf : option nat; t_matches : option nat }.
(** trex_free: arg_rex.c lines 945-952 *)
Definition trex_free (p : option (nat * trex_)) : act unit :=
  match p with
  | None => give tt
  | Some (e, t) => _ <== xfree (t_nodes t); _ <== xfree (t_jmpbuf t); _ <== xfree (t_matches t); xfree (Some e)
  end.
(** The node table grows as often as [sizes] says (trex_newnode, lines 379-382), before the expression is complete or an error is found.
    It is used after each growth. *)
Fixpoint grow (p : option nat) (sizes : list Z) : act (option nat) :=
  match sizes with
  | [] => give p
  | n :: sizes => p <== xrealloc p n; _ <== deref p; grow p sizes
  end.
(** sizeof(TRex), sizeof(TRexNode), sizeof(jmp_buf), sizeof(TRexMatch) *)
Context (rex_size node_size jmp_size match_size : Z).
(** trex_compile: arg_rex.c lines 903-943. Whether the pattern compiles is [RexModel.trex_compile]'s answer; how often the table grows on the
    way is left open ([sizes]). *)
Definition trex_compile (pattern : str) (sizes : list Z) : act (option (nat * trex_)) :=
  exp <== xmalloc rex_size;
  _ <== deref exp;
  nodes <== xmalloc (zlen pattern * node_size);
  _ <== deref nodes;
  jmpbuf <== xmalloc jmp_size;
  _ <== deref jmpbuf;
  match exp with
  | None => fun w => Undefined NullDeref w
  | Some e =>
      nodes <== grow nodes sizes;
      match RexModel.trex_compile pattern with
      | CDone _ st =>
          matches <== xmalloc (r_nsub st * match_size);
          _ <== deref matches;
          give (Some (e, {| t_nodes := nodes; t_jmpbuf := jmpbuf; t_matches := matches |}))
      | CFail _ => _ <== trex_free (Some (e, {| t_nodes := nodes; t_jmpbuf := jmpbuf; t_matches := None |})); give None
      | CUB u => fun w => Undefined u w
      | CFuel => fun w => Undefined NullDeref w
      end
  end.

(** ** Constructors *)
Context (A : abi).
(** struct arg_rem, struct arg_lit: argtable3.h lines 123-134 *)
Definition arg_rem_ : Z := struct_size [hdr_ A].
Definition arg_lit_ : Z := struct_size [hdr_ A; int_].
(** The constructors with their counts; a pattern may be NULL. The address of the block does not enter its size. *)
Inductive maker :=
| MakeLit | MakeRem | MakeInt (mincount maxcount : Z) | MakeDbl (mincount maxcount : Z) | MakeStr (mincount maxcount : Z) | MakeFile (mincount maxcount : Z)
| MakeDate (mincount maxcount : Z) | MakeRex (pattern : option str) (mincount maxcount : Z) (sizes : list Z) | MakeEnd (maxcount : Z).
(** One block, which is filled in *)
Definition one_block (size : Z) : act (option nat) := p <== xmalloc size; _ <== deref p; give p.
(** arg_litn (arg_lit.c lines 90-117), arg_rem (arg_rem.c lines 41-59), arg_intn (arg_int.c 251-289), arg_dbln (arg_dbl.c 110-159), arg_strn
    (arg_str.c 101-146), arg_filen (arg_file.c 158-208), arg_daten (arg_date.c 118-165), arg_rexn (arg_rex.c 220-297), arg_end (arg_end.c
    78-119) *)
Definition make (k : maker) : act (option nat) :=
  match k with
  | MakeLit => one_block arg_lit_
  | MakeRem => one_block arg_rem_
  | MakeInt mn mx => one_block (l_bytes (int_layout A 0 mn mx))
  | MakeDbl mn mx => match dbl_layout A 0 mn mx with Ok l => one_block (l_bytes l) | UB u => fun w => Undefined u w | OutOfFuel => fun w => Undefined NullDeref w end
  | MakeStr mn mx => one_block (l_bytes (str_layout A 0 mn mx))
  | MakeFile mn mx => one_block (l_bytes (file_layout A 0 mn mx))
  | MakeDate mn mx => p <== xcalloc 1 (l_bytes (date_layout A 0 mn mx)); _ <== deref p; give p
  | MakeRex None _ _ _ => give None (* after two lines on stdout *)
  | MakeRex (Some pattern) mn mx sizes =>
      p <== one_block (l_bytes (rex_layout A 0 mn mx));
      rex <== trex_compile pattern sizes;
      _ <== trex_free rex;
      give p
  | MakeEnd mx => one_block (l_bytes (end_layout A 0 mx))
  end.
(** A table: the constructors called one after another, as in the initialisers of the examples *)
Fixpoint make_all (l : list maker) : act (list (option nat)) :=
  match l with
  | [] => give []
  | k :: l => p <== make k; ps <== make_all l; give (p :: ps)
  end.
(** arg_rex_scanfn: arg_rex.c lines 130-162, the part for a value when there is room (lines 145-158); trex_match dereferences the compiled
    expression. What it allocates is released before it returns. [answer] is the answer of the matcher. *)
Definition rex_scan (pattern : str) (sizes : list Z) (answer : bool) : act bool :=
  rex <== trex_compile pattern sizes;
  _ <== deref (option_map fst rex);
  _ <== trex_free rex;
  give answer.
(** Several values, one after another *)
Fixpoint rex_scans (l : list (str * list Z * bool)) : act unit :=
  match l with
  | [] => give tt
  | (pattern, sizes, answer) :: l => _ <== rex_scan pattern sizes answer; rex_scans l
  end.
(** arg_parse_tagged (argtable3.c lines 236-331): the tables for the option scanner, of [nlong] and [nshort] bytes, and the values of options
    that are matched with patterns; the other kinds do not allocate anything. *)
Definition parse_tagged (nlong nshort : Z) (values : list (str * list Z * bool)) : act unit :=
  longoptions <== xmalloc nlong;
  _ <== deref longoptions;
  shortoptions <== xmalloc nshort;
  _ <== deref shortoptions;
  _ <== rex_scans values;
  _ <== xfree shortoptions;
  xfree longoptions.
(** arg_parse (argtable3.c lines 427-480): the copy of argv (of argc + 1 pointers), options, positional arguments. *)
Definition parse (argc nlong nshort : Z) (tagged untagged : list (str * list Z * bool)) : act unit :=
  if argc =? 0 then give tt
  else
    argvcopy <== xmalloc (ptr_size A * (argc + 1));
    _ <== deref argvcopy;
    _ <== parse_tagged nlong nshort tagged;
    _ <== rex_scans untagged;
    xfree argvcopy.
End Alloc.
