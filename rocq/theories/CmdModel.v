(** CmdModel: the sub-command registry of arg_cmd.c (lines 107-219), on top of the hash table of HashModel.

    Texts are lists of characters without NUL. A procedure is a value of type [P]; calling one is [call]. *)
From Coq Require Import ZArith List Bool Ascii.
From Verif Require Import Base HashModel.
Import ListNotations.
Open Scope Z_scope.

(** hash_key: arg_cmd.c lines 107-116; char is signed *)
Definition hash_key (k : str) : Z := fold_left (fun h c => (h * 32 + h + sc c) mod U32) k 5381.
(** equal_keys: lines 118-122 *)
Definition equal_keys (a b : str) : bool := str_eqb a b.

(** ARG_CMD_NAME_LEN, ARG_CMD_DESCRIPTION_LEN: argtable3.h lines 46-53 *)
Definition ARG_CMD_NAME_LEN : Z := 100.
Definition ARG_CMD_DESCRIPTION_LEN : Z := 256.

Section Cmd.
Context {P C A R : Type}.
Context (call : P -> A -> C -> R).

(** arg_cmd_info_t: argtable3.h lines 209-214 (the two character arrays by their texts) *)
Record cmdinfo := { ci_name : str; ci_desc : str; ci_proc : option P; ci_ctx : C }.

(** s_hashtable (line 45) and the memory *)
Record cmds := { s_mem : world str cmdinfo; s_table : option nat }.
Definition cmds0 : cmds := {| s_mem := world0; s_table := None |}.
Definition table_of (s : cmds) : res nat := match s_table s with Some h => Ok h | None => UB NullDeref end.
Definition up_mem (s : cmds) (w : world str cmdinfo) : cmds := {| s_mem := w; s_table := s_table s |}.

(** A char pointer argument: the client's own text, or the name or description field of a cmd_info block, or a key. *)
Inductive cptr := Text (t : str) | NameOf (i : nat) | DescOf (i : nat) | KeyAt (k : nat).
Definition deref (w : world str cmdinfo) (p : cptr) : res str :=
  match p with
  | Text t => Ok t
  | NameOf i => x <- sread (w_val w) i ;; Ok (ci_name x)
  | DescOf i => x <- sread (w_val w) i ;; Ok (ci_desc x)
  | KeyAt k => sread (w_key w) k
  end.

(** arg_cmd_init: lines 124-126 *)
Definition arg_cmd_init (s : cmds) : cmds :=
  let '(w, h) := arg_hashtable_create (s_mem s) 32 in {| s_mem := w; s_table := h |}.
(** arg_cmd_uninit: lines 128-130 (s_hashtable keeps its value) *)
Definition arg_cmd_uninit (s : cmds) : res cmds :=
  h <- table_of s ;; w <- arg_hashtable_destroy (s_mem s) h true ;; Ok (up_mem s w).

(** arg_cmd_register: lines 132-174. A text too long for its array fails an assertion, or with NDEBUG leaves the array
    without terminator; both are modelled as an out-of-bounds write. *)
Definition arg_cmd_register (s : cmds) (name : cptr) (proc : option P) (description : cptr) (ctx : C) : res cmds :=
  n <- deref (s_mem s) name ;;
  d <- deref (s_mem s) description ;;
  if (ARG_CMD_NAME_LEN <=? zlen n) || (ARG_CMD_DESCRIPTION_LEN <=? zlen d) then UB OOBWrite
  else
    h <- table_of s ;;
    found <- arg_hashtable_search hash_key equal_keys (s_mem s) h n ;;
    w <- match found with
         | Some _ => arg_hashtable_remove hash_key equal_keys (s_mem s) h n
         | None => Ok (s_mem s)
         end ;;
    n <- deref w name ;;
    d <- deref w description ;;
    let '(vs, cmd_info) := salloc (w_val w) {| ci_name := n; ci_desc := d; ci_proc := proc; ci_ctx := ctx |} in
    let '(ks, k) := salloc (w_key w) n in
    w <- arg_hashtable_insert hash_key (up_key (up_val w vs) ks) h k (Some cmd_info) ;;
    Ok (up_mem s w).

(** arg_cmd_unregister: lines 176-178 *)
Definition arg_cmd_unregister (s : cmds) (name : cptr) : res cmds :=
  n <- deref (s_mem s) name ;;
  h <- table_of s ;;
  w <- arg_hashtable_remove hash_key equal_keys (s_mem s) h n ;;
  Ok (up_mem s w).

(** arg_cmd_info: lines 189-191 *)
Definition arg_cmd_info (s : cmds) (name : str) : res (option nat) :=
  h <- table_of s ;; arg_hashtable_search hash_key equal_keys (s_mem s) h name.

(** arg_cmd_dispatch: lines 180-187. The two assertions guard against calling through NULL. *)
Definition arg_cmd_dispatch (s : cmds) (name : str) (args : A) : res R :=
  i <- arg_cmd_info s name ;;
  match i with
  | None => UB NullDeref
  | Some i =>
      x <- sread (w_val (s_mem s)) i ;;
      match ci_proc x with
      | None => UB NullDeref
      | Some p => Ok (call p args (ci_ctx x))
      end
  end.

(** arg_cmd_count: lines 193-195 *)
Definition arg_cmd_count (s : cmds) : res Z := h <- table_of s ;; arg_hashtable_count (s_mem s) h.
(** arg_cmd_itr_create, _advance, _key, _value, _search: lines 197-219 (the iterator block itself, freed by arg_cmd_itr_destroy, is not modelled) *)
Definition arg_cmd_itr_create (s : cmds) : res itr := h <- table_of s ;; arg_hashtable_itr_create (s_mem s) h.
Definition arg_cmd_itr_advance (s : cmds) (it : itr) : res (itr * bool) := arg_hashtable_itr_advance (s_mem s) it.
Definition arg_cmd_itr_key (s : cmds) (it : itr) : res nat := arg_hashtable_itr_key (s_mem s) it.
Definition arg_cmd_itr_value (s : cmds) (it : itr) : res (option nat) := arg_hashtable_itr_value (s_mem s) it.
Definition arg_cmd_itr_search (s : cmds) (it : itr) (k : str) : res (itr * bool) :=
  h <- table_of s ;; arg_hashtable_itr_search hash_key equal_keys (s_mem s) it h k.
End Cmd.
Arguments cmdinfo : clear implicits.
Arguments cmds : clear implicits.
