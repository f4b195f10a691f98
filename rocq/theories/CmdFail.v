(** CmdFail: the command registry when memory runs out and the panic function jumps back into the program.

    As in DstrFail an oracle grants or refuses each request for memory. The typed stores of HashModel number their
    blocks separately, so the requests are numbered by a counter of their own. A call answers with the memory it
    leaves, the counter, and whether it was carried out; a call that was broken off leaves memory as it is at the
    refused request. The registry was set up before (arg_cmd_init is not part of this). *)
From Coq Require Import ZArith List Bool.
From Verif Require Import Base HashModel CmdModel CmdSpec.
Import ListNotations.
Open Scope Z_scope.

Section Fail.
Context (granted : nat -> bool).

Section Hash.
Context {K V : Type}.
Context (hashfn : K -> Z).
Notation W := (world K V).

Definition set_prime (t : ht) (i : Z) : ht :=
  {| t_len := t_len t; t_tab := t_tab t; t_count := t_count t; t_load := t_load t; t_prime := i |}.

(** arg_hashtable_expand: arg_hashtable.c lines 139-172. The index is increased (line 150) before the new array is asked
    for (line 152); after that nothing is asked for, and the function does what HashModel says. *)
Definition try_expand (q : nat) (w : W) (h : nat) : res (W * nat * bool) :=
  t <- sread (w_ht w) h ;;
  if t_prime t =? prime_table_length - 1 then Ok (w, q, true)
  else
    _ <- aget primes (t_prime t + 1) ;;
    if granted q then w <- arg_hashtable_expand w h ;; Ok (w, S q, true)
    else hs <- swrite (w_ht w) h (set_prime t (t_prime t + 1)) ;; Ok (up_ht w hs, S q, false).

(** arg_hashtable_insert, lines 191-198: from the request for the entry on *)
Definition insert_entry (w : W) (h : nat) (k : nat) (v : option nat) : res W :=
  t <- sread (w_ht w) h ;;
  key <- sread (w_key w) k ;;
  let hv := enhanced_hash hashfn key in
  index <- index_for (t_len t) hv ;;
  x <- bget w (t_tab t) index ;;
  let '(s, e) := salloc (w_node w) {| n_k := k; n_v := v; n_h := hv; n_next := x |} in
  w <- bset (up_node w s) (t_tab t) index (Some e) ;;
  hs <- swrite (w_ht w) h (set_count t (t_count t + 1)) ;;
  Ok (up_ht w hs).

(** arg_hashtable_insert: lines 178-199 *)
Definition try_insert (q : nat) (w : W) (h : nat) (k : nat) (v : option nat) : res (W * nat * bool) :=
  t <- sread (w_ht w) h ;;
  '(w, q, ok) <- (if t_load t <? t_count t + 1 then try_expand q w h else Ok (w, q, true)) ;;
  if negb ok then Ok (w, q, false)
  else if granted q then w <- insert_entry w h k v ;; Ok (w, S q, true)
  else Ok (w, S q, false).
End Hash.

Context {P C : Type}.

(** arg_cmd_register: arg_cmd.c lines 132-174. The block for the command is asked for at line 149, after an old command of
    that name has been removed (lines 143-147), the key at line 164. *)
Definition try_register (q : nat) (s : cmds P C) (name : cptr) (proc : option P) (description : cptr) (ctx : C) : res (cmds P C * nat * bool) :=
  n <- deref (s_mem s) name ;;
  d <- deref (s_mem s) description ;;
  if (ARG_CMD_NAME_LEN <=? zlen n) || (ARG_CMD_DESCRIPTION_LEN <=? zlen d) then UB OOBWrite
  else
    h <- table_of s ;;
    found <- arg_hashtable_search hash_key equal_keys (s_mem s) h n ;;
    w <- match found with
         | Some _ => arg_hashtable_remove hash_key equal_keys (s_mem s) h n
         | None => Ok (s_mem s)
         end ;;
    if negb (granted q) then Ok (up_mem s w, S q, false)
    else
      n <- deref w name ;;
      d <- deref w description ;;
      let '(vs, cmd_info) := salloc (w_val w) {| ci_name := n; ci_desc := d; ci_proc := proc; ci_ctx := ctx |} in
      let w := up_val w vs in
      if negb (granted (S q)) then Ok (up_mem s w, S (S q), false)
      else
        let '(ks, k) := salloc (w_key w) n in
        '(w, q, ok) <- try_insert hash_key (S (S q)) (up_key w ks) h k (Some cmd_info) ;;
        Ok (up_mem s w, q, ok).

(** One call of a client. arg_cmd_unregister (lines 176-178) asks for nothing. *)
Definition try_cop (q : nat) (s : cmds P C) (o : @cop P C) : res (cmds P C * nat * bool) :=
  match o with
  | Reg n p d c => n <- pointer s n ;; d <- pointer s d ;; try_register q s n p d c
  | Unreg n => n <- pointer s n ;; s <- arg_cmd_unregister s n ;; Ok (s, q, true)
  end.

(** [n] calls of a client that decides each by which of the earlier ones were carried out ([past]) *)
Fixpoint try_cops (client : list bool -> @cop P C) (n : nat) (q : nat) (s : cmds P C) (past : list bool) : res (cmds P C * nat * list bool) :=
  match n with
  | O => Ok (s, q, past)
  | S n => '(s, q, ok) <- try_cop q s (client past) ;; try_cops client n q s (past ++ [ok])
  end.
End Fail.
