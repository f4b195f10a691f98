(** TableModel: arg_nullcheck, arg_free and arg_freetable (argtable3.c lines 1034-1097).

    The argument table is an array of pointers to entries, NULL allowed. An entry is one malloc block (every constructor
    makes a single call of xmalloc), of which only the terminator flag matters here. *)
From Coq Require Import ZArith List Bool.
From Verif Require Import Base.
Import ListNotations.
Open Scope Z_scope.

(** Live blocks: for each address whether it is an entry with the flag ARG_TERMINATOR. *)
Definition heap := nat -> option bool.
Definition slots := list (option nat).

Definition is_terminator (m : heap) (b : nat) : res bool :=
  match m b with Some f => Ok f | None => UB UseAfterFree end.
(** xfree: arg_utils.c lines 109-111 *)
Definition release (m : heap) (b : nat) : res heap :=
  match m b with Some _ => Ok (fun i => if Nat.eqb i b then None else m i) | None => UB DoubleFree end.

(** arg_nullcheck: lines 1034-1050; [None] is a table pointer of NULL *)
Fixpoint nullcheck_loop (m : heap) (t : slots) : res Z :=
  match t with
  | [] => UB OOBRead
  | None :: _ => Ok 1
  | Some b :: t' => f <- is_terminator m b ;; if f : bool then Ok 0 else nullcheck_loop m t'
  end.
Definition arg_nullcheck (m : heap) (t : option slots) : res Z :=
  match t with None => Ok 1 | Some t => nullcheck_loop m t end.

(** arg_free: lines 1063-1083 *)
Fixpoint arg_free (m : heap) (t : slots) : res (heap * slots) :=
  match t with
  | [] => UB OOBRead
  | None :: _ => Ok (m, t)
  | Some b :: t' =>
      flag <- is_terminator m b ;;
      m <- release m b ;;
      if flag : bool then Ok (m, None :: t')
      else '(m, t') <- arg_free m t' ;; Ok (m, None :: t')
  end.

(** arg_freetable: lines 1086-1097 *)
Fixpoint arg_freetable (m : heap) (t : slots) (n : nat) {struct n} : res (heap * slots) :=
  match n with
  | O => Ok (m, t)
  | S n =>
      match t with
      | [] => UB OOBRead
      | None :: t' => '(m, t') <- arg_freetable m t' n ;; Ok (m, None :: t')
      | Some b :: t' => m <- release m b ;; '(m, t') <- arg_freetable m t' n ;; Ok (m, None :: t')
      end
  end.
