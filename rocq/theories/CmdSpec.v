(** CmdSpec: a client of the command registry (arg_cmd.c) and what it may expect. *)
From Coq Require Import ZArith List Bool Ascii.
From Verif Require Import Base HashModel HashSpec CmdModel.
Import ListNotations.
Open Scope Z_scope.

Section Spec.
Context {P C : Type}.
Notation info := (cmdinfo P C).

(** A name or description given to the registry: the client's own text, or a field of the information block that the
    registry returned for a command. *)
Inductive src := Own (t : str) | NameFieldOf (cmd : str) | DescFieldOf (cmd : str).
Inductive cop :=
| Reg (name : src) (proc : option P) (desc : src) (ctx : C)
| Unreg (name : src).

(** The client obtains the block with arg_cmd_info first; using a NULL result is an error of the client. *)
Definition pointer (s : cmds P C) (x : src) : res cptr :=
  match x with
  | Own t => Ok (Text t)
  | NameFieldOf c => i <- arg_cmd_info s c ;; match i with Some i => Ok (NameOf i) | None => UB NullDeref end
  | DescFieldOf c => i <- arg_cmd_info s c ;; match i with Some i => Ok (DescOf i) | None => UB NullDeref end
  end.
Definition do_cop (s : cmds P C) (o : cop) : res (cmds P C) :=
  match o with
  | Reg n p d c => n <- pointer s n ;; d <- pointer s d ;; arg_cmd_register s n p d c
  | Unreg n => n <- pointer s n ;; arg_cmd_unregister s n
  end.
Fixpoint do_cops (s : cmds P C) (l : list cop) : res (cmds P C) :=
  match l with
  | [] => Ok s
  | o :: l => s <- do_cop s o ;; do_cops s l
  end.

(** What a client reads behind the pointer arg_cmd_info returns, and what it sees iterating over all commands. *)
Definition see (s : cmds P C) (name : str) : res (option info) :=
  i <- arg_cmd_info s name ;;
  match i with Some i => x <- sread (w_val (s_mem s)) i ;; Ok (Some x) | None => Ok None end.

(** do { key; value; } while (arg_cmd_itr_advance(itr)); *)
Fixpoint walk (fuel : nat) (s : cmds P C) (it : itr) : res (list (str * option info)) :=
  match fuel with
  | O => OutOfFuel
  | S fuel =>
      k <- arg_cmd_itr_key s it ;;
      v <- arg_cmd_itr_value s it ;;
      name <- sread (w_key (s_mem s)) k ;;
      x <- content (s_mem s) v ;;
      '(it, more) <- arg_cmd_itr_advance s it ;;
      if (more : bool) then l <- walk fuel s it ;; Ok ((name, x) :: l) else Ok [(name, x)]
  end.
Definition see_all (s : cmds P C) : res (list (str * option info)) :=
  n <- arg_cmd_count s ;;
  if n =? 0 then Ok [] else it <- arg_cmd_itr_create s ;; walk (fuel_of (s_mem s)) s it.

(** The expectation: for every name the data of its last registration, if not unregistered since. *)
Definition registry := str -> option info.
Definition meant (e : registry) (x : src) : str :=
  match x with
  | Own t => t
  | NameFieldOf c => c
  | DescFieldOf c => match e c with Some i => ci_desc i | None => [] end
  end.
Definition upd (e : registry) (n : str) (v : option info) : registry := fun m => if str_eqb n m then v else e m.
Definition spec_cop (e : registry) (o : cop) : registry :=
  match o with
  | Reg n p d c => upd e (meant e n) (Some {| ci_name := meant e n; ci_desc := meant e d; ci_proc := p; ci_ctx := c |})
  | Unreg n => upd e (meant e n) None
  end.
Definition spec_cops (e : registry) (l : list cop) : registry := fold_left spec_cop l e.

(** The client's side: blocks are taken of registered commands only; texts fit the fixed arrays; a command is not
    registered again under pointers into the block that this very registration releases. *)
Definition registered (e : registry) (x : src) : Prop :=
  match x with Own _ => True | NameFieldOf c | DescFieldOf c => e c <> None end.
Definition not_into (n : str) (x : src) : Prop :=
  match x with Own _ => True | NameFieldOf c | DescFieldOf c => c <> n end.
Definition allowed_cop (e : registry) (o : cop) : Prop :=
  match o with
  | Reg n _ d _ =>
      registered e n /\ registered e d /\ not_into (meant e n) n /\ not_into (meant e n) d /\
      zlen (meant e n) < 100 /\ zlen (meant e d) < 256
  | Unreg n => registered e n
  end.
Fixpoint allowed_cops (e : registry) (l : list cop) : Prop :=
  match l with
  | [] => True
  | o :: l => allowed_cop e o /\ allowed_cops (spec_cop e o) l
  end.
End Spec.
