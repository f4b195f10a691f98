(** RoamSpec: a client that iterates over the commands (arg_cmd_itr_create, arg_cmd_itr_advance) and registers and
    unregisters commands while the iteration is under way. *)
From Coq Require Import ZArith List Bool Ascii.
From Verif Require Import Base HashModel HashSpec CmdModel CmdSpec.
Import ListNotations.
Open Scope Z_scope.

Section Roam.
Context {P C : Type}.
Notation info := (cmdinfo P C).
(** What the client has been shown so far, the latest at the end, and the calls it then makes *)
Notation shown := (list (str * option info)).
Context (body : shown -> list (@cop P C)).

(** do { key; value; registrations and unregistrations } while (arg_cmd_itr_advance(itr)); *)
Fixpoint roam (fuel : nat) (s : cmds P C) (it : itr) (seen : shown) : res (cmds P C * shown) :=
  match fuel with
  | O => OutOfFuel
  | S fuel =>
      k <- arg_cmd_itr_key s it ;;
      v <- arg_cmd_itr_value s it ;;
      name <- sread (w_key (s_mem s)) k ;;
      x <- content (s_mem s) v ;;
      let seen := seen ++ [(name, x)] in
      s <- do_cops s (body seen) ;;
      '(it, more) <- arg_cmd_itr_advance s it ;;
      if (more : bool) then roam fuel s it seen else Ok (s, seen)
  end.
Definition roam_all (fuel : nat) (s : cmds P C) : res (cmds P C * shown) :=
  n <- arg_cmd_count s ;;
  if n =? 0 then Ok (s, []) else it <- arg_cmd_itr_create s ;; roam fuel s it [].

(** The command a call is about *)
Definition about (e : @registry P C) (o : @cop P C) : str :=
  match o with Reg n _ _ _ => meant e n | Unreg n => meant e n end.
Fixpoint abouts (e : @registry P C) (l : list (@cop P C)) : list str :=
  match l with
  | [] => []
  | o :: l => about e o :: abouts (spec_cop e o) l
  end.
(** At most [lim] commands are registered. *)
Definition at_most (lim : Z) (e : @registry P C) : Prop :=
  forall names, NoDup names -> (forall n, In n names -> e n <> None) -> zlen names <= lim.

(** Calls that leave the command [cur], on which the iterator stands, alone, and never bring the number of commands
    above [lim] *)
Fixpoint mild (lim : Z) (cur : str) (e : @registry P C) (l : list (@cop P C)) : Prop :=
  match l with
  | [] => True
  | o :: l => allowed_cop e o /\ about e o <> cur /\ at_most lim (spec_cop e o) /\ mild lim cur (spec_cop e o) l
  end.

(** The iterations that a client should expect, if the order in which commands are shown is nobody's business: what is
    shown is registered at that moment, with the data shown, and has not been shown before.  [touched] are the commands
    that the client's own calls were about. *)
Inductive tour (e0 : @registry P C) : @registry P C -> shown -> list str -> Prop :=
| tour_start : tour e0 e0 [] []
| tour_step e seen touched n i :
    tour e0 e seen touched -> e n = Some i -> ~ In n (map fst seen) ->
    let seen' := seen ++ [(n, Some i)] in
    tour e0 (spec_cops e (body seen')) seen' (touched ++ abouts e (body seen')).
(** Whatever the order: the client's calls are mild. *)
Definition gentle (lim : Z) (e0 : @registry P C) : Prop :=
  forall e seen touched n i, tour e0 e seen touched -> e n = Some i -> ~ In n (map fst seen) ->
    mild lim n e (body (seen ++ [(n, Some i)])).
End Roam.
