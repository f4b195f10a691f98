(** Specification of a whole parse: what the table entries receive and which errors are found, with
    an unbounded list of errors and no memory, argv permutation or global variables. *)
From Verif Require Import Base ParseModel ParseSpec.
From Coq Require Import ZArith List Ascii String Bool.
Import ListNotations.
Open Scope Z_scope.

Definition mk_err (o : owner) (c : Z) (v : option str) : err := {| err_owner := o; err_code := c; err_argval := v |}.

(** What a table of capacity [cap] shows of a list of errors. *)
Definition shown (cap : Z) (errs : list err) : list err :=
  if zlen errs <=? cap then errs
  else firstn (Z.to_nat (cap - 1)) errs ++ [mk_err PEnd ARG_ELIMIT None].

Section Ideal.
Context {B : Type}.
Context (scan : hdr -> B -> option (option str -> res (B * Z))).
Context (check : hdr -> B -> option Z).
Context (reset : hdr -> B -> res B).

Definition state : Type := list (entry B) * list err.

(** Entry [i] is given one occurrence with value [v]. *)
Definition ideal_event (ev : event) (st : state) : res state :=
  let '(tab, errs) := st in
  match ev with
  | EvErr c v => Ok (tab, errs ++ [mk_err PEnd c v])
  | EvScan i v =>
      match nth_error tab i with
      | None => UB OOBRead
      | Some e =>
          match scan (e_hdr e) (e_body e) with
          | None => Ok (tab, errs)
          | Some f =>
              '(b, c) <- f v ;;
              Ok (lupd tab i (set_body b e), if c =? 0 then errs else errs ++ [mk_err (PEntry i) c v])
          end
      end
  end.
Fixpoint ideal_events (evs : list event) (st : state) : res state :=
  match evs with
  | [] => Ok st
  | ev :: evs' => st <- ideal_event ev st ;; ideal_events evs' st
  end.

(** A positional entry takes arguments as long as it accepts them. Result: its new body, the
    arguments left, and the rejection of the first of them (or the earlier one, if this entry does
    not scan at all). *)
Fixpoint feed (h : hdr) (i : nat) (b : B) (args : list str) (rej : option err) : res (B * list str * option err) :=
  match args with
  | [] => Ok (b, [], rej)
  | a :: args' =>
      match scan h b with
      | None => Ok (b, args, rej)
      | Some f =>
          '(b, c) <- f (Some a) ;;
          if c =? 0 then feed h i b args' None
          else Ok (b, args, Some (mk_err (PEntry i) c (Some a)))
      end
  end.

Definition unexpected (a : str) : err := mk_err PEnd ARG_ENOMATCH (Some a).
Definition positional_hdr (h : hdr) : bool :=
  match h_shortopts h, h_longopts h with None, None => true | _, _ => false end.

(** The positional entries are used from left to right; [rej] is the rejection of the first
    argument by the last entry tried. *)
Fixpoint ideal_positional (i : nat) (todo : list (entry B)) (args : list str) (rej : option err)
  : res (list (entry B) * list err) :=
  match args, todo with
  | [], _ => Ok (todo, [])
  | a :: args', [] =>
      Ok ([], match rej with Some e => e :: map unexpected args' | None => map unexpected args end)
  | _ :: _, e :: todo' =>
      if positional_hdr (e_hdr e) then
        '(b, args, rej) <- feed (e_hdr e) i (e_body e) args rej ;;
        '(t, er) <- ideal_positional (S i) todo' args rej ;; Ok (set_body b e :: t, er)
      else
        '(t, er) <- ideal_positional (S i) todo' args rej ;; Ok (e :: t, er)
  end.

(** The final check: one error per entry whose check function complains. *)
Fixpoint ideal_check (i : nat) (tab : list (entry B)) : list err :=
  match tab with
  | [] => []
  | e :: tab' =>
      match check (e_hdr e) (e_body e) with
      | Some c => if c =? 0 then [] else [mk_err (PEntry i) c None]
      | None => []
      end ++ ideal_check (S i) tab'
  end.

Fixpoint ideal_reset (tab : list (entry B)) : res (list (entry B)) :=
  match tab with
  | [] => Ok []
  | e :: tab' => b <- reset (e_hdr e) (e_body e) ;; t <- ideal_reset tab' ;; Ok (set_body b e :: t)
  end.

(** No program name, no arguments. *)
Definition ideal_parse_empty (tab : list (entry B)) : res state :=
  tab <- ideal_reset tab ;; Ok (tab, ideal_check 0 tab).

(** [evs] and [pos] is how the arguments after the program name read (ParseSpec). *)
Definition ideal_parse (evs : list event) (pos : list str) (tab : list (entry B)) : res state :=
  tab <- ideal_reset tab ;;
  '(tab, errs) <- ideal_events evs (tab, []) ;;
  '(tab, errs') <- ideal_positional 0 tab pos None ;;
  let errs := errs ++ errs' in
  Ok (tab, match errs with [] => ideal_check 0 tab | _ => errs end).
End Ideal.
