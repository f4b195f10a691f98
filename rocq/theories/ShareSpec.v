(** Specification of a parse whose entries share the state of the program: which of their functions are called, in which order, with
    which arguments, and what becomes of their answers. No getopt, no memory. *)
From Verif Require Import Base ParseModel ParseSpec ParseIdeal.
From Coq Require Import ZArith List Ascii String Bool.
Import ListNotations.
Open Scope Z_scope.

(** A function of an entry is called. *)
Inductive fcall := CReset (i : nat) | CScan (i : nat) (v : option str) | CCheck (i : nat).

Section Spec.
Context {G : Type}.
(** What the call does to the program, and the error code it returns; [None] if the entry has no such function. *)
Context (act : fcall -> option (G -> res (G * Z))).

(** A call that may raise an error. *)
Definition answer (k : fcall) (o : owner) (v : option str) (g : G) : res (G * list err) :=
  match act k with
  | None => Ok (g, [])
  | Some f => '(g, c) <- f g ;; Ok (g, if c =? 0 then [] else [mk_err o c v])
  end.

(** The entries numbered [is] are reset, one after the other. *)
Fixpoint all_reset (is : list nat) (g : G) : res G :=
  match is with
  | [] => Ok g
  | i :: is => '(g, _) <- answer (CReset i) PEnd None g ;; all_reset is g
  end.
(** The options of the command line, in its order. *)
Fixpoint all_options (evs : list event) (g : G) : res (G * list err) :=
  match evs with
  | [] => Ok (g, [])
  | EvScan i v :: evs => '(g, e) <- answer (CScan i v) (PEntry i) v g ;; '(g, e') <- all_options evs g ;; Ok (g, e ++ e')
  | EvErr c v :: evs => '(g, e') <- all_options evs g ;; Ok (g, mk_err PEnd c v :: e')
  end.
(** The other arguments. The entries without options, numbered [is], take arguments in turn: each is offered one after the other until
    it refuses one, which is then offered to the next entry. An argument nobody takes, and all after it, are errors: the first with
    the complaint of the entry that refused it last, if there is one. *)
Fixpoint offer (i : nat) (args : list str) (rej : option err) (g : G) : res (G * list str * option err) :=
  match args with
  | [] => Ok (g, [], rej)
  | a :: args' =>
      match act (CScan i (Some a)) with
      | None => Ok (g, args, rej)
      | Some f => '(g, c) <- f g ;;
                  if c =? 0 then offer i args' None g else Ok (g, args, Some (mk_err (PEntry i) c (Some a)))
      end
  end.
Fixpoint all_positional (is : list nat) (args : list str) (rej : option err) (g : G) : res (G * list err) :=
  match args with
  | [] => Ok (g, [])
  | _ :: args' =>
      match is with
      | [] => Ok (g, match rej with Some e => e :: map unexpected args' | None => map unexpected args end)
      | i :: is => '(g, args, rej) <- offer i args rej g ;; all_positional is args rej g
      end
  end.
Fixpoint all_checked (is : list nat) (g : G) : res (G * list err) :=
  match is with
  | [] => Ok (g, [])
  | i :: is => '(g, e) <- answer (CCheck i) (PEntry i) None g ;; '(g, e') <- all_checked is g ;; Ok (g, e ++ e')
  end.

(** The whole: all entries are reset; the options; the other arguments; and if there was no error so far, all entries are checked. *)
Definition without_options (tab : list hdr) : list nat :=
  map fst (filter (fun p => positional_hdr (snd p)) (combine (seq 0 (List.length tab)) tab)).
Definition share_spec (tab : list hdr) (evs : list event) (pos : list str) (g : G) : res (G * list err) :=
  g <- all_reset (seq 0 (List.length tab)) g ;;
  '(g, e1) <- all_options evs g ;;
  '(g, e2) <- all_positional (without_options tab) pos None g ;;
  match e1 ++ e2 with
  | [] => all_checked (seq 0 (List.length tab)) g
  | errs => Ok (g, errs)
  end.
End Spec.
