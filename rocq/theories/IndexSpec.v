(** Specification of the long option that a name or the beginning of a name means, by its place in the list of long options. *)
From Verif Require Import Base GetoptModel.
From Coq Require Import ZArith List Ascii String Bool.
Import ListNotations.
Open Scope Z_scope.

Definition begins (nm n : str) : Prop := exists x, n = nm ++ x.
(** Two options that a program cannot tell apart. *)
Definition alike (o o' : lopt) : Prop := lo_has_arg o = lo_has_arg o' /\ lo_flag o = lo_flag o' /\ lo_val o = lo_val o'.
(** [means only whole lo nm k]: the text [nm] means option number [k]. It is the first option of this name; or, if there is none and
    the name need not be given as a whole, the first one whose name begins so, all others being like it (with [only]: there being no
    other). *)
Definition means (only whole : bool) (lo : list lopt) (nm : str) (k : nat) : Prop :=
  exists o, nth_error lo k = Some o /\
  (lo_name o = nm /\ (forall j o', (j < k)%nat -> nth_error lo j = Some o' -> lo_name o' <> nm) \/
   whole = false /\ (forall o', In o' lo -> lo_name o' <> nm) /\ begins nm (lo_name o) /\
   (forall j o', (j < k)%nat -> nth_error lo j = Some o' -> ~ begins nm (lo_name o')) /\
   (forall j o', (k < j)%nat -> nth_error lo j = Some o' -> begins nm (lo_name o') -> only = false /\ alike o o')).
