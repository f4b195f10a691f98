(** Specification of the text in an array, and of a message that is cut. *)
From Verif Require Import Base.
From Coq Require Import List Ascii.
Import ListNotations.

(** The bytes up to the first zero are [t]. *)
Definition holds_text (buf : list ascii) (t : str) : Prop := cstr t /\ exists junk, buf = t ++ NUL :: junk.
(** The text of a message of which [n] bytes are kept. *)
Definition kept (n : nat) (m t : str) : Prop :=
  cstr t /\ exists more, m = t ++ more /\ (List.length t = n \/ (List.length t < n)%nat /\ (more = [] \/ exists r, more = NUL :: r)).
