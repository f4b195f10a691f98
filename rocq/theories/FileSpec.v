(** Specification of file name decomposition, independent of the model. *)
From Verif Require Import Base.
From Coq Require Import List Ascii String.
Import ListNotations.

(** [after_last c s t]: [t] is what follows the last [c] in [s]. *)
Definition after_last (c : ascii) (s t : str) : Prop := exists d, s = d ++ c :: t /\ ~ In c t.

(** The last path component: after the last preferred separator if there is one, else after the
    last alternative separator, else everything. *)
Inductive last_component (sp1 sp2 : ascii) (f : str) : str -> Prop :=
| lc_1 t : after_last sp1 f t -> last_component sp1 sp2 f t
| lc_2 t : ~ In sp1 f -> after_last sp2 f t -> last_component sp1 sp2 f t
| lc_0 : ~ In sp1 f -> ~ In sp2 f -> last_component sp1 sp2 f f.

Definition dots (s : str) : Prop := s = lit "." \/ s = lit "..".

(** [base_name f b]: [b] is the base name of [f]. *)
Inductive base_name (sp1 sp2 : ascii) (f : str) : str -> Prop :=
| bn_plain b : last_component sp1 sp2 f b -> ~ dots b -> base_name sp1 sp2 f b
| bn_dots b : last_component sp1 sp2 f b -> dots b -> base_name sp1 sp2 f [].

(** A proper extension: a dot, not first and not last in the base name, and the text after it. *)
Definition proper_ext (b e : str) : Prop :=
  exists p t, b = p ++ e /\ e = "."%char :: t /\ ~ In "."%char t /\ p <> [] /\ t <> [].

Inductive extension (b : str) : str -> Prop :=
| ext_some e : proper_ext b e -> extension b e
| ext_none : (forall e, ~ proper_ext b e) -> extension b [].
