(** Specification of what strftime writes (C11 7.27.3.5, in the C locale), for C77. Independent of the
    library's own reader of dates; the fields are those of DateSpec.v. *)
From Verif Require Import Base DateModel DateSpec.
From Coq Require Import ZArith List Ascii String Bool.
Import ListNotations.
Open Scope Z_scope.

(** A format: characters that stand for themselves, and conversions. *)
Inductive item := Lit (c : ascii) | Conv (c : ascii).
Definition item_format (i : item) : str := match i with Lit c => [c] | Conv c => ["%"%char; c] end.
Definition format_of (its : list item) : str := List.concat (map item_format its).

(** [v] in decimal, in exactly [k] digits for 0 <= v < 10^k. *)
Fixpoint digits (k : nat) (v : Z) : str :=
  match k with O => [] | S k' => digits k' (v / 10) ++ [chr (48 + v mod 10)] end.
(** The [i]-th of some names; the C library writes a question mark for a day or month there is not. *)
Definition name_at (names : list string) (i : Z) : str := lit (nth (Z.to_nat i) names "?"%string).

Definition hms (t : tm) : str :=
  digits 2 (fld Hour t) ++ ":"%char :: digits 2 (fld Min t) ++ ":"%char :: digits 2 (fld Sec t).
Definition hm (t : tm) : str := digits 2 (fld Hour t) ++ ":"%char :: digits 2 (fld Min t).
Definition year2 (t : tm) : str := digits 2 ((fld Year t + 1900) mod 100).
Definition mdy (t : tm) : str :=
  digits 2 (fld Mon t + 1) ++ "/"%char :: digits 2 (fld Mday t) ++ "/"%char :: year2 t.

(** The text of one conversion. The year in %Y is written as is, which is four digits from 1000 on. *)
Definition conv_text (t : tm) (c : ascii) : str :=
  match c with
  | "a"%char => name_at (map snd week) (fld Wday t)
  | "A"%char => name_at (map fst week) (fld Wday t)
  | "b"%char | "h"%char => name_at (map snd months) (fld Mon t)
  | "B"%char => name_at (map fst months) (fld Mon t)
  | "d"%char => digits 2 (fld Mday t)
  | "D"%char | "x"%char => mdy t
  | "H"%char => digits 2 (fld Hour t)
  | "j"%char => digits 3 (fld Yday t + 1)
  | "M"%char => digits 2 (fld Min t)
  | "m"%char => digits 2 (fld Mon t + 1)
  | "n"%char => [chr 10]
  | "R"%char => hm t
  | "S"%char => digits 2 (fld Sec t)
  | "t"%char => [chr 9]
  | "T"%char | "X"%char => hms t
  | "U"%char => digits 2 ((fld Yday t + 7 - fld Wday t) / 7)
  | "w"%char => digits 1 (fld Wday t)
  | "W"%char => digits 2 ((fld Yday t + 7 - (fld Wday t + 6) mod 7) / 7)
  | "y"%char => year2 t
  | "Y"%char => digits 4 (fld Year t + 1900)
  | "%"%char => ["%"%char]
  | _ => []
  end.
Definition item_text (t : tm) (i : item) : str := match i with Lit c => [c] | Conv c => conv_text t c end.
(** What strftime writes for the time [t]. *)
Definition written (t : tm) (its : list item) : str := List.concat (map (item_text t) its).

(** The formats considered: those made of the conversions above. *)
Definition plain_item (i : item) : Prop :=
  match i with
  | Lit c => c <> "%"%char /\ c <> NUL
  | Conv c => is_one_of "aAbBdDhHjMmnRStTUwWxXyY%" c
  end.
Definition plain (its : list item) : Prop := Forall plain_item its.

(** An abbreviated name is not directly followed by something that starts with a letter. *)
Definition letter (c : ascii) : Prop := 97 <= uc (tolower c) <= 122.
Definition starts_with_letter (i : item) : Prop :=
  match i with Lit c => letter c | Conv c => is_one_of "aAbBh" c end.
Fixpoint separated (its : list item) : Prop :=
  match its with
  | i :: ((j :: _) as its') =>
      match i with Conv c => is_one_of "abh" c -> ~ starts_with_letter j | Lit _ => True end /\ separated its'
  | _ => True
  end.

(** The fields strftime looks at. *)
Definition uses (c : ascii) (f : field) : Prop := about c f \/ (is_one_of "UW" c /\ (f = Wday \/ f = Yday)).
(** A time strftime can write: the fields looked at are in their ranges, and a year in full has four digits. *)
Definition writable (t : tm) (its : list item) : Prop :=
  forall c, In (Conv c) its ->
    (forall f, uses c f -> in_range f (fld f t)) /\ (c = "Y"%char -> 1000 <= fld Year t + 1900 <= 9999).
(** A year of two digits means one of 1969 to 2068. *)
Definition year_known (t : tm) (its : list item) : Prop :=
  forall c, In (Conv c) its -> is_one_of "yDx" c -> 1969 <= fld Year t + 1900 <= 2068.
(** The format says something about a field. *)
Definition mentions (its : list item) (f : field) : Prop := exists c, In (Conv c) its /\ about c f.
