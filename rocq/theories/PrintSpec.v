(** PrintSpec: what the printing functions should write. *)
From Coq Require Import ZArith String List Ascii Bool.
From Verif Require Import Base ParseModel.
Import ListNotations.
Open Scope Z_scope.

(** ** Options *)

(** The names in a comma separated list. *)
Fixpoint names (s : str) : list str :=
  match s with
  | [] => [[]]
  | c :: s' =>
      if ceqb c "," then [] :: names s'
      else match names s' with n :: l => (c :: n) :: l | [] => [[c]] end
  end.
Fixpoint join (sep : str) (l : list str) : str :=
  match l with
  | [] => []
  | [s] => s
  | s :: l' => s ++ sep ++ join sep l'
  end.
Definition short_tag (c : ascii) : str := ["-"%char; c].
Definition long_tag (n : str) : str := lit "--" ++ n.
(** A list that ends with a comma (or is empty) shows no tag after it. *)
Definition last_tag (n : str) : str := match n with [] => [] | _ => long_tag n end.
Definition long_tags (lo : str) : list str := map long_tag (removelast (names lo)) ++ [last_tag (last (names lo) [])].

Definition shorts (so : option str) : list str := match so with Some s => map short_tag s | None => [] end.
Definition longs (lo : option str) : list str := match lo with Some s => long_tags s | None => [] end.
Definition isome {A} (x : option A) : bool := match x with Some _ => true | None => false end.

Definition value_text (dt : str) (optvalue : bool) : str := if optvalue then lit "[" ++ dt ++ lit "]" else dt.

(** All tags of an option, and its value: -a|-b|--all=<x>. *)
Definition verbose (so lo dt : option str) (optvalue : bool) (sep : str) : str :=
  join sep (shorts so) ++ (if isome so && isome lo then sep else []) ++ join sep (longs lo) ++
  match dt with
  | None => []
  | Some d => (if isome lo then lit "=" else if isome so then lit " " else []) ++ value_text d optvalue
  end.

(** Its first tag, and its value: -a <x>. *)
Definition brief (so lo dt : option str) (optvalue : bool) : str :=
  match so, lo, dt with
  | Some s, _, _ => lit "-" ++ firstn 1 s ++ match dt with Some d => lit " " ++ value_text d optvalue | None => [] end
  | None, Some l, _ => lit "--" ++ hd [] (names l) ++ match dt with Some d => lit "=" ++ value_text d optvalue | None => [] end
  | None, None, Some d => value_text d optvalue
  | None, None, None => []
  end.

(** What is shown of a text in a buffer of 200 bytes. *)
Definition shows (ideal out : str) : Prop :=
  (zlen ideal <= 198 -> out = ideal) /\ firstn 198 out = firstn 198 ideal /\ zlen out <= 199.

(** ** Syntax lines *)
Fixpoint times (n : nat) (s : str) : str := match n with O => [] | S n => s ++ times n s end.

(** The required occurrences and then the optional ones. *)
Definition occurrences (mincount maxcount : Z) (s : str) : str :=
  times (Z.to_nat mincount) (lit " " ++ s) ++
  (let optional := lit " [" ++ s ++ lit "]" in
   if maxcount =? mincount then []
   else if maxcount =? mincount + 1 then optional
   else if maxcount =? mincount + 2 then optional ++ optional
   else optional ++ lit "...").

(** The options that are shown as letters in one cluster. *)
Definition is_switch (h : hdr) : bool := isome (h_shortopts h) && negb (h_hasvalue h).
Definition letter (h : hdr) : str := match h_shortopts h with Some s => firstn 1 s | None => [] end.
Definition letters (l : list hdr) : str := flat_map letter l.
Definition cluster (l : list hdr) : str :=
  let switches := filter is_switch l in
  let required := filter (fun h => 0 <? h_mincount h) switches in
  let optional := filter (fun h => h_mincount h <=? 0) switches in
  match required, optional with
  | [], [] => []
  | _, [] => lit " -" ++ letters required
  | [], _ => lit " [-" ++ letters optional ++ lit "]"
  | _, _ => lit " -" ++ letters required ++ lit "[" ++ letters optional ++ lit "]"
  end.

(** The lines, for given texts of the options. *)
Definition syntax_line (show : hdr -> str) (l : list hdr) : str :=
  cluster l ++
  flat_map (fun h => if is_switch h then []
                     else match show h with [] => [] | s => occurrences (h_mincount h) (h_maxcount h) s end) l.
Definition syntaxv_line (show : hdr -> str) (l : list hdr) : str :=
  flat_map (fun h => occurrences (h_mincount h) (h_maxcount h) (show h)) l.

(** ** Headers that a client may build *)
Definition ocstr (s : option str) : Prop := match s with Some t => cstr t | None => True end.
Definition texts_ok (h : hdr) : Prop :=
  ocstr (h_shortopts h) /\ ocstr (h_longopts h) /\ ocstr (h_datatype h) /\ ocstr (h_glossary h).
Definition counts_ok (h : hdr) : Prop := 0 <= h_mincount h <= h_maxcount h /\ h_maxcount h <= INT_MAX.
