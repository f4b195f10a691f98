(** UsageSpec: following the syntax line. What a user types who takes parts of the line that arg_print_syntax writes, with values
    in the place of the data types. *)
From Coq Require Import ZArith String List Ascii Bool.
From Verif Require Import Base ParseModel ParseSpec ParseFacts ParseLemmas PrintSpec.
Import ListNotations.
Open Scope Z_scope.

(** The words of a line, which become the arguments of the program. *)
Definition flush (cur : str) : list str := match cur with [] => [] | _ => [cur] end.
Fixpoint words_from (cur s : str) : list str :=
  match s with
  | [] => flush cur
  | c :: s' => if ceqb c " " then flush cur ++ words_from [] s' else words_from (cur ++ [c]) s'
  end.
Definition words (s : str) : list str := words_from [] s.

(** A use of an entry: its header, and what is given for it each time (nothing for an option that has no value). *)
Definition use : Type := hdr * list (option str).
Definition given_letters (l : list use) : str := letters (map fst (filter (fun u => match snd u with [] => false | _ => true end) l)).
(** The line that is typed: the letters of the switches that are wanted, first the required ones, then each of the other entries
    as often as wanted. *)
Definition part (h : hdr) (v : option str) : str :=
  match brief (h_shortopts h) (h_longopts h) v false with [] => [] | s => lit " " ++ s end.
Definition typed (l : list use) : str :=
  let switches := filter (fun u => is_switch (fst u)) l in
  let ls := given_letters (filter (fun u => 0 <? h_mincount (fst u)) switches) ++ given_letters (filter (fun u => h_mincount (fst u) <=? 0) switches) in
  match ls with [] => [] | _ => lit " -" ++ ls end ++
  flat_map (fun u => if is_switch (fst u) then [] else flat_map (part (fst u)) (snd u)) l.

(** A value that is one word. *)
Definition one_word (v : str) : Prop := v <> [] /\ ~ In " "%char v.
(** The tag shown for entry [i] belongs to this entry and to no earlier one. *)
Definition tag_ok (t : list hdr) (i : nat) (h : hdr) : Prop :=
  match h_shortopts h, h_longopts h with
  | Some so, _ => exists c so', so = c :: so' /\ c <> "-"%char /\ c <> " "%char /\ first_declaring t c i h
  | None, Some lo =>
      let nm := hd [] (PrintSpec.names lo) in
      ~ In " "%char nm /\ ~ In "="%char nm /\ forall j h', (j < i)%nat -> nth_error t j = Some h' -> ~ In nm (hdr_names h')
  | None, None => True
  end.
(** What is given for an entry fits what the line shows: one word where there is a data type, nothing else. A switch is shown once. *)
Definition shape_ok (h : hdr) (vs : list (option str)) : Prop :=
  if is_switch h then vs = [] \/ vs = [None]
  else if isome (h_shortopts h) || isome (h_longopts h) then
    if h_hasvalue h then Forall (fun v => exists s, v = Some s /\ one_word s) vs else Forall (fun v => v = None) vs
  else Forall (fun v => exists s, v = Some s /\ one_word s /\ hd0 s <> "-"%char) vs.
