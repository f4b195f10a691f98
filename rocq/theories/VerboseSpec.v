(** Specification of command lines typed by someone who follows the line of arg_print_syntaxv: for each occurrence of an option
    any of the alternatives that the line shows of it, with a value where the line shows one, and words for the entries without
    options; in any order. *)
From Verif Require Import Base IntModel FileModel ParseModel ParseSpec ParseLemmas ArgModel CommandSpec PrintSpec PropTags.
From Coq Require Import ZArith List Ascii String Bool.
Import ListNotations.
Open Scope Z_scope.

(** [typed_option h tag v g]: the arguments [g] are an occurrence of an entry with header [h], by its alternative [tag] and with
    value [v]. *)
Inductive typed_option (h : hdr) (tag : str) : option str -> list str -> Prop :=
| to_switch : h_hasvalue h = false -> h_hasoptvalue h = false -> typed_option h tag None [tag]
| to_omitted : h_hasvalue h = true -> h_hasoptvalue h = true -> typed_option h tag None [tag]
| to_next v : h_hasvalue h = true -> h_hasoptvalue h = false -> v <> [] -> typed_option h tag (Some v) [tag; v]
| to_letter c v : h_hasvalue h = true -> tag = short_tag c -> v <> [] -> typed_option h tag (Some v) [tag ++ v]
| to_name nm v : h_hasvalue h = true -> tag = long_tag nm -> v <> [] -> typed_option h tag (Some v) [tag ++ "="%char :: v].

(** The parts of a command line, and what is typed for them. *)
Inductive part : Type := Opt (i : nat) (v : option str) (g : list str) | Word (s : str).
Definition args (p : part) : list str := match p with Opt _ _ g => g | Word s => [s] end.
Definition is_word (p : part) : Prop := exists s, p = Word s.
Definition good_part (t : list hdr) (p : part) : Prop :=
  match p with
  | Opt i v g => exists h tag, usable t i h tag /\ typed_option h tag v g
  | Word s => word s
  end.
(** With POSIXLY_CORRECT in the environment options come first. *)
Definition ordered (posix : bool) (l : list part) : Prop := posix = true -> forall a s b, l = a ++ Word s :: b -> Forall is_word b.

(** What is meant by them. *)
Definition options_of (l : list part) : list occurrence := flat_map (fun p => match p with Opt i v _ => [(i, v)] | Word _ => [] end) l.
Definition words_of (l : list part) : list str := flat_map (fun p => match p with Opt _ _ _ => [] | Word s => [s] end) l.

Section Wishes.
Context {D : Type}.
Context (strtod : str -> D * nat).
Context (rexmatch : str -> Z -> str -> res bool).
Context (lm : long_model) (sp : seps).
(** Each entry is used as often as the line says, with good values, [run] being the words meant for it; remarks are not used. Of
    the entries without options, only the last that is used may be used less often than the line allows. *)
Definition wishes (tab : list (entry (body D))) (l : list part) (runs : list (list str)) : Prop :=
  words_of l = List.concat runs /\ List.length runs = List.length tab /\
  (forall i e run, nth_error tab i = Some e -> nth_error runs i = Some run ->
    (run <> [] -> no_options (e_hdr e) /\ kcount (e_body e) <> None) /\
    satisfied strtod rexmatch lm sp e (given_to i (options_of l) ++ map Some run)) /\
  (forall i j e run run', (i < j)%nat -> nth_error tab i = Some e -> nth_error runs i = Some run -> nth_error runs j = Some run' ->
    no_options (e_hdr e) -> kcount (e_body e) <> None -> run' <> [] -> zlen run = h_maxcount (e_hdr e)).
End Wishes.
