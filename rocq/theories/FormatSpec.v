(** FormatSpec: how a text is laid out in a column. *)
From Coq Require Import ZArith String List Ascii Bool.
From Verif Require Import Base PrintModel.
Import ListNotations.
Open Scope Z_scope.

(** The number of leading characters with a property; the length of the white space and the word at the start. *)
Fixpoint run (f : ascii -> bool) (s : str) : nat :=
  match s with c :: s' => if f c then S (run f s') else O | [] => O end.
Definition black (c : ascii) : bool := negb (isspaceb c).
Definition lead (s : str) : Z :=
  Z.of_nat (run isspaceb s) + Z.of_nat (run black (skipn (run isspaceb s) s)).

(** A printed line: blanks of the text that are left out, the characters printed, whether a newline of the text was
    used up, and whether the next line was indented. *)
Record line := Line { blanks : str; piece : str; newline : bool; indented : bool }.
Definition nl_if (b : bool) : str := if b then [NL] else [].
Definition nl (l : line) : str := nl_if (newline l).
Definition line_text (l : line) : str := blanks l ++ piece l ++ nl l.
Definition line_out (indent : str) (l : line) : str := piece l ++ [NL] ++ (if indented l then indent else []).
Definition source (ls : list line) : str := flat_map line_text ls.
Definition output (indent : str) (ls : list line) : str := flat_map (line_out indent) ls.

(** The line [l], followed by the text [rest], in a column of [w] characters. *)
Record good_line (w : Z) (l : line) (rest : str) : Prop := {
  gl_blanks : forall c, In c (blanks l) -> isspaceb c = true /\ c <> NL;
  gl_piece : ~ In NL (piece l);
  (** no blank at the start of the line *)
  gl_start : forall c s, piece l ++ nl l ++ rest = c :: s -> isspaceb c = true -> c = NL;
  gl_some : line_text l ++ rest <> [];
  gl_width : zlen (piece l) <= w;
  (** a line ends at a newline of the text only if that is the first character, or if the text left fits into the
      line, or if the next word fits into the line as well *)
  gl_newline : newline l = true ->
    zlen (piece l ++ nl l ++ rest) <= w \/ piece l = [] \/ zlen (piece l) + lead (nl l ++ rest) <= w;
  (** it ends elsewhere only at the end of the text, or when the next word does not fit, or inside a word that is
      longer than the column *)
  gl_wrap : newline l = false -> rest <> [] ->
    piece l <> [] /\ isspaceb (last (piece l) NUL) = false /\
    (isspaceb (hd0 rest) = true /\ w < zlen (piece l) + lead rest \/
     (forall c, In c (piece l) -> isspaceb c = false) /\ zlen (piece l) = w /\ isspaceb (hd0 rest) = false);
  (** the next line is indented if the text left did not fit into this one (with one exception) *)
  gl_indent : indented l = true <->
    w < zlen (piece l ++ nl l ++ rest) /\
    ~ (piece l = [] /\ zlen (nl l ++ rest) = w + 1 /\ isspaceb (last (nl l ++ rest) NUL) = true)
}.
Fixpoint layout (w : Z) (ls : list line) : Prop :=
  match ls with
  | [] => True
  | l :: ls' => good_line w l (source ls') /\ layout w ls'
  end.
