(** RexSpec: regular expressions, how they are written as patterns, and their languages. *)
From Coq Require Import ZArith String List Ascii Bool.
From Verif Require Import Base.
Import ListNotations.
Open Scope Z_scope.

(** ** Expressions *)

(** Members of a set [...]: a character, a named class such as \d, a range *)
Inductive item := IChar (c : ascii) | INamed (k : ascii) | IRange (a b : ascii).
(** [Repeat lo hi e]: at least [lo] and (if there is a limit) at most [hi] times *)
Inductive elem :=
| Char (c : ascii) | Named (k : ascii) | Boundary (positive : bool) | Any | End
| Set_ (negated : bool) (l : list item) | Repeat (lo : Z) (hi : option Z) (e : elem) | Group (capture : bool) (a : alt)
with seq := One (e : elem) | More (e : elem) (s : seq)
(** A choice between sequences; each may begin with the anchor ^ *)
with alt := Just (anchored : bool) (s : seq) | Or (anchored : bool) (s : seq) (a : alt).

(** ** Patterns *)

(** The named characters and classes *)
Definition named_char (k c : ascii) : Prop :=
  In (k, c) [("n", "010"); ("t", "009"); ("r", "013"); ("f", "012"); ("v", "011")]%char.
Definition class_name (k : ascii) : Prop := In k (lit "aAwWsSdDxXcCpPlu").
(** \ and a character that is not a name *)
Definition plain_escape (c : ascii) : Prop := (forall d, ~ named_char c d) /\ ~ class_name c /\ c <> NUL.

(** Where in a sequence an element stands. This decides which characters stand for themselves. *)
Inductive place := First | AfterAnchor | AfterAtom | AfterRepeat.
Definition literal_at (p : place) (c : ascii) : Prop :=
  isprintb c = true /\ ~ In c (lit "([$.\") /\
  match p with
  | First => c <> "^"%char
  | AfterAnchor => True
  | AfterAtom => ~ In c (lit "|)*+?{")
  | AfterRepeat => ~ In c (lit "|)*+")
  end.

Definition bs : ascii := "\".
(** A member of a set; [dash]: a dash stands for itself here *)
Inductive set_char (dash : bool) : ascii -> str -> Prop :=
| sc_plain c : isprintb c = true -> ~ In c (lit "]\") -> (c = "-"%char -> dash = true) -> set_char dash c [c]
| sc_named k c : named_char k c -> set_char dash c [bs; k]
| sc_escape c : plain_escape c -> set_char dash c [bs; c].
(** The end of a range *)
Inductive range_end : ascii -> str -> Prop :=
| re_plain c : isprintb c = true -> c <> bs -> range_end c [c]
| re_named k c : named_char k c -> range_end c [bs; k]
| re_escape c : (forall d, ~ named_char c d) -> c <> NUL -> range_end c [bs; c].
Inductive set_text (dash : bool) : list item -> str -> Prop :=
| st_nil : set_text dash [] []
| st_char c t l t' : set_char dash c t -> set_text false l t' -> set_text dash (IChar c :: l) (t ++ t')
| st_named k l t' : class_name k -> set_text false l t' -> set_text dash (INamed k :: l) (bs :: k :: t')
| st_range a b t1 t2 l t' : set_char dash a t1 -> range_end b t2 -> set_text true l t' -> set_text dash (IRange a b :: l) (t1 ++ "-"%char :: t2 ++ t').

(** Decimal numbers, of at most nine digits *)
Definition value_of (ds : str) : Z := fold_left (fun n d => n * 10 + (uc d - 48)) ds 0.
Inductive number (n : Z) : str -> Prop :=
| nb ds : ds <> [] -> (List.length ds <= 9)%nat -> forallb isdigitb ds = true -> value_of ds = n -> number n ds.
Inductive suffix : Z -> option Z -> str -> Prop :=
| sx_star : suffix 0 None (lit "*")
| sx_plus : suffix 1 None (lit "+")
| sx_opt : suffix 0 (Some 1) (lit "?")
| sx_exact n t : number n t -> suffix n (Some n) (lit "{" ++ t ++ lit "}")
| sx_least n t : number n t -> suffix n None (lit "{" ++ t ++ lit ",}")
| sx_between n m t u : number n t -> number m u -> suffix n (Some m) (lit "{" ++ t ++ lit "," ++ u ++ lit "}").

Inductive atom_text : place -> elem -> str -> Prop :=
| at_char p c : literal_at p c -> atom_text p (Char c) [c]
| at_named p k c : named_char k c -> atom_text p (Char c) [bs; k]
| at_escape p c : plain_escape c -> c <> "b"%char -> c <> "B"%char -> atom_text p (Char c) [bs; c]
| at_class p k : class_name k -> atom_text p (Named k) [bs; k]
| at_b p : atom_text p (Boundary true) [bs; "b"%char]
| at_B p : atom_text p (Boundary false) [bs; "B"%char]
| at_any p : atom_text p Any (lit ".")
| at_end p : atom_text p End (lit "$")
| at_set p l t : l <> [] -> hd0 t <> "^"%char -> set_text true l t -> atom_text p (Set_ false l) ("["%char :: t ++ lit "]")
| at_nset p l t : l <> [] -> set_text true l t -> atom_text p (Set_ true l) ("["%char :: "^"%char :: t ++ lit "]")
| at_group p a t : hd0 t <> "?"%char -> alt_text a t -> atom_text p (Group true a) ("("%char :: t ++ lit ")")
| at_nocap p a t : alt_text a t -> atom_text p (Group false a) (lit "(?:" ++ t ++ lit ")")
with elem_text : place -> elem -> str -> place -> Prop :=
| el_atom p e t : atom_text p e t -> elem_text p e t AfterAtom
| el_repeat p e lo hi t u : atom_text p e t -> suffix lo hi u -> elem_text p (Repeat lo hi e) (t ++ u) AfterRepeat
with seq_text : place -> seq -> str -> Prop :=
| sq_one p e t q : elem_text p e t q -> seq_text p (One e) t
| sq_more p e t q s t' : elem_text p e t q -> seq_text q s t' -> seq_text p (More e s) (t ++ t')
with alt_text : alt -> str -> Prop :=
| al_just s t : seq_text First s t -> alt_text (Just false s) t
| al_anchor s t : seq_text AfterAnchor s t -> alt_text (Just true s) ("^"%char :: t)
| al_or s t a u : seq_text First s t -> alt_text a u -> alt_text (Or false s a) (t ++ "|"%char :: u)
| al_anchor_or s t a u : seq_text AfterAnchor s t -> alt_text a u -> alt_text (Or true s a) ("^"%char :: t ++ "|"%char :: u).

(** [spells r pattern]: the pattern is a way to write the expression. *)
Definition spells : alt -> str -> Prop := alt_text.

(** ** Languages *)

(** The letters of the other case *)
Definition same (icase : bool) (c x : ascii) : Prop := x = c \/ icase = true /\ tolower x = tolower c.
(** Named classes; upper case names are complements, but for u *)
Definition in_class (k x : ascii) : Prop :=
  In (k, true) [("a", isalphab x); ("A", negb (isalphab x)); ("w", isalnumb x || ceqb x "_"); ("W", negb (isalnumb x || ceqb x "_"));
    ("s", isspaceb x); ("S", negb (isspaceb x)); ("d", isdigitb x); ("D", negb (isdigitb x)); ("x", isxdigitb x); ("X", negb (isxdigitb x));
    ("c", iscntrlb x); ("C", negb (iscntrlb x)); ("p", ispunctb x); ("P", negb (ispunctb x)); ("l", islowerb x); ("u", isupperb x)]%char.
(** Ranges, in the order of signed characters; without regard to case if one of the two forms of the letter is in it *)
Definition within (a b x : ascii) : Prop := sc a <= sc x <= sc b.
Definition in_item (icase : bool) (i : item) (x : ascii) : Prop :=
  match i with
  | IChar c => same icase c x
  | INamed k => in_class k x
  | IRange a b => within a b x \/ icase = true /\ (within a b (tolower x) \/ within a b (toupper x))
  end.
Definition in_set (icase : bool) (l : list item) (x : ascii) : Prop := exists i, In i l /\ in_item icase i x.

(** A position inside or at the edge of a word (of characters that are not white space) *)
Definition word_at (text : str) (i : nat) : bool := match nth_error text i with Some c => negb (isspaceb c) | None => false end.
Definition word_boundary (text : str) (i : nat) : Prop := match i with O => word_at text 0 = true | S j => word_at text j <> word_at text i end.
(** What the program takes for one: it compares the character behind the position not with the one before it but with the next one (the
    terminator counts as a word). *)
Definition space_at (text : str) (i : nat) : bool := match nth_error text i with Some c => isspaceb c | None => false end.
Definition seen_boundary (text : str) (i : nat) : Prop :=
  i = O /\ space_at text 0 = false \/ (exists j, i = S j /\ i = List.length text /\ space_at text j = false) \/
  (i < List.length text)%nat /\ space_at text i <> space_at text (S i).

(** [edge]: the boundaries of words *)
Section Language.
Context (icase : bool) (text : str) (edge : nat -> Prop).

(** [elem_in e i j]: the text from position i to position j is in the language of e *)
Inductive elem_in : elem -> nat -> nat -> Prop :=
| in_char c x i : nth_error text i = Some x -> same icase c x -> elem_in (Char c) i (S i)
| in_named k x i : nth_error text i = Some x -> in_class k x -> elem_in (Named k) i (S i)
| in_boundary i : edge i -> elem_in (Boundary true) i i
| in_no_boundary i : ~ edge i -> elem_in (Boundary false) i i
| in_any x i : nth_error text i = Some x -> elem_in Any i (S i)
| in_end : elem_in End (List.length text) (List.length text)
| in_setp l x i : nth_error text i = Some x -> in_set icase l x -> elem_in (Set_ false l) i (S i)
| in_setn l x i : nth_error text i = Some x -> ~ in_set icase l x -> elem_in (Set_ true l) i (S i)
| in_repeat lo hi e n i j : times e n i j -> lo <= Z.of_nat n -> (forall h, hi = Some h -> Z.of_nat n <= h) -> elem_in (Repeat lo hi e) i j
| in_group b a i j : alt_in a i j -> elem_in (Group b a) i j
with times : elem -> nat -> nat -> nat -> Prop :=
| no_times e i : times e 0 i i
| more_times e n i j k : times e n i j -> elem_in e j k -> times e (S n) i k
with seq_in : seq -> nat -> nat -> Prop :=
| in_one e i j : elem_in e i j -> seq_in (One e) i j
| in_more e s i j k : elem_in e i j -> seq_in s j k -> seq_in (More e s) i k
with alt_in : alt -> nat -> nat -> Prop :=
| in_just b s i j : (b = true -> i = O) -> seq_in s i j -> alt_in (Just b s) i j
| in_left b s a i j : (b = true -> i = O) -> seq_in s i j -> alt_in (Or b s a) i j
| in_right b s a i j : alt_in a i j -> alt_in (Or b s a) i j.

(** The whole text is in the language *)
Definition accepts_with (r : alt) : Prop := alt_in r 0 (List.length text).
End Language.
Definition accepts (icase : bool) (text : str) (r : alt) : Prop := accepts_with icase text (word_boundary text) r.

(** ** Restrictions *)

(** All elements of an expression, at any depth, have property P. *)
Fixpoint all_elem (P : elem -> Prop) (e : elem) : Prop :=
  P e /\ match e with Repeat _ _ e => all_elem P e | Group _ a => all_alt P a | _ => True end
with all_seq (P : elem -> Prop) (s : seq) : Prop :=
  match s with One e => all_elem P e | More e s => all_elem P e /\ all_seq P s end
with all_alt (P : elem -> Prop) (a : alt) : Prop :=
  match a with Just _ s => all_seq P s | Or _ s a => all_seq P s /\ all_alt P a end.

(** Repetition counts that fit: a lower limit below 2^15, an upper limit below 2^16 - 1 *)
Definition small_counts (e : elem) : Prop :=
  match e with Repeat lo hi _ => 0 <= lo < 32768 /\ (forall h, hi = Some h -> 0 <= h < 65535) | _ => True end.
Definition no_boundary (e : elem) : Prop := match e with Boundary _ => False | _ => True end.
(** Without regard to case: ranges between two letters of the same case, or between two other characters such that both or none
    of the two alphabets are in it *)
Definition even_range (i : item) : Prop :=
  match i with
  | IRange a b => islowerb a = true /\ islowerb b = true \/ isupperb a = true /\ isupperb b = true \/
      isalphab a = false /\ isalphab b = false /\ (within a b "A" <-> within a b "a")
  | _ => True
  end.
Definition even_ranges (icase : bool) (e : elem) : Prop :=
  match e with Set_ _ l => icase = true -> forall i, In i l -> even_range i | _ => True end.
(** Elements that no NUL character matches *)
Definition positive_class (k : ascii) : Prop := In k (lit "awsdxplu").
Definition nul_free_item (i : item) : Prop :=
  match i with IChar c => c <> NUL | INamed k => positive_class k | IRange a b => 0 < sc a \/ sc b < 0 end.
Definition nul_free (e : elem) : Prop :=
  match e with
  | Char c => c <> NUL
  | Named k => positive_class k
  | Boundary _ | Any => False
  | Set_ neg l => neg = false /\ forall i, In i l -> nul_free_item i
  | End | Repeat _ _ _ | Group _ _ => True
  end.
(** The same on a given text, which may not end in white space if the expression has \b or \B in it *)
Definition nul_free_on (text : str) (e : elem) : Prop :=
  match e with Boundary _ => forall u c, text = u ++ [c] -> isspaceb c = false | _ => nul_free e end.

(** ** Orderly expressions *)

(** The first element of a sequence *)
Definition head (s : seq) : elem := match s with One e => e | More e _ => e end.
(** What a program that never goes back can decide, at least on a given text: reading an expression, it takes for every part as much
    of the text as possible, and this never stands in the way of the rest. *)
Section Orderly.
Context (icase : bool) (text : str) (edge : nat -> Prop).
Notation elem_in := (elem_in icase text edge).
Notation seq_in := (seq_in icase text edge).
Notation alt_in := (alt_in icase text edge).
(** The element takes at least one character. *)
Definition takes (e : elem) : Prop := forall i j, elem_in e i j -> (i < j)%nat.
(** Where the element can end in two places, it cannot start again at the first. *)
Definition settled (e : elem) : Prop := forall i j k m, elem_in e i j -> elem_in e i k -> (j < k)%nat -> ~ elem_in e j m.
(** Where the element can end in two places, the rest reaches at least as far from the second. *)
Definition unhindered (e : elem) (rest : nat -> nat -> Prop) : Prop :=
  forall i j k m, elem_in e i j -> elem_in e i k -> (j < k)%nat -> rest j m -> exists m', (m <= m')%nat /\ rest k m'.
(** Where the element can start, the one that follows (unless it is a repetition that may be empty) cannot. *)
Definition parted (e : elem) (next : option elem) : Prop :=
  match next with
  | None => True
  | Some y => match y with Repeat lo _ _ => lo = 0 | _ => False end \/ forall i j k, elem_in e i j -> ~ elem_in y i k
  end.
(** [next]: the element that follows, if any *)
Fixpoint orderly_elem (next : option elem) (e : elem) : Prop :=
  match e with
  | Repeat lo hi e => takes e /\ settled e /\ parted e next /\ orderly_elem next e
  | Group _ a => orderly_alt next a
  | _ => True
  end
with orderly_seq (next : option elem) (s : seq) : Prop :=
  match s with
  | One e => orderly_elem next e
  | More e s => orderly_elem (Some (head s)) e /\ unhindered e (seq_in s) /\ orderly_seq next s
  end
with orderly_alt (next : option elem) (a : alt) : Prop :=
  match a with
  | Just _ s => orderly_seq next s
  | Or b s a => orderly_seq None s /\ orderly_alt None a /\
      (** where both can start, the earlier ends last *)
      forall i j k, (b = true -> i = O) -> seq_in s i j -> alt_in a i k -> (k <= j)%nat
  end.
Definition orderly_with (r : alt) : Prop := orderly_alt None r.
End Orderly.
Definition orderly (icase : bool) (text : str) (r : alt) : Prop := orderly_with icase text (word_boundary text) r.
(** Repetitions without limit stop after 2^16 steps. *)
Definition roomy (text : str) (e : elem) : Prop := match e with Repeat _ None _ => zlen text <= 65535 | _ => True end.
