(** Specification of the command lines that a table accepts: how arguments are spelled, and what the entries may be given. It
    mentions no scanner, no order of processing and no error codes. *)
From Verif Require Import Base IntModel IntSpec FileModel FileSpec DateModel DateSpec GetoptModel ParseModel ParseSpec ParseFacts ParseLemmas ArgModel KindsSpec.
From Coq Require Import ZArith List Ascii String Bool.
Import ListNotations.
Open Scope Z_scope.

(** ** Spelling *)
(** An occurrence: the entry, and the value if there is one. *)
Definition occurrence : Type := nat * option str.

Section Spelling.
Context (t : list hdr).

(** [long_option body ws o]: the text [body] behind the dashes, with the words [ws] that follow, is the occurrence [o]. *)
Inductive long_option : str -> list str -> occurrence -> Prop :=
| lo_bare nm i h : ~ In "="%char nm -> selects t nm i h -> long_takes h <> TReq -> long_option nm [] (i, None)
| lo_equals nm v i h : ~ In "="%char nm -> selects t nm i h -> long_takes h <> TNo -> (h_hasvalue h = true -> v <> []) ->
    long_option (nm ++ "="%char :: v) [] (i, Some v)
| lo_next nm v i h : ~ In "="%char nm -> selects t nm i h -> long_takes h = TReq -> v <> [] -> long_option nm [v] (i, Some v).

(** [cluster cs ws os]: the same for the text behind one dash. A long option is a cluster that begins with a dash; it may also
    follow short options. *)
Inductive cluster : str -> list str -> list occurrence -> Prop :=
| cl_end : cluster [] [] []
| cl_switch c cs ws i h os : c <> "-"%char -> first_declaring t c i h -> short_takes h = TNo -> cluster cs ws os -> cluster (c :: cs) ws ((i, None) :: os)
| cl_bare c i h : c <> "-"%char -> first_declaring t c i h -> short_takes h = TOpt -> cluster [c] [] [(i, None)]
| cl_attached c v i h : c <> "-"%char -> first_declaring t c i h -> short_takes h <> TNo -> v <> [] -> cluster (c :: v) [] [(i, Some v)]
| cl_next c v i h : c <> "-"%char -> first_declaring t c i h -> short_takes h = TReq -> cluster [c] [v] [(i, Some v)]
| cl_long body ws o : body <> [] -> long_option body ws o -> cluster ("-"%char :: body) ws [o].

(** A word: an argument that is no option. *)
Definition word (a : str) : Prop := forall cs, a = "-"%char :: cs -> cs = [].

(** [spells posix args os pos]: the arguments are the occurrences [os] of options and the positional arguments [pos]. *)
Inductive spells (posix : bool) : list str -> list occurrence -> list str -> Prop :=
| sp_nil : spells posix [] [] []
| sp_dashes rest : spells posix (lit "--" :: rest) [] rest
| sp_posix a rest : posix = true -> word a -> spells posix (a :: rest) [] (a :: rest)
| sp_word a rest os pos : posix = false -> word a -> spells posix rest os pos -> spells posix (a :: rest) os (a :: pos)
| sp_option cs ws os rest os' pos : cs <> [] -> cs <> lit "-" -> cluster cs ws os -> spells posix rest os' pos ->
    spells posix (("-"%char :: cs) :: ws ++ rest) (os ++ os') pos.
End Spelling.

(** The values given to entry [i]. *)
Definition given_to (i : nat) (os : list occurrence) : list (option str) :=
  flat_map (fun o => if Nat.eqb (fst o) i then [snd o] else []) os.

(** ** What entries accept *)
Section Accept.
Context {D : Type}.
Context (strtod : str -> D * nat).
Context (rexmatch : str -> Z -> str -> res bool).
Context (lm : long_model) (sp : seps).
Notation stored := (stored strtod rexmatch lm sp).

(** All [given] values stand for something of the kind of the entry. *)
Definition acceptable (e : entry (body D)) (given : list (option str)) : Prop :=
  exists l, stored (e_body e) (slots_reset (e_body e)) given l.
(** The entry (one that counts, i.e. not arg_rem) has what it needs. *)
Definition satisfied (e : entry (body D)) (given : list (option str)) : Prop :=
  kcount (e_body e) <> None -> h_mincount (e_hdr e) <= zlen given <= h_maxcount (e_hdr e) /\ acceptable e given.
(** It could take another positional argument. *)
Definition could_take (e : entry (body D)) (given : list (option str)) (a : str) : Prop :=
  kcount (e_body e) <> None /\ zlen given < h_maxcount (e_hdr e) /\ acceptable e (given ++ [Some a]).

(** [shared tab os pos runs]: the positional arguments are shared out to the entries without options, in table order and each
    taking as many as it can ([run] is what entry [i] gets), and all entries are satisfied. *)
Definition shared (tab : list (entry (body D))) (os : list occurrence) (pos : list str) (runs : list (list str)) : Prop :=
  pos = List.concat runs /\ List.length runs = List.length tab /\
  forall i e run, nth_error tab i = Some e -> nth_error runs i = Some run ->
    let given := given_to i os ++ map Some run in
    (run <> [] -> no_options (e_hdr e) /\ kcount (e_body e) <> None) /\
    satisfied e given /\
    (no_options (e_hdr e) -> forall a, hd_error (List.concat (skipn (S i) runs)) = Some a -> ~ could_take e given a).
End Accept.
