(** Specification of what arg_parse reports about any command line, right or wrong: how the arguments read, what every entry
    keeps of what it is given, and which errors there are, in which order. As in CommandSpec.v no scanner is mentioned. *)
From Verif Require Import Base IntModel IntSpec FileModel FileSpec DateModel DateSpec GetoptModel ParseModel ParseSpec ParseFacts ParseLemmas ParseIdeal ArgModel KindsSpec CommandSpec.
From Coq Require Import ZArith List Ascii String Bool.
Import ListNotations.
Open Scope Z_scope.

(** ** Reading *)
(** Events are those of ParseSpec.v: [EvScan i v], entry [i] is given [v]; [EvErr c v], a mistake with the text it is about. *)
Section Reading.
Context (t : list hdr).

(** [long_reading a body rest evs rest']: in argument [a], the text [body] behind the dashes, followed by the arguments [rest],
    reads as [evs], and reading goes on with [rest']. *)
Inductive long_reading (a : str) : str -> list str -> list event -> list str -> Prop :=
| lr_bare nm i h rest : ~ In "="%char nm -> selects t nm i h -> long_takes h <> TReq -> long_reading a nm rest [EvScan i None] rest
| lr_equals nm v i h rest : ~ In "="%char nm -> selects t nm i h -> long_takes h <> TNo -> (h_hasvalue h = true -> v <> []) ->
    long_reading a (nm ++ "="%char :: v) rest [EvScan i (Some v)] rest
| lr_equals_empty nm i h rest : ~ In "="%char nm -> selects t nm i h -> long_takes h <> TNo -> h_hasvalue h = true ->
    long_reading a (nm ++ lit "=") rest [EvErr ARG_EMISSARG (Some a); EvScan i (Some [])] rest
| lr_next nm v i h rest : ~ In "="%char nm -> selects t nm i h -> long_takes h = TReq -> v <> [] ->
    long_reading a nm (v :: rest) [EvScan i (Some v)] rest
| lr_next_empty nm i h rest : ~ In "="%char nm -> selects t nm i h -> long_takes h = TReq ->
    long_reading a nm ([] :: rest) [EvErr ARG_EMISSARG (Some []); EvScan i (Some [])] rest
| lr_missing nm i h : ~ In "="%char nm -> selects t nm i h -> long_takes h = TReq -> long_reading a nm [] [EvErr ARG_EMISSARG (Some a)] []
| lr_unknown nm w rest : ~ In "="%char nm -> (forall i h, ~ selects t nm i h) -> w = [] \/ hd_error w = Some "="%char ->
    long_reading a (nm ++ w) rest [EvErr ARG_ELONGOPT (Some a)] rest
| lr_unwanted nm v i h rest : ~ In "="%char nm -> selects t nm i h -> long_takes h = TNo ->
    long_reading a (nm ++ "="%char :: v) rest [EvErr ARG_ELONGOPT (Some a)] rest.

(** The same for the text [cs] behind one dash. *)
Inductive cluster_reading (a : str) : str -> list str -> list event -> list str -> Prop :=
| cr_end rest : cluster_reading a [] rest [] rest
| cr_switch c cs i h rest evs rest' : c <> "-"%char -> first_declaring t c i h -> short_takes h = TNo -> cluster_reading a cs rest evs rest' ->
    cluster_reading a (c :: cs) rest (EvScan i None :: evs) rest'
| cr_unknown c cs rest evs rest' : c <> "-"%char -> (forall h so, In h t -> h_shortopts h = Some so -> ~ In c so) -> cluster_reading a cs rest evs rest' ->
    cluster_reading a (c :: cs) rest (EvErr (sc c) None :: evs) rest'
| cr_bare c i h rest : c <> "-"%char -> first_declaring t c i h -> short_takes h = TOpt -> cluster_reading a [c] rest [EvScan i None] rest
| cr_attached c v i h rest : c <> "-"%char -> first_declaring t c i h -> short_takes h <> TNo -> v <> [] -> cluster_reading a (c :: v) rest [EvScan i (Some v)] rest
| cr_next c v i h rest : c <> "-"%char -> first_declaring t c i h -> short_takes h = TReq -> cluster_reading a [c] (v :: rest) [EvScan i (Some v)] rest
| cr_missing c i h : c <> "-"%char -> first_declaring t c i h -> short_takes h = TReq -> cluster_reading a [c] [] [EvErr ARG_EMISSARG (Some a)] []
| cr_long body rest evs rest' : body <> [] -> long_reading a body rest evs rest' -> cluster_reading a ("-"%char :: body) rest evs rest'.

(** [reading posix args evs pos]: the arguments read as the events [evs] and the positional arguments [pos]. (Arguments on which
    arg_parse hangs, see C12, have no reading.) *)
Inductive reading (posix : bool) : list str -> list event -> list str -> Prop :=
| rd_nil : reading posix [] [] []
| rd_dashes rest : reading posix (lit "--" :: rest) [] rest
| rd_posix a rest : posix = true -> word a -> reading posix (a :: rest) [] (a :: rest)
| rd_word a rest evs pos : posix = false -> word a -> reading posix rest evs pos -> reading posix (a :: rest) evs (a :: pos)
| rd_option cs rest evs rest' evs' pos : cs <> [] -> cs <> lit "-" -> cluster_reading ("-"%char :: cs) cs rest evs rest' -> reading posix rest' evs' pos ->
    reading posix (("-"%char :: cs) :: rest) (evs ++ evs') pos.
End Reading.

(** ** What entries keep *)
Section Report.
Context {D : Type}.
Context (strtod : str -> D * nat).
Context (rexmatch : str -> Z -> str -> res bool).
Context (lm : long_model) (sp : seps).
Notation acceptable := (acceptable strtod rexmatch lm sp).
Notation stored := (stored strtod rexmatch lm sp).

Definition counting (e : entry (body D)) : Prop := kcount (e_body e) <> None.
(** An entry that holds [ws] has room for [v], and [v] is of its kind. *)
Definition fits (e : entry (body D)) (ws : list (option str)) (v : option str) : Prop :=
  zlen ws < h_maxcount (e_hdr e) /\ acceptable e (ws ++ [v]).
(** The code that says what is wrong with text [s]. *)
Definition wrong (e : entry (body D)) (s : str) (c : Z) : Prop :=
  match e_body e with
  | KInt _ => (c = ARG_ERR_OVERFLOW /\ exists n, int_literal s n /\ ~ int_range n) \/ (c = ARG_ERR_BADINT /\ forall n, ~ int_literal s n)
  | KDbl _ => c = ARG_ERR_BADDOUBLE
  | KDate _ => c = ARG_ERR_BADDATE
  | KRex _ => c = ARG_ERR_REGNOMATCH
  | _ => False
  end.
(** An entry that holds [ws] refuses [v] with code [c]: it is full, or the value is not of its kind. *)
Definition refused (e : entry (body D)) (ws : list (option str)) (v : option str) (c : Z) : Prop :=
  (zlen ws = h_maxcount (e_hdr e) /\ c = ARG_ERR_MAXCOUNT) \/
  (zlen ws < h_maxcount (e_hdr e) /\ ~ acceptable e (ws ++ [v]) /\ exists s, v = Some s /\ wrong e s c).
(** [kept e vs ws]: given [vs] one after the other, the entry keeps [ws]. *)
Inductive kept (e : entry (body D)) : list (option str) -> list (option str) -> Prop :=
| kept_nil : kept e [] []
| kept_fits vs ws v : kept e vs ws -> fits e ws v -> kept e (vs ++ [v]) (ws ++ [v])
| kept_refused vs ws v c : kept e vs ws -> refused e ws v c -> kept e (vs ++ [v]) ws.

Section Table.
Context (tab : list (entry (body D))).

(** [judged before ev errs]: the event [ev], coming after the events [before], gives the errors [errs] (at most one). *)
Inductive judged (before : list event) : event -> list err -> Prop :=
| j_mistake c v : judged before (EvErr c v) [mk_err PEnd c v]
| j_ignored i e v : nth_error tab i = Some e -> ~ counting e -> judged before (EvScan i v) []
| j_fits i e v ws : nth_error tab i = Some e -> counting e -> kept e (occurrences i before) ws -> fits e ws v -> judged before (EvScan i v) []
| j_refused i e v ws c : nth_error tab i = Some e -> counting e -> kept e (occurrences i before) ws -> refused e ws v c ->
    judged before (EvScan i v) [mk_err (PEntry i) c v].
Definition option_errors (evs : list event) (errs : list err) : Prop :=
  exists l, errs = List.concat l /\ List.length l = List.length evs /\
  forall k ev es, nth_error evs k = Some ev -> nth_error l k = Some es -> judged (firstn k evs) ev es.

(** [handed_out evs pos runs left held]: the positional arguments go to the entries without options, in table order, each taking
    as many as it can; [runs] is what they take, [left] is what nobody takes. [held]: what every entry holds in the end. *)
Definition handed_out (evs : list event) (pos : list str) (runs : list (list str)) (left : list str) (held : list (list (option str))) : Prop :=
  pos = List.concat runs ++ left /\ List.length runs = List.length tab /\ List.length held = List.length tab /\
  forall i e run ws, nth_error tab i = Some e -> nth_error runs i = Some run -> nth_error held i = Some ws ->
    (run <> [] -> no_options (e_hdr e) /\ counting e) /\ (~ counting e -> ws = []) /\
    (counting e -> (exists ws0, kept e (occurrences i evs) ws0 /\ ws = ws0 ++ map Some run) /\
      zlen ws <= h_maxcount (e_hdr e) /\ acceptable e ws /\
      (no_options (e_hdr e) -> forall a, hd_error (List.concat (skipn (S i) runs) ++ left) = Some a -> ~ fits e ws (Some a))).
(** The errors about what is left: the first argument is reported by the last entry it was offered to, the others as unexpected. *)
Inductive left_errors (held : list (list (option str))) : list str -> list err -> Prop :=
| le_none : left_errors held [] []
| le_nobody a more : (forall e, In e tab -> no_options (e_hdr e) -> ~ counting e) -> left_errors held (a :: more) (map unexpected (a :: more))
| le_last i e ws a more c : nth_error tab i = Some e -> no_options (e_hdr e) -> counting e ->
    (forall j e', nth_error tab j = Some e' -> (i < j)%nat -> no_options (e_hdr e') -> ~ counting e') ->
    nth_error held i = Some ws -> refused e ws (Some a) c -> left_errors held (a :: more) (mk_err (PEntry i) c (Some a) :: map unexpected more).
(** The entries that hold less than they need. *)
Definition shortages (held : list (list (option str))) (errs : list err) : Prop :=
  exists l, errs = List.concat l /\ List.length l = List.length tab /\
  forall i e ws es, nth_error tab i = Some e -> nth_error held i = Some ws -> nth_error l i = Some es ->
    (counting e /\ zlen ws < h_mincount (e_hdr e) /\ es = [mk_err (PEntry i) ARG_ERR_MINCOUNT None]) \/
    ((counting e -> h_mincount (e_hdr e) <= zlen ws) /\ es = []).

(** [report evs pos held errs]: what the entries hold in the end, and all errors. Shortages are reported if there is nothing else. *)
Definition report (evs : list event) (pos : list str) (held : list (list (option str))) (errs : list err) : Prop :=
  exists runs left e1 e2, option_errors evs e1 /\ handed_out evs pos runs left held /\ left_errors held left e2 /\
    ((e1 ++ e2 <> [] /\ errs = e1 ++ e2) \/ (e1 ++ e2 = [] /\ shortages held errs)).
(** The table in the end. *)
Definition holds (held : list (list (option str))) (tab' : list (entry (body D))) : Prop :=
  List.length tab' = List.length tab /\
  forall i e ws e', nth_error tab i = Some e -> nth_error held i = Some ws -> nth_error tab' i = Some e' ->
    e_hdr e' = e_hdr e /\ (counting e -> kcount (e_body e') = Some (zlen ws) /\ stored (e_body e) (slots_reset (e_body e)) ws (slots (e_body e'))).
End Table.
End Report.
