(** Specification of what tables of the library's own kinds of entries hold: which tables there are,
    what it means for an entry to be in order, and what the value slots should contain. *)
From Verif Require Import Base IntModel IntSpec FileModel FileSpec DateModel DateSpec GetoptModel ParseModel ParseSpec ArgModel.
From Coq Require Import ZArith List Ascii String Bool.
Import ListNotations.
Open Scope Z_scope.

Section Kinds.
Context {D : Type}.
Context (strtod : str -> D * nat).
Context (rexmatch : str -> Z -> str -> res bool).
Context (lm : long_model) (sp : seps).

(** An entry in order: its count is between 0 and maxcount, and its value arrays have maxcount slots. *)
Definition bounded (h : hdr) (b : body D) : Prop :=
  let ok (count : Z) := 0 <= count <= h_maxcount h in
  let size {A} (l : list A) := zlen l = h_maxcount h in
  match b with
  | KLit c => ok c
  | KInt p => ok (int_count p) /\ size (int_ival p)
  | KDbl p => ok (dbl_count p) /\ size (dbl_dval p)
  | KStr p => ok (str_count p) /\ size (str_sval p)
  | KFile p => ok (file_count p) /\ size (file_name p) /\ size (file_base p) /\ size (file_ext p)
  | KDate p => ok (date_count p) /\ size (date_tmval p)
  | KRex p => ok (rex_count p) /\ size (rex_sval p)
  | KRem => True
  end.
(** Matching against the pattern of the entry always gives an answer (see C26). *)
Definition matchable (b : body D) : Prop :=
  match b with KRex p => forall s, cstr s -> exists r, rexmatch (rex_pattern p) (rex_flags p) s = Ok r | _ => True end.
Definition is_int (b : body D) : bool := match b with KInt _ => true | _ => false end.
(** Values that are safe: if there are integer entries, no suffix of them may be one of the texts of C18. *)
Definition safe_value (ints : bool) (s : str) : Prop :=
  cstr s /\ (ints = true -> forall p q, s = p ++ q -> ~ doubly_negated_huge (LONG_MAX lm) q).
Definition Inv (ints : bool) (h : hdr) (b : body D) : Prop :=
  bounded h b /\ matchable b /\ (is_int b = true -> ints = true).

(** ** Tables *)
(** Entries made by the constructors, with a maxcount that is not negative; the caller may allow an
    optional value. *)
Inductive built : entry (body D) -> Prop :=
| built_lit so lo mn mx gl : 0 <= foolproof mn mx -> built (arg_litn so lo mn mx gl)
| built_int j so lo dt mn mx gl : 0 <= foolproof mn mx -> built (arg_intn j so lo dt mn mx gl)
| built_dbl j so lo dt mn mx gl : 0 <= foolproof mn mx -> built (arg_dbln j so lo dt mn mx gl)
| built_str so lo dt mn mx gl : 0 <= foolproof mn mx -> built (arg_strn so lo dt mn mx gl)
| built_file so lo dt mn mx gl : 0 <= foolproof mn mx -> built (arg_filen so lo dt mn mx gl)
| built_date so lo f dt mn mx gl : 0 <= foolproof mn mx -> built (arg_daten so lo f dt mn mx gl)
| built_rex so lo pat dt mn mx fl gl : 0 <= foolproof mn mx -> built (arg_rexn so lo pat dt mn mx fl gl)
| built_rem dt gl : built (arg_rem dt gl)
| built_optvalue e : built e -> built (with_optvalue e).

(** ** Values *)
Inductive value := VInt (n : Z) | VDbl (d : D) | VText (s : str) | VFile (name base ext : str) | VDate (t : tm).
Fixpoint files (n b e : list str) : list value :=
  match n, b, e with x :: n', y :: b', z :: e' => VFile x y z :: files n' b' e' | _, _, _ => [] end.
(** The value slots of an entry. *)
Definition slots (b : body D) : list value :=
  match b with
  | KLit _ | KRem => []
  | KInt p => map VInt (int_ival p)
  | KDbl p => map VDbl (dbl_dval p)
  | KStr p => map VText (str_sval p)
  | KFile p => files (file_name p) (file_base p) (file_ext p)
  | KDate p => map VDate (date_tmval p)
  | KRex p => map VText (rex_sval p)
  end.
(** The caller may set the slots (to give defaults) before a parse. *)
Definition preset (e e' : entry (body D)) : Prop :=
  e_hdr e' = e_hdr e /\ kcount (e_body e') = kcount (e_body e) /\
  match e_body e, e_body e' with
  | KLit _, KLit _ | KRem, KRem => True
  | KInt p, KInt p' => zlen (int_ival p') = zlen (int_ival p)
  | KDbl p, KDbl p' => zlen (dbl_dval p') = zlen (dbl_dval p)
  | KStr p, KStr p' => zlen (str_sval p') = zlen (str_sval p)
  | KFile p, KFile p' => zlen (file_name p') = zlen (file_name p) /\ zlen (file_base p') = zlen (file_base p) /\ zlen (file_ext p') = zlen (file_ext p)
  | KDate p, KDate p' => date_format p' = date_format p /\ zlen (date_tmval p') = zlen (date_tmval p)
  | KRex p, KRex p' => rex_pattern p' = rex_pattern p /\ rex_flags p' = rex_flags p /\ zlen (rex_sval p') = zlen (rex_sval p)
  | _, _ => False
  end.
(** The slots at the beginning of a parse: those of arg_str that were in use are emptied. *)
Definition slots_reset (b : body D) : list value :=
  match b with
  | KStr p => map VText (repeat [] (Z.to_nat (str_count p)) ++ skipn (Z.to_nat (str_count p)) (str_sval p))
  | _ => slots b
  end.
(** [denotes b v0 s v]: for an entry of the kind of [b], text [s] stands for value [v], in a slot that
    held [v0] (only fields a date format does not mention are taken from there). *)
Definition denotes (b : body D) (v0 : value) (s : str) (v : value) : Prop :=
  match b with
  | KLit _ | KRem => False
  | KInt _ => exists n, v = VInt n /\ (lm = Long64 -> int_literal s n /\ int_range n)
  | KDbl _ => exists d, strtod s = (d, List.length s) /\ v = VDbl d
  | KStr _ => v = VText s
  | KFile _ => exists bn ex, base_name (sep1 sp) (sep2 sp) s bn /\ extension bn ex /\ v = VFile s bn ex
  | KDate p => exists t t', v0 = VDate t /\ reads (date_format p) false s t t' [] /\ v = VDate t'
  | KRex p => rexmatch (rex_pattern p) (rex_flags p) s = Ok true /\ v = VText s
  end.
(** [stored b l0 vs l]: the occurrences [vs] turn the slots [l0] into [l]: the k-th value is in slot k,
    and everything else is unchanged. *)
Definition stored (b : body D) (l0 : list value) (vs : list (option str)) (l : list value) : Prop :=
  (match b with KLit _ => l = l0 | _ => True end) /\
  forall k,
  match nth_error vs k, b with
  | Some (Some s), KLit _ => True
  | Some (Some s), _ => exists v0 v, nth_error l0 k = Some v0 /\ nth_error l k = Some v /\ denotes b v0 s v
  | _, _ => nth_error l k = nth_error l0 k
  end.
(** The occurrences of entry [i] among the events. *)
Definition occurrences (i : nat) (evs : list event) : list (option str) :=
  flat_map (fun ev => match ev with EvScan j v => if Nat.eqb j i then [v] else [] | EvErr _ _ => [] end) evs.
End Kinds.
