(** ErrorSpec: the messages of arg_print_errors. *)
From Coq Require Import ZArith String List Ascii Bool.
From Verif Require Import Base IntModel FileModel DateModel ParseModel ParseIdeal ArgModel PrintModel PrintSpec.
Import ListNotations.
Open Scope Z_scope.

(** What kind of entry it is. *)
Inductive ksig := SLit | SInt | SDbl | SStr | SFile | SDate (format : str) | SRex | SRem.
Definition sigof {D} (b : body D) : ksig :=
  match b with
  | KLit _ => SLit | KInt _ => SInt | KDbl _ => SDbl | KStr _ => SStr | KFile _ => SFile
  | KDate p => SDate (date_format p) | KRex _ => SRex | KRem => SRem
  end.
(** The errors that the functions of each kind report. *)
Definition codes (k : ksig) : list Z :=
  match k with
  | SLit | SStr | SFile => [ARG_ERR_MINCOUNT; ARG_ERR_MAXCOUNT]
  | SInt => [ARG_ERR_MINCOUNT; ARG_ERR_MAXCOUNT; ARG_ERR_BADINT; ARG_ERR_OVERFLOW]
  | SDbl => [ARG_ERR_MINCOUNT; ARG_ERR_MAXCOUNT; ARG_ERR_BADDOUBLE]
  | SDate _ => [ARG_ERR_MINCOUNT; ARG_ERR_MAXCOUNT; ARG_ERR_BADDATE]
  | SRex => [ARG_ERR_MINCOUNT; ARG_ERR_MAXCOUNT; ARG_ERR_REGNOMATCH]
  | SRem => []
  end.

Section Messages.
(** strftime of the C library, and the program name *)
Context (strftime : str -> tm -> option str) (p : str).

Definition line (s : str) : str := p ++ lit ": " ++ s ++ [NL].
Definition quoted (s : str) : str := lit """" ++ s ++ lit """".
Definition tags (h : hdr) (dt : option str) : str := verbose (h_shortopts h) (h_longopts h) dt false (lit "|").

(** An error with code [c] at the text [a]; [t] is what the buffer of 200 bytes shows of the tags. *)
Inductive entry_message (h : hdr) : ksig -> Z -> str -> str -> Prop :=
| em_missing k a t : k <> SLit -> k <> SRem -> shows (tags h (h_datatype h)) t ->
    entry_message h k ARG_ERR_MINCOUNT a (line (lit "missing option " ++ t))
| em_missing_lit a t : shows (tags h (h_datatype h)) t ->
    entry_message h SLit ARG_ERR_MINCOUNT a (line (lit "missing option " ++ t) ++ [NL])
| em_excess k a t : k <> SLit -> k <> SRem -> shows (tags h (Some a)) t ->
    entry_message h k ARG_ERR_MAXCOUNT a (line (lit "excess option " ++ t))
| em_excess_lit a t : shows (tags h (h_datatype h)) t ->
    entry_message h SLit ARG_ERR_MAXCOUNT a (line (lit "extraneous option " ++ t))
| em_int a t : shows (tags h (h_datatype h)) t ->
    entry_message h SInt ARG_ERR_BADINT a (line (lit "invalid argument " ++ quoted a ++ lit " to option " ++ t))
| em_dbl a t : shows (tags h (h_datatype h)) t ->
    entry_message h SDbl ARG_ERR_BADDOUBLE a (line (lit "invalid argument " ++ quoted a ++ lit " to option " ++ t))
| em_overflow a t : shows (tags h (h_datatype h)) t ->
    entry_message h SInt ARG_ERR_OVERFLOW a (line (lit "integer overflow at option " ++ t ++ lit " (" ++ a ++ lit " is too large)"))
| em_date f a s : strftime f tm_zero = Some s ->
    entry_message h (SDate f) ARG_ERR_BADDATE a
      (line (lit "illegal timestamp format " ++ quoted a) ++ lit "correct format is " ++ quoted s ++ [NL])
| em_rex a t : shows (tags h (Some a)) t ->
    entry_message h SRex ARG_ERR_REGNOMATCH a (line (lit "illegal value  " ++ t)).

Definition reserved (c : Z) : Prop := In c [ARG_ELIMIT; ARG_EMALLOC; ARG_ENOMATCH; ARG_ELONGOPT; ARG_EMISSARG].
Inductive message (tab : list (hdr * ksig)) : err -> str -> Prop :=
| m_entry i h k c a msg : nth_error tab i = Some (h, k) -> entry_message h k c (orempty a) msg -> message tab (mk_err (PEntry i) c a) msg
| m_limit a : message tab (mk_err PEnd ARG_ELIMIT a) (line (lit "too many errors to display"))
| m_memory a : message tab (mk_err PEnd ARG_EMALLOC a) (line (lit "insufficient memory"))
| m_nomatch a : message tab (mk_err PEnd ARG_ENOMATCH a) (line (lit "unexpected argument " ++ quoted (orempty a)))
| m_missarg a : message tab (mk_err PEnd ARG_EMISSARG a) (line (lit "option " ++ quoted (orempty a) ++ lit " requires an argument"))
| m_longopt a : message tab (mk_err PEnd ARG_ELONGOPT a) (line (lit "invalid option " ++ quoted (orempty a)))
| m_short c a : ~ reserved (sc c) -> message tab (mk_err PEnd (sc c) a) (line (lit "invalid option " ++ quoted ["-"%char; c])).
End Messages.

(** The errors that can be shown. *)
Definition reportable (tab : list (hdr * ksig)) (e : err) : Prop :=
  ocstr (err_argval e) /\
  match err_owner e with
  | PEnd => reserved (err_code e) \/ exists c, err_code e = sc c /\ c <> NUL
  | PEntry i => exists h k, nth_error tab i = Some (h, k) /\ In (err_code e) (codes k)
  end.
Definition table_sig {D} (tab : list (entry (body D))) : list (hdr * ksig) := map (fun e => (e_hdr e, sigof (e_body e))) tab.
