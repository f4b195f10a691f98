(** The library's own kinds of table entries: arg_lit, arg_int, arg_dbl, arg_str, arg_file, arg_date,
    arg_rex and arg_rem, with their constructors, and arg_parse on tables made of them.

    Parameters: [strtod] (the C library function: the value and how many characters it consumed),
    [rexmatch pattern flags text] (trex_compile followed by trex_match and trex_free, modelled in
    RexModel.v), the width of long and the file separators. Uninitialised memory is given by the
    [junk] parameters. *)
From Verif Require Import Base IntModel FileModel DateModel GetoptModel ParseModel.
From Coq Require Import ZArith List Ascii String Bool.
Import ListNotations.
Open Scope Z_scope.


Section Kinds.
Context {D : Type}.
Context (strtod : str -> D * nat).
Context (rexmatch : str -> Z -> str -> res bool).
Context (lm : long_model) (sp : seps).

(** struct arg_dbl (argtable3.h): the changing parts. *)
Record arg_dbl := { dbl_count : Z; dbl_dval : list D }.

(** arg_dbl_scanfn, arg_dbl.c lines 46-73. The character after those consumed by strtod is read. *)
Definition arg_dbl_scanfn (maxcount : Z) (p : arg_dbl) (argval : option str) : res (arg_dbl * Z) :=
  if dbl_count p =? maxcount then Ok (p, ARG_ERR_MAXCOUNT)
  else match argval with
  | None => Ok ({| dbl_count := dbl_count p + 1; dbl_dval := dbl_dval p |}, 0)
  | Some s =>
      let '(val, n) := strtod s in
      if (List.length s <? n)%nat then UB OOBRead
      else match skipn n s with
      | [] =>
          a <- aset (dbl_dval p) (dbl_count p) val ;;
          Ok ({| dbl_count := dbl_count p + 1; dbl_dval := a |}, 0)
      | _ => Ok (p, ARG_ERR_BADDOUBLE)
      end
  end.

(** struct arg_rex with its private part (arg_rex.c lines 120-123). *)
Record arg_rex := { rex_pattern : str; rex_flags : Z; rex_count : Z; rex_sval : list str }.

(** arg_rex_scanfn, arg_rex.c lines 130-162. *)
Definition arg_rex_scanfn (maxcount : Z) (p : arg_rex) (argval : option str) : res (arg_rex * Z) :=
  if rex_count p =? maxcount then Ok (p, ARG_ERR_MAXCOUNT)
  else match argval with
  | None => Ok ({| rex_pattern := rex_pattern p; rex_flags := rex_flags p; rex_count := rex_count p + 1; rex_sval := rex_sval p |}, 0)
  | Some s =>
      is_match <- rexmatch (rex_pattern p) (rex_flags p) s ;;
      if is_match : bool then
        a <- aset (rex_sval p) (rex_count p) s ;;
        Ok ({| rex_pattern := rex_pattern p; rex_flags := rex_flags p; rex_count := rex_count p + 1; rex_sval := a |}, 0)
      else Ok (p, ARG_ERR_REGNOMATCH)
  end.

(** What an entry is. *)
Inductive body :=
| KLit (count : Z) | KInt (p : arg_int) | KDbl (p : arg_dbl) | KStr (p : arg_str) | KFile (p : arg_file)
| KDate (p : arg_date) | KRex (p : arg_rex) | KRem.

Definition lift {P} (k : P -> body) (r : res (P * Z)) : res (body * Z) := '(p, c) <- r ;; Ok (k p, c).

(** The scanfn pointer of each kind (NULL for arg_rem, arg_rem.c line 53). *)
Definition kscan (h : hdr) (b : body) : option (option str -> res (body * Z)) :=
  match b with
  | KLit c => Some (fun _ => let '(c', e) := arg_lit_scanfn (h_maxcount h) c in Ok (KLit c', e))
  | KInt p => Some (fun v => lift KInt (arg_int_scanfn lm (h_maxcount h) p v))
  | KDbl p => Some (fun v => lift KDbl (arg_dbl_scanfn (h_maxcount h) p v))
  | KStr p => Some (fun v => lift KStr (arg_str_scanfn (h_maxcount h) p v))
  | KFile p => Some (fun v => lift KFile (arg_file_scanfn sp (h_maxcount h) p v))
  | KDate p => Some (fun v => lift KDate (arg_date_scanfn (h_maxcount h) p v))
  | KRex p => Some (fun v => lift KRex (arg_rex_scanfn (h_maxcount h) p v))
  | KRem => None
  end.

(** The number of occurrences; arg_rem has no such member. *)
Definition kcount (b : body) : option Z :=
  match b with
  | KLit c => Some c | KInt p => Some (int_count p) | KDbl p => Some (dbl_count p) | KStr p => Some (str_count p)
  | KFile p => Some (file_count p) | KDate p => Some (date_count p) | KRex p => Some (rex_count p) | KRem => None
  end.

(** The checkfn pointer (arg_lit.c 58-62, arg_int.c 210-214, arg_dbl.c 75-80, arg_str.c 69-74,
    arg_file.c 124-129, arg_date.c 73-78, arg_rex.c 164-176; NULL for arg_rem). *)
Definition kcheck (h : hdr) (b : body) : option Z :=
  match b with
  | KLit c => Some (checkfn (h_mincount h) c)
  | KInt p => Some (arg_int_checkfn (h_mincount h) p)
  | KDbl p => Some (checkfn (h_mincount h) (dbl_count p))
  | KStr p => Some (checkfn (h_mincount h) (str_count p))
  | KFile p => Some (checkfn (h_mincount h) (file_count p))
  | KDate p => Some (checkfn (h_mincount h) (date_count p))
  | KRex p => Some (checkfn (h_mincount h) (rex_count p))
  | KRem => None
  end.

(** The resetfn pointer (arg_lit.c 41-44, arg_dbl.c 41-44, arg_rex.c 125-128 and those cited in the
    models of the other kinds). *)
Definition kreset (h : hdr) (b : body) : res body :=
  match b with
  | KLit _ => Ok (KLit 0)
  | KInt p => Ok (KInt (arg_int_resetfn p))
  | KDbl p => Ok (KDbl {| dbl_count := 0; dbl_dval := dbl_dval p |})
  | KStr p => p' <- arg_str_resetfn p ;; Ok (KStr p')
  | KFile p => Ok (KFile (arg_file_resetfn p))
  | KDate p => Ok (KDate (arg_date_resetfn p))
  | KRex p => Ok (KRex {| rex_pattern := rex_pattern p; rex_flags := rex_flags p; rex_count := 0; rex_sval := rex_sval p |})
  | KRem => Ok KRem
  end.

(** ** Constructors *)
Definition mkhdr (hasvalue : bool) (so lo dt gl : option str) (mincount maxcount : Z) : hdr :=
  {| h_hasvalue := hasvalue; h_hasoptvalue := false; h_shortopts := so; h_longopts := lo;
     h_datatype := dt; h_glossary := gl; h_mincount := mincount; h_maxcount := maxcount |}.
Definition mkentry (h : hdr) (b : body) : entry body := {| e_hdr := h; e_body := b |}.
(** "maxcount = (maxcount < mincount) ? mincount : maxcount", in every constructor. *)
Definition foolproof (mincount maxcount : Z) : Z := if maxcount <? mincount then mincount else maxcount.
Definition default (dt : option str) (d : string) : option str := match dt with Some s => Some s | None => Some (lit d) end.
(** An array of [n] elements all equal to [x]. *)
Definition filled {A} (x : A) (n : Z) : list A := repeat x (Z.to_nat n).

(** arg_litn, arg_lit.c lines 90-119. *)
Definition arg_litn (so lo : option str) (mincount maxcount : Z) (gl : option str) : entry body :=
  mkentry (mkhdr false so lo None gl mincount (foolproof mincount maxcount)) (KLit 0).
(** arg_intn, arg_int.c lines 252-289; ival is not initialised. *)
Definition arg_intn (junk : nat -> Z) (so lo dt : option str) (mincount maxcount : Z) (gl : option str) : entry body :=
  let maxcount := foolproof mincount maxcount in
  mkentry (mkhdr true so lo (default dt "<int>") gl mincount maxcount)
          (KInt {| int_count := 0; int_ival := fresh junk maxcount |}).
(** arg_dbln, arg_dbl.c lines 117-159; dval is not initialised. Its placement is modelled in
    LayoutModel.v. *)
Definition arg_dbln (junk : nat -> D) (so lo dt : option str) (mincount maxcount : Z) (gl : option str) : entry body :=
  let maxcount := foolproof mincount maxcount in
  mkentry (mkhdr true so lo (default dt "<double>") gl mincount maxcount)
          (KDbl {| dbl_count := 0; dbl_dval := fresh junk maxcount |}).
(** arg_strn, arg_str.c lines 106-146. *)
Definition arg_strn (so lo dt : option str) (mincount maxcount : Z) (gl : option str) : entry body :=
  let maxcount := foolproof mincount maxcount in
  mkentry (mkhdr true so lo (default dt "<string>") gl mincount maxcount)
          (KStr {| str_count := 0; str_sval := filled [] maxcount |}).
(** arg_filen, arg_file.c lines 163-207. *)
Definition arg_filen (so lo dt : option str) (mincount maxcount : Z) (gl : option str) : entry body :=
  let maxcount := foolproof mincount maxcount in
  mkentry (mkhdr true so lo (default dt "<file>") gl mincount maxcount)
          (KFile {| file_count := 0; file_name := filled [] maxcount; file_base := filled [] maxcount; file_ext := filled [] maxcount |}).
(** arg_daten, arg_date.c lines 123-164; the array is zero filled. *)
Definition arg_daten (so lo format dt : option str) (mincount maxcount : Z) (gl : option str) : entry body :=
  let maxcount := foolproof mincount maxcount in
  let format := match format with Some f => f | None => lit "%x" end in
  mkentry (mkhdr true so lo (match dt with Some d => Some d | None => Some format end) gl mincount maxcount)
          (KDate {| date_format := format; date_count := 0; date_tmval := filled tm_zero maxcount |}).
(** arg_rexn, arg_rex.c lines 220-293, for a pattern other than NULL. The trial compilation of the
    pattern has no effect on the result. *)
Definition arg_rexn (so lo : option str) (pattern : str) (dt : option str) (mincount maxcount flags : Z) (gl : option str) : entry body :=
  let maxcount := foolproof mincount maxcount in
  mkentry (mkhdr true so lo (match dt with Some d => Some d | None => Some pattern end) gl mincount maxcount)
          (KRex {| rex_pattern := pattern; rex_flags := flags; rex_count := 0; rex_sval := filled [] maxcount |}).
(** arg_rem, arg_rem.c lines 41-59. *)
Definition arg_rem (dt gl : option str) : entry body := mkentry (mkhdr false None None dt gl 1 1) KRem.

(** The constructors for at most one and exactly one occurrence: arg_lit0 and arg_lit1, arg_lit.c lines 84-90; arg_int0 and
    arg_int1, arg_int.c lines 249-255; arg_dbl0 and arg_dbl1, arg_dbl.c lines 109-115; arg_str0 and arg_str1, arg_str.c lines
    99-105; arg_file0 and arg_file1, arg_file.c lines 156-162; arg_date0 and arg_date1, arg_date.c lines 114-120; arg_rex0 and
    arg_rex1, arg_rex.c lines 212-218. *)
Definition arg_lit0 so lo gl := arg_litn so lo 0 1 gl.
Definition arg_lit1 so lo gl := arg_litn so lo 1 1 gl.
Definition arg_int0 junk so lo dt gl := arg_intn junk so lo dt 0 1 gl.
Definition arg_int1 junk so lo dt gl := arg_intn junk so lo dt 1 1 gl.
Definition arg_dbl0 junk so lo dt gl := arg_dbln junk so lo dt 0 1 gl.
Definition arg_dbl1 junk so lo dt gl := arg_dbln junk so lo dt 1 1 gl.
Definition arg_str0 so lo dt gl := arg_strn so lo dt 0 1 gl.
Definition arg_str1 so lo dt gl := arg_strn so lo dt 1 1 gl.
Definition arg_file0 so lo dt gl := arg_filen so lo dt 0 1 gl.
Definition arg_file1 so lo dt gl := arg_filen so lo dt 1 1 gl.
Definition arg_date0 so lo format dt gl := arg_daten so lo format dt 0 1 gl.
Definition arg_date1 so lo format dt gl := arg_daten so lo format dt 1 1 gl.
Definition arg_rex0 so lo pattern dt flags gl := arg_rexn so lo pattern dt 0 1 flags gl.
Definition arg_rex1 so lo pattern dt flags gl := arg_rexn so lo pattern dt 1 1 flags gl.

(** The caller may set ARG_HASOPTVALUE in hdr.flag (argtable3.h documents it). *)
Definition with_optvalue (e : entry body) : entry body :=
  let h := e_hdr e in
  mkentry {| h_hasvalue := h_hasvalue h; h_hasoptvalue := true; h_shortopts := h_shortopts h; h_longopts := h_longopts h;
             h_datatype := h_datatype h; h_glossary := h_glossary h; h_mincount := h_mincount h; h_maxcount := h_maxcount h |} (e_body e).

(** arg_end, arg_end.c lines 84-121; the count and the arrays are not initialised. *)
Definition arg_end_new (junkz : nat -> Z) (junkp : nat -> owner) (junkv : nat -> option str) (maxcount : Z) : arg_end :=
  {| end_max := maxcount; end_count := junkz 0%nat; end_error := fresh junkz maxcount; end_parent := fresh junkp maxcount; end_argval := fresh junkv maxcount |}.

(** arg_parse on such tables. *)
Definition karg_parse := arg_parse kscan kcheck kreset.
End Kinds.
Arguments arg_dbl D : clear implicits.
Arguments body D : clear implicits.
