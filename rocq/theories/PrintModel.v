(** PrintModel: the printing functions of argtable3.c (lines 502-1032), and the error reports (arg_end.c 46-130 and the
    errorfn of each kind).

    A printing function only appends to a dynamic string and never reads it, so its model yields the sequence of
    dynamic string calls that it makes ([op] of DstrSpec, where [OCatf] carries the length of the format and the text
    that printf gives); [print_to] runs such a sequence on the model of arg_dstr.c. *)
From Coq Require Import ZArith String List Ascii Bool.
From Verif Require Import Base IntModel FileModel DateModel ParseModel ArgModel MemModel DstrModel DstrSpec.
Import ListNotations.
Open Scope Z_scope.

(** The newline character. *)
Definition NL : ascii := chr 10.

(** ** Text in a fixed buffer *)

(** lines 507-508: forward to the terminator or the last byte *)
Fixpoint skip_to_nul (fuel : nat) (buf : list ascii) (dest last : Z) : res Z :=
  match fuel with
  | O => OutOfFuel
  | S fuel =>
      if dest <? last then
        c <- aget buf dest ;;
        if ceqb c NUL then Ok dest else skip_to_nul fuel buf (dest + 1) last
      else Ok dest
  end.
(** lines 511-512 *)
Fixpoint copy_chars (buf : list ascii) (dest last : Z) (src : str) : res (list ascii * Z) :=
  match src with
  | [] => Ok (buf, dest)
  | c :: src' =>
      if dest <? last then buf <- aset buf dest c ;; copy_chars buf (dest + 1) last src'
      else Ok (buf, dest)
  end.

(** A buffer with the local variables dest (as an index) and ndest of the callers. *)
Definition cursor := (list ascii * Z * Z)%type.

(** arg_cat: lines 502-520 *)
Definition arg_cat (c : cursor) (src : str) : res cursor :=
  let '(buf, dest, ndest) := c in
  let last := dest + ndest - 1 in
  dest1 <- skip_to_nul (S (List.length buf)) buf dest last ;;
  '(buf, dest2) <- copy_chars buf dest1 last src ;;
  buf <- aset buf dest2 NUL ;;
  Ok (buf, dest2, dest + ndest - dest2).

(** C library: strcspn(s, ",") *)
Fixpoint cspn (s : str) : nat :=
  match s with [] => O | c :: s' => if ceqb c "," then O else S (cspn s') end.

(** C library: strncat(dest, src, n) *)
Fixpoint write_all (buf : list ascii) (i : Z) (s : str) : res (list ascii) :=
  match s with [] => Ok buf | c :: s' => buf <- aset buf i c ;; write_all buf (i + 1) s' end.
Definition strncat (buf : list ascii) (dest : Z) (src : str) (n : nat) : res (list ascii) :=
  if (dest <? 0) || (zlen buf <? dest) then UB OOBRead
  else match scan0 (skipn (Z.to_nat dest) buf) with
  | None => UB OOBRead
  | Some s => write_all buf (dest + zlen s) (firstn n src ++ [NUL])
  end.

(** lines 560-567 and the like: the datatype, in brackets if the value is optional *)
Definition cat_datatype (c : cursor) (datatype : str) (optvalue : bool) : res cursor :=
  if optvalue then
    c <- arg_cat c (lit "[") ;; c <- arg_cat c datatype ;; arg_cat c (lit "]")
  else arg_cat c datatype.

(** the strncat of lines 549 and 614 *)
Definition cat_name (c : cursor) (longopts : str) : res cursor :=
  let '(buf, dest, ndest) := c in
  let ncspn := cspn longopts in
  buf <- strncat buf dest longopts (if Z.of_nat ncspn <? ndest then ncspn else Z.to_nat ndest) ;;
  Ok (buf, dest, ndest).

(** arg_cat_option: lines 522-573 *)
Definition arg_cat_option (buf : list ascii) (ndest : Z) (shortopts longopts datatype : option str) (optvalue : bool) : res (list ascii) :=
  let c := (buf, 0, ndest) in
  '(buf, _, _) <-
    match shortopts, longopts, datatype with
    | Some so, _, _ =>
        c <- arg_cat c (lit "-" ++ firstn 1 so) ;;
        match datatype with
        | Some d => c <- arg_cat c (lit " ") ;; cat_datatype c d optvalue
        | None => Ok c
        end
    | None, Some lo, _ =>
        c <- arg_cat c (lit "--") ;;
        c <- cat_name c lo ;;
        match datatype with
        | Some d => c <- arg_cat c (lit "=") ;; cat_datatype c d optvalue
        | None => Ok c
        end
    | None, None, Some d => cat_datatype c d optvalue
    | None, None, None => Ok c
    end ;;
  Ok buf.

(** lines 578-596 *)
Fixpoint cat_shorts (c : cursor) (so : str) (separator : str) : res cursor :=
  match so with
  | [] => Ok c
  | x :: so' =>
      c <- arg_cat c ["-"%char; x] ;;
      c <- (match so' with [] => Ok c | _ => arg_cat c separator end) ;;
      cat_shorts c so' separator
  end.
(** lines 602-624 *)
Fixpoint cat_longs (fuel : nat) (c : cursor) (lo : str) (separator : str) : res cursor :=
  match lo with
  | [] => Ok c
  | _ =>
      match fuel with
      | O => OutOfFuel
      | S fuel =>
          c <- arg_cat c (lit "--") ;;
          c <- cat_name c lo ;;
          match skipn (cspn lo) lo with
          | [] => Ok c
          | _ :: lo' => c <- arg_cat c separator ;; cat_longs fuel c lo' separator
          end
      end
  end.

(** arg_cat_optionv: lines 575-638 (every caller passes a separator other than NULL) *)
Definition arg_cat_optionv (buf : list ascii) (ndest : Z) (shortopts longopts datatype : option str) (optvalue : bool) (separator : str)
  : res (list ascii) :=
  let c := (buf, 0, ndest) in
  c <- match shortopts with Some so => cat_shorts c so separator | None => Ok c end ;;
  c <- match shortopts, longopts with Some _, Some _ => arg_cat c separator | _, _ => Ok c end ;;
  c <- match longopts with Some lo => cat_longs (S (List.length lo)) c lo separator | None => Ok c end ;;
  '(buf, _, _) <-
    match datatype with
    | None => Ok c
    | Some d =>
        c <- match longopts, shortopts with
             | Some _, _ => arg_cat c (lit "=")
             | None, Some _ => arg_cat c (lit " ")
             | None, None => Ok c
             end ;;
        cat_datatype c d optvalue
    end ;;
  Ok buf.

(** "char syntax[200] = "";" and its use as a string *)
Definition syntax0 : list ascii := repeat NUL 200.
Definition text_of (buf : list ascii) : res str := match scan0 buf with Some s => Ok s | None => UB OOBRead end.
Definition option_text (h : hdr) : res str :=
  buf <- arg_cat_option syntax0 199 (h_shortopts h) (h_longopts h) (h_datatype h) (h_hasoptvalue h) ;; text_of buf.
Definition optionv_text (h : hdr) (separator : str) : res str :=
  buf <- arg_cat_optionv syntax0 199 (h_shortopts h) (h_longopts h) (h_datatype h) (h_hasoptvalue h) separator ;; text_of buf.

(** arg_print_option_ds: lines 640-649 *)
Definition arg_print_option_ds (shortopts longopts datatype suffix : option str) : res (list op) :=
  buf <- arg_cat_optionv syntax0 199 shortopts longopts datatype false (lit "|") ;;
  syntax <- text_of buf ;;
  Ok [OCat syntax; OCat (match suffix with Some s => s | None => [] end)].

(** ** The argument table: an array of pointers *)
Inductive slot := SNull | SEntry (h : hdr) | SEnd.

(** The loops "for (tabindex = 0; table[tabindex] && !(table[tabindex]->flag & ARG_TERMINATOR); tabindex++)": the
    headers visited. *)
Fixpoint until_null (t : list slot) : res (list hdr) :=
  match t with
  | [] => UB OOBRead
  | SNull :: _ | SEnd :: _ => Ok []
  | SEntry h :: t' => l <- until_null t' ;; Ok (h :: l)
  end.
(** The loops "for (tabindex = 0; !(table[tabindex]->flag & ARG_TERMINATOR); tabindex++)". *)
Fixpoint until_end (t : list slot) : res (list hdr) :=
  match t with
  | [] => UB OOBRead
  | SNull :: _ => UB NullDeref
  | SEnd :: _ => Ok []
  | SEntry h :: t' => l <- until_end t' ;; Ok (h :: l)
  end.

Definition catf (fmt : string) (out : str) : op := OCatf (Some (Z.of_nat (String.length fmt))) out.
(** the same for a format that ends with a newline *)
Definition catf_nl (fmt : string) (out : str) : op := OCatf (Some (Z.of_nat (String.length fmt) + 1)) (out ++ [NL]).
(** "%c" of the first character; the terminator of an empty string ends the output of vsnprintf as a string *)
Definition first_char (so : str) : str := [hd0 so].

(** arg_print_gnuswitch_ds: lines 664-711. [format1], [format2]: the text before %c. *)
Fixpoint gnu_mandatory (l : list hdr) (format1 format2 : string) : list op * string :=
  match l with
  | [] => ([], format2)
  | h :: l' =>
      if h_mincount h <? 1 then gnu_mandatory l' format1 format2
      else match h_shortopts h with
      | None => gnu_mandatory l' format1 format2
      | Some so =>
          if h_hasvalue h then gnu_mandatory l' format1 format2
          else let '(o, f2) := gnu_mandatory l' "" "[" in
               (catf (String.append format1 "%c") (lit format1 ++ first_char so) :: o, f2)
      end
  end.
Fixpoint gnu_optional (l : list hdr) (format2 suffix : string) : list op * string :=
  match l with
  | [] => ([], suffix)
  | h :: l' =>
      if 0 <? h_mincount h then gnu_optional l' format2 suffix
      else match h_shortopts h with
      | None => gnu_optional l' format2 suffix
      | Some so =>
          if h_hasvalue h then gnu_optional l' format2 suffix
          else let '(o, s) := gnu_optional l' "" "]" in
               (catf (String.append format2 "%c") (lit format2 ++ first_char so) :: o, s)
      end
  end.
Definition arg_print_gnuswitch_ds (t : list slot) : res (list op) :=
  l <- until_null t ;;
  let '(o1, format2) := gnu_mandatory l " -" " [-" in
  let '(o2, suffix) := gnu_optional l format2 "" in
  Ok (o1 ++ o2 ++ [catf "%s" (lit suffix)]).

(** lines 735-762 and 792-820: the occurrences of one option *)
Definition cat_occurrences (h : hdr) (syntax : str) : res (list op) :=
  let mandatory := List.concat (repeat [OCat (lit " "); OCat syntax] (Z.to_nat (h_mincount h))) in
  let one (close : string) := [OCat (lit " ["); OCat syntax; OCat (lit close)] in
  d <- c_int (h_maxcount h - h_mincount h) ;;
  Ok (mandatory ++
      (if d =? 0 then [] else if d =? 1 then one "]"%string else if d =? 2 then one "]"%string ++ one "]"%string else one "]..."%string)).

Definition cat_suffix (suffix : option str) : list op := match suffix with Some s => [OCat s] | None => [] end.

(** arg_print_syntax_ds: lines 713-770 *)
Fixpoint syntax_rows (l : list hdr) : res (list op) :=
  match l with
  | [] => Ok []
  | h :: l' =>
      o <- (if (match h_shortopts h with Some _ => true | None => false end) && negb (h_hasvalue h) then Ok []
            else
              syntax <- option_text h ;;
              if 0 <? zlen syntax then cat_occurrences h syntax else Ok []) ;;
      o' <- syntax_rows l' ;;
      Ok (o ++ o')
  end.
Definition arg_print_syntax_ds (t : list slot) (suffix : option str) : res (list op) :=
  o1 <- arg_print_gnuswitch_ds t ;;
  l <- until_null t ;;
  o2 <- syntax_rows l ;;
  Ok (o1 ++ o2 ++ cat_suffix suffix).

(** arg_print_syntaxv_ds: lines 779-827 *)
Fixpoint syntaxv_rows (l : list hdr) : res (list op) :=
  match l with
  | [] => Ok []
  | h :: l' =>
      syntax <- optionv_text h (lit "|") ;;
      o <- cat_occurrences h syntax ;;
      o' <- syntaxv_rows l' ;;
      Ok (o ++ o')
  end.
Definition arg_print_syntaxv_ds (t : list slot) (suffix : option str) : res (list op) :=
  l <- until_null t ;;
  o <- syntaxv_rows l ;;
  Ok (o ++ cat_suffix suffix).

(** printf's %-Ns *)
Definition pad_right (n : nat) (s : str) : str := s ++ repeat " "%char (n - List.length s).

(** A format given by the caller: its length and the text that it gives for the two arguments. *)
Record gformat := { gf_len : Z; gf_text : str -> str -> str }.
Definition default_format : gformat :=
  {| gf_len := 11; gf_text := fun syntax glossary => lit "  " ++ pad_right 20 syntax ++ lit " " ++ glossary ++ [NL] |}.

(** arg_print_glossary_ds: lines 836-852 *)
Fixpoint glossary_rows (f : gformat) (l : list hdr) : res (list op) :=
  match l with
  | [] => Ok []
  | h :: l' =>
      o <- match h_glossary h with
           | None => Ok []
           | Some g => syntax <- optionv_text h (lit ", ") ;; Ok [OCatf (Some (gf_len f)) (gf_text f syntax g)]
           end ;;
      o' <- glossary_rows f l' ;;
      Ok (o ++ o')
  end.
Definition arg_print_glossary_ds (t : list slot) (format : option gformat) : res (list op) :=
  l <- until_end t ;; glossary_rows (match format with Some f => f | None => default_format end) l.

(** ** Wrapped text: arg_print_formatted_ds, lines 869-939 *)
Definition u32 (z : Z) : Z := z mod 4294967296.

(** The character at an index; the terminator is the last that may be read. *)
Definition text_at (text : str) (i : Z) : res ascii := aget (text ++ [NUL]) i.

(** lines 886-888: leading white space except newlines *)
Fixpoint eat_leading (fuel : nat) (text : str) (line_start : Z) : res Z :=
  match fuel with
  | O => OutOfFuel
  | S fuel =>
      c <- text_at text line_start ;;
      if isspaceb c && negb (ceqb c NL) then eat_leading fuel text (u32 (line_start + 1)) else Ok line_start
  end.
(** lines 894-896: back to the last white space *)
Fixpoint back_to_space (fuel : nat) (text : str) (line_start line_end : Z) : res Z :=
  match fuel with
  | O => OutOfFuel
  | S fuel =>
      if line_start <? line_end then
        c <- text_at text line_end ;;
        if negb (isspaceb c) then back_to_space fuel text line_start (line_end - 1) else Ok line_end
      else Ok line_end
  end.
(** lines 904-906: back over white space; the newline test looks at line_start *)
Fixpoint back_over_spaces (fuel : nat) (text : str) (line_start line_end : Z) : res Z :=
  match fuel with
  | O => OutOfFuel
  | S fuel =>
      if line_start <? line_end then
        c <- text_at text line_end ;;
        c0 <- text_at text line_start ;;
        if isspaceb c && negb (ceqb c0 NL) then back_over_spaces fuel text line_start (line_end - 1) else Ok line_end
      else Ok line_end
  end.
(** lines 914-925: the characters of one line *)
Fixpoint output_line (fuel : nat) (text : str) (line_start line_end : Z) : res (str * Z) :=
  match fuel with
  | O => OutOfFuel
  | S fuel =>
      if line_start <? line_end then
        c <- text_at text line_start ;;
        if ceqb c NL then Ok ([], u32 (line_start + 1))
        else '(l, s) <- output_line fuel text (u32 (line_start + 1)) line_end ;; Ok (c :: l, s)
      else Ok ([], line_start)
  end.
(** lines 882-938 *)
Fixpoint formatted_loop (fuel : nat) (text : str) (lmargin colwidth line_start line_end : Z) : res (list op) :=
  match fuel with
  | O => OutOfFuel
  | S fuel =>
      if line_start <? line_end then
        let textlen := u32 (zlen text) in
        let steps := S (S (List.length text)) in
        line_start <- eat_leading steps text line_start ;;
        line_end <-
          (if colwidth <? u32 (line_end - line_start) then
             let line_end := u32 (line_start + colwidth) in
             line_end <- back_to_space steps text line_start line_end ;;
             if line_end =? line_start then Ok (u32 (line_start + colwidth))
             else
               line_end <- back_over_spaces steps text line_start line_end ;;
               Ok (u32 (line_end + 1))
           else Ok line_end) ;;
        '(line, line_start) <- output_line steps text line_start line_end ;;
        let here := map OCatc line ++ [OCat [NL]] in
        if line_end <? textlen then
          o <- formatted_loop fuel text lmargin colwidth line_start textlen ;;
          Ok (here ++ repeat (OCat (lit " ")) (Z.to_nat lmargin) ++ o)
        else
          o <- formatted_loop fuel text lmargin colwidth line_start line_end ;;
          Ok (here ++ o)
      else Ok []
  end.
(** line 876 is never true. [fuel] bounds the number of lines. *)
Definition arg_print_formatted_ds (fuel : nat) (lmargin rmargin : Z) (text : str) : res (list op) :=
  formatted_loop fuel text lmargin (u32 (u32 (rmargin - lmargin) + 1)) 0 (u32 (zlen text)).

(** arg_print_glossary_gnu_ds: lines 989-1021 *)
Definition gnu_syntax (h : hdr) : res str :=
  let buf := match h_shortopts h, h_longopts h with
             | None, Some _ => repeat " "%char 4 ++ repeat NUL 196
             | _, _ => syntax0
             end in
  buf <- arg_cat_optionv buf 199 (h_shortopts h) (h_longopts h) (h_datatype h) (h_hasoptvalue h) (lit ", ") ;; text_of buf.
Fixpoint glossary_gnu_rows (l : list hdr) : res (list op) :=
  match l with
  | [] => Ok []
  | h :: l' =>
      o <- match h_glossary h with
           | None => Ok []
           | Some g =>
               syntax <- gnu_syntax h ;;
               let '(o1, syntax) :=
                 if 25 <? zlen syntax then
                   ([catf_nl "  %-25s %s" (lit "  " ++ pad_right 25 syntax ++ lit " ")], [])
                 else ([], syntax) in
               o2 <- arg_print_formatted_ds (S (List.length g)) 28 79 g ;;
               Ok (o1 ++ [catf "  %-25s " (lit "  " ++ pad_right 25 syntax ++ lit " ")] ++ o2)
           end ;;
      o' <- glossary_gnu_rows l' ;;
      Ok (o ++ o')
  end.
Definition arg_print_glossary_gnu_ds (t : list slot) : res (list op) :=
  l <- until_end t ;;
  o <- glossary_gnu_rows l ;;
  Ok (o ++ [OCat [NL]]).

(** ** The functions that write to a stream *)

(** arg_print_option, arg_print_syntax, arg_print_syntaxv, arg_print_glossary, arg_print_formatted,
    arg_print_glossary_gnu and arg_print_errors: create, print, fputs(arg_dstr_cstr(ds), fp), destroy. The result is
    the text written, and the memory afterwards. *)
Definition print_to (junk : nat -> ascii) (legacy : bool) (os : list op) : res (str * mem) :=
  '(m, ds, _) <- run junk legacy os ;;
  t <- rd_str m (arg_dstr_cstr ds) ;;
  m <- arg_dstr_destroy m ds ;;
  Ok (t, m).

(** ** Error reports *)

(** printf's %s: a null pointer is undefined *)
Definition pct_s (s : option str) : res str := match s with Some t => Ok t | None => UB NullDeref end.
Definition orempty (s : option str) : str := match s with Some t => t | None => [] end.

(** arg_end_errorfn: arg_end.c lines 46-78 *)
Definition arg_end_errorfn (error : Z) (argval progname : option str) : list op :=
  let progname := orempty progname in
  let argval := orempty argval in
  [catf "%s: " (progname ++ lit ": ")] ++
  [if error =? ARG_ELIMIT then OCat (lit "too many errors to display")
   else if error =? ARG_EMALLOC then OCat (lit "insufficient memory")
   else if error =? ARG_ENOMATCH then catf "unexpected argument ""%s""" (lit "unexpected argument """ ++ argval ++ lit """")
   else if error =? ARG_EMISSARG then catf "option ""%s"" requires an argument" (lit "option """ ++ argval ++ lit """ requires an argument")
   else if error =? ARG_ELONGOPT then catf "invalid option ""%s""" (lit "invalid option """ ++ argval ++ lit """")
   else catf "invalid option ""-%c""" (lit "invalid option ""-" ++ [chr error] ++ lit """")] ++
  [OCat [NL]].

Section Errors.
Context {D : Type}.

(** C library: strftime(buff, 200, format, tm): the text, or None if it does not fit (the result is 0 and the
    content of buff is indeterminate). *)
Context (strftime : str -> tm -> option str).

Definition print_option (h : hdr) (datatype : option str) (suffix : str) : res (list op) :=
  arg_print_option_ds (h_shortopts h) (h_longopts h) datatype (Some suffix).

(** arg_lit_errorfn: arg_lit.c lines 63-82 *)
Definition arg_lit_errorfn (h : hdr) (errorcode : Z) (progname : option str) : res (list op) :=
  if errorcode =? ARG_ERR_MINCOUNT then
    p <- pct_s progname ;;
    o <- print_option h (h_datatype h) [NL] ;;
    Ok ([catf "%s: missing option " (p ++ lit ": missing option ")] ++ o ++ [OCat [NL]])
  else if errorcode =? ARG_ERR_MAXCOUNT then
    p <- pct_s progname ;;
    o <- print_option h (h_datatype h) [NL] ;;
    Ok ([catf "%s: extraneous option " (p ++ lit ": extraneous option ")] ++ o)
  else Ok [].

(** The two cases that all other kinds share, e.g. arg_int.c lines 226-234 *)
Definition count_error (h : hdr) (errorcode : Z) (argval : str) (other : res (list op)) : res (list op) :=
  if errorcode =? ARG_ERR_MINCOUNT then
    o <- print_option h (h_datatype h) [NL] ;; Ok (OCat (lit "missing option ") :: o)
  else if errorcode =? ARG_ERR_MAXCOUNT then
    o <- print_option h (Some argval) [NL] ;; Ok (OCat (lit "excess option ") :: o)
  else other.

(** arg_int.c lines 236-239, arg_dbl.c lines 102-105 *)
Definition bad_value (h : hdr) (argval : str) : res (list op) :=
  o <- print_option h (h_datatype h) [NL] ;;
  Ok (catf "invalid argument ""%s"" to option " (lit "invalid argument """ ++ argval ++ lit """ to option ") :: o).

(** What follows "progname: " : arg_int.c 225-246, arg_dbl.c 91-106, arg_str.c 86-96, arg_file.c 140-153, arg_date.c
    89-111, arg_rex.c 186-209 *)
Definition kerror_tail (h : hdr) (b : body D) (errorcode : Z) (argval : str) : res (list op) :=
  match b with
  | KInt _ =>
      count_error h errorcode argval
        (if errorcode =? ARG_ERR_BADINT then bad_value h argval
         else if errorcode =? ARG_ERR_OVERFLOW then
           o <- print_option h (h_datatype h) (lit " ") ;;
           Ok ([OCat (lit "integer overflow at option ")] ++ o ++
               [catf_nl "(%s is too large)" (lit "(" ++ argval ++ lit " is too large)")])
         else Ok [])
  | KDbl _ => count_error h errorcode argval (if errorcode =? ARG_ERR_BADDOUBLE then bad_value h argval else Ok [])
  | KFile _ =>
      count_error h errorcode argval
        (Ok [catf_nl "unknown error at ""%s""" (lit "unknown error at """ ++ argval ++ lit """")])
  | KDate p =>
      count_error h errorcode argval
        (if errorcode =? ARG_ERR_BADDATE then
           '(sample, _) <- arg_strptime (lit "1999-12-31 23:59:59") (lit "%F %H:%M:%S") tm_zero ;;
           match strftime (date_format p) sample with
           | None => UB OOBRead
           | Some buff =>
               Ok [catf_nl "illegal timestamp format ""%s""" (lit "illegal timestamp format """ ++ argval ++ lit """");
                   catf_nl "correct format is ""%s""" (lit "correct format is """ ++ buff ++ lit """")]
           end
         else Ok [])
  | KRex _ =>
      count_error h errorcode argval
        (if errorcode =? ARG_ERR_REGNOMATCH then
           o <- print_option h (Some argval) [NL] ;; Ok (OCat (lit "illegal value  ") :: o)
         else Ok [])
  | _ => count_error h errorcode argval (Ok [])
  end.

(** The errorfn pointer of each kind (NULL for arg_rem, arg_rem.c line 56). *)
Definition kerror (h : hdr) (b : body D) (errorcode : Z) (argval progname : option str) : res (list op) :=
  match b with
  | KRem => Ok []
  | KLit _ => arg_lit_errorfn h errorcode progname
  | _ =>
      p <- pct_s progname ;;
      o <- kerror_tail h b errorcode (orempty argval) ;;
      Ok (catf "%s: " (p ++ lit ": ") :: o)
  end.

(** arg_print_errors_ds: arg_end.c lines 123-131 *)
Fixpoint errors_loop (n : nat) (tab : list (entry (body D))) (e : arg_end) (i : Z) (progname : option str) : res (list op) :=
  match n with
  | O => Ok []
  | S n =>
      parent <- aget (end_parent e) i ;;
      code <- aget (end_error e) i ;;
      argval <- aget (end_argval e) i ;;
      o <- match parent with
           | PEnd => Ok (arg_end_errorfn code argval progname)
           | PEntry k =>
               match nth_error tab k with
               | None => UB OOBRead
               | Some en => kerror (e_hdr en) (e_body en) code argval progname
               end
           end ;;
      o' <- errors_loop n tab e (i + 1) progname ;;
      Ok (o ++ o')
  end.
Definition arg_print_errors_ds (tab : list (entry (body D))) (e : arg_end) (progname : option str) : res (list op) :=
  errors_loop (Z.to_nat (end_count e)) tab e 0 progname.
End Errors.
