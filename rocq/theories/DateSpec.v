(** Specification of date/time arguments: which texts a format reads and what it does to a broken
    down time. Declarative, independent of arg_strptime. *)
From Verif Require Import Base DateModel.
From Coq Require Import ZArith List Ascii String Bool.
Import ListNotations.
Open Scope Z_scope.

(** ** Numbers *)
Definition digit_char (c : ascii) : Prop := 48 <= uc c <= 57.
Fixpoint dec_value (acc : Z) (ds : str) : Z :=
  match ds with [] => acc | c :: ds' => dec_value (acc * 10 + (uc c - 48)) ds' end.

(** [number width lo hi s v r]: the text [s] begins with a decimal numeral of value [v] in the range,
    of at most [width] digits, and continues with [r]. As many digits are taken as fit. *)
Record number (width : nat) (lo hi : Z) (s : str) (v : Z) (r : str) : Prop := {
  n_digits : exists ds, s = ds ++ r /\ ds <> [] /\ Forall digit_char ds /\ (List.length ds <= width)%nat /\
             dec_value 0 ds = v /\
             (digit_char (hd0 r) -> List.length ds = width \/ hi < 10 * v);
  n_range : lo <= v <= hi
}.

(** ** Fields of a broken down time *)
Inductive field := Sec | Min | Hour | Mday | Mon | Year | Wday | Yday | Isdst.
Definition fld (f : field) (t : tm) : Z :=
  match f with
  | Sec => tm_sec t | Min => tm_min t | Hour => tm_hour t | Mday => tm_mday t | Mon => tm_mon t
  | Year => tm_year t | Wday => tm_wday t | Yday => tm_yday t | Isdst => tm_isdst t
  end.
(** Field [f] becomes [v], the others stay. *)
Definition assigns (f : field) (v : Z) (t t' : tm) : Prop :=
  fld f t' = v /\ forall g, g <> f -> fld g t' = fld g t.

(** ** Names *)
Definition lower (s : str) : str := map tolower s.
(** [s] begins, up to the case of letters, with [n]. *)
Definition begins (n s r : str) : Prop := exists p, s = p ++ r /\ lower p = lower n.

Definition week : list (string * string) :=
  [("Sunday", "Sun"); ("Monday", "Mon"); ("Tuesday", "Tue"); ("Wednesday", "Wed");
   ("Thursday", "Thu"); ("Friday", "Fri"); ("Saturday", "Sat")]%string.
Definition months : list (string * string) :=
  [("January", "Jan"); ("February", "Feb"); ("March", "Mar"); ("April", "Apr"); ("May", "May"); ("June", "Jun");
   ("July", "Jul"); ("August", "Aug"); ("September", "Sep"); ("October", "Oct"); ("November", "Nov"); ("December", "Dec")]%string.
(** The [i]-th name, in full if possible, else abbreviated. *)
Definition named (tbl : list (string * string)) (i : Z) (s r : str) : Prop :=
  0 <= i /\ exists full ab, nth_error tbl (Z.to_nat i) = Some (full, ab) /\
  (begins (lit full) s r \/ (begins (lit ab) s r /\ forall r', ~ begins (lit full) s r')).

(** ** Conversions *)
Definition is_one_of (cs : string) (c : ascii) : Prop := In c (lit cs).

(** Conversions that store a number in a field: characters, width, range, field, and what is
    subtracted from the number. *)
Definition number_convs : list (string * nat * Z * Z * field * Z) :=
  [("de", 2%nat, 1, 31, Mday, 0); ("kH", 2%nat, 0, 23, Hour, 0); ("j", 3%nat, 1, 366, Yday, 1);
   ("M", 2%nat, 0, 59, Min, 0); ("m", 2%nat, 1, 12, Mon, 1); ("S", 2%nat, 0, 61, Sec, 0);
   ("w", 1%nat, 0, 6, Wday, 0); ("Y", 4%nat, 0, 9999, Year, 1900)]%string.

(** White space is skipped. *)
Definition skips (s r : str) : Prop :=
  exists w, s = w ++ r /\ Forall (fun c => isspaceb c = true) w /\ isspaceb (hd0 r) = false.

(** [conv c sp s t r t' sp']: conversion [c] reads [s] up to [r] and turns [t] into [t']. [sp] tells
    whether a century or a two digit year has been read before by this format. *)
Inductive conv (c : ascii) (sp : bool) (s : str) (t : tm) : str -> tm -> bool -> Prop :=
| conv_number cs w lo hi f off v r t' : In (cs, w, lo, hi, f, off) number_convs -> is_one_of cs c ->
    number w lo hi s v r -> assigns f (v - off) t t' -> conv c sp s t r t' sp
| conv_week i r t' : is_one_of "Aa" c -> named week i s r -> assigns Wday i t t' -> conv c sp s t r t' sp
| conv_month i r t' : is_one_of "Bbh" c -> named months i s r -> assigns Mon i t t' -> conv c sp s t r t' sp
| conv_hour12 v r t' : is_one_of "lI" c -> number 2 1 12 s v r ->
    assigns Hour (v mod 12) t t' -> conv c sp s t r t' sp
| conv_ignored v r : is_one_of "UW" c -> number 2 0 53 s v r -> conv c sp s t r t sp
(* %C gives a whole year, relative to 1900 as if the century of year 0 were 1900 (see C23) *)
| conv_century v r t' : c = "C"%char -> number 2 0 99 s v r ->
    assigns Year (v * 100 + if sp then Z.rem (fld Year t) 100 else 0) t t' -> conv c sp s t r t' true
| conv_year2_after v r t' : c = "y"%char -> sp = true -> number 2 0 99 s v r ->
    assigns Year (Z.quot (fld Year t) 100 * 100 + v) t t' -> conv c sp s t r t' true
(* 69-99 are 1969-1999, 00-68 are 2000-2068 *)
| conv_year2 v r t' : c = "y"%char -> sp = false -> number 2 0 99 s v r ->
    assigns Year (if v <=? 68 then v + 100 else v) t t' -> conv c sp s t r t' true
(* nothing may follow AM or PM *)
| conv_am t' : c = "p"%char -> fld Hour t <= 11 -> begins (lit "AM") s [] -> t' = t -> conv c sp s t [] t' sp
| conv_pm t' : c = "p"%char -> fld Hour t <= 11 -> begins (lit "PM") s [] ->
    assigns Hour (fld Hour t + 12) t t' -> conv c sp s t [] t' sp
| conv_white r : is_one_of "nt" c -> skips s r -> conv c sp s t r t sp.

(** Conversions that stand for another format. *)
Definition abbreviations : list (ascii * string) :=
  [("c"%char, "%x %X"); ("D"%char, "%m/%d/%y"); ("R"%char, "%H:%M"); ("r"%char, "%I:%M:%S %p");
   ("T"%char, "%H:%M:%S"); ("X"%char, "%H:%M:%S"); ("x"%char, "%m/%d/%y")]%string.

(** Modifiers E and O are accepted and ignored before some conversions. *)
Inductive modifier (c : ascii) : str -> Prop :=
| mod_none : modifier c []
| mod_E : is_one_of "cCxXyY%" c -> modifier c (lit "E")
| mod_O : is_one_of "deHIMmSUWwy%" c -> modifier c (lit "O").

(** [reads fmt sp s t t' r]: format [fmt] reads [s] up to [r] and turns [t] into [t']. *)
Inductive reads : str -> bool -> str -> tm -> tm -> str -> Prop :=
| reads_end sp s t : reads [] sp s t t s
| reads_space c fmt sp s s1 t t' r : isspaceb c = true -> skips s s1 -> reads fmt sp s1 t t' r ->
    reads (c :: fmt) sp s t t' r
| reads_literal c fmt sp s t t' r : isspaceb c = false -> c <> "%"%char -> reads fmt sp s t t' r ->
    reads (c :: fmt) sp (c :: s) t t' r
| reads_percent m fmt sp s t t' r : modifier "%" m -> reads fmt sp s t t' r ->
    reads ("%"%char :: m ++ "%"%char :: fmt) sp ("%"%char :: s) t t' r
| reads_conv c m fmt sp sp1 s s1 t t1 t' r : modifier c m -> conv c sp s t s1 t1 sp1 ->
    reads fmt sp1 s1 t1 t' r -> reads ("%"%char :: m ++ c :: fmt) sp s t t' r
| reads_abbr c f m fmt sp s s1 t t1 t' r : In (c, f) abbreviations -> modifier c m ->
    reads (lit f) false s t t1 s1 -> reads fmt sp s1 t1 t' r ->
    reads ("%"%char :: m ++ c :: fmt) sp s t t' r.

(** ** Consequences a user expects *)
(** Documented ranges (ISO C; the year as the code can produce it). *)
Definition in_range (f : field) (v : Z) : Prop :=
  match f with
  | Sec => 0 <= v <= 61 | Min => 0 <= v <= 59 | Hour => 0 <= v <= 23 | Mday => 1 <= v <= 31
  | Mon => 0 <= v <= 11 | Year => -1900 <= v <= 9999 | Wday => 0 <= v <= 6 | Yday => 0 <= v <= 365
  | Isdst => False
  end.
(** Which field a conversion is about; abbreviations are about those of their format. *)
Definition about (c : ascii) (f : field) : Prop :=
  match f with
  | Sec => is_one_of "STXrc" c | Min => is_one_of "MRTXrc" c | Hour => is_one_of "HkIlpRTXrc" c
  | Mday => is_one_of "deDxc" c | Mon => is_one_of "mBbhDxc" c | Year => is_one_of "YyCDxc" c
  | Wday => is_one_of "wAa" c | Yday => is_one_of "j" c | Isdst => False
  end.
(** The conversion characters of a format. *)
Fixpoint convs (fmt : str) : list ascii :=
  match fmt with
  | p :: fmt' =>
      if ceqb p "%" then
        match fmt' with
        | c :: fmt'' =>
            if ceqb c "E" || ceqb c "O" then
              match fmt'' with d :: fmt''' => d :: convs fmt''' | [] => [] end
            else c :: convs fmt''
        | [] => []
        end
      else convs fmt'
  | [] => []
  end.
