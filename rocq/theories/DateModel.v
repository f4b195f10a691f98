(** Model of /repo/src/arg_date.c: the NetBSD strptime embedded in the library, and arg_date. *)
From Verif Require Import Base IntModel FileModel.
From Coq Require Import ZArith List Ascii String Bool.
Import ListNotations.
Open Scope Z_scope.

(** struct tm (C11 7.27.1); further members some C libraries have are never touched by the code. *)
Record tm := {
  tm_sec : Z; tm_min : Z; tm_hour : Z; tm_mday : Z; tm_mon : Z; tm_year : Z;
  tm_wday : Z; tm_yday : Z; tm_isdst : Z }.
Definition tm_zero : tm :=
  {| tm_sec := 0; tm_min := 0; tm_hour := 0; tm_mday := 0; tm_mon := 0; tm_year := 0;
     tm_wday := 0; tm_yday := 0; tm_isdst := 0 |}.
Definition set_sec v t := {| tm_sec := v; tm_min := tm_min t; tm_hour := tm_hour t; tm_mday := tm_mday t; tm_mon := tm_mon t; tm_year := tm_year t; tm_wday := tm_wday t; tm_yday := tm_yday t; tm_isdst := tm_isdst t |}.
Definition set_min v t := {| tm_sec := tm_sec t; tm_min := v; tm_hour := tm_hour t; tm_mday := tm_mday t; tm_mon := tm_mon t; tm_year := tm_year t; tm_wday := tm_wday t; tm_yday := tm_yday t; tm_isdst := tm_isdst t |}.
Definition set_hour v t := {| tm_sec := tm_sec t; tm_min := tm_min t; tm_hour := v; tm_mday := tm_mday t; tm_mon := tm_mon t; tm_year := tm_year t; tm_wday := tm_wday t; tm_yday := tm_yday t; tm_isdst := tm_isdst t |}.
Definition set_mday v t := {| tm_sec := tm_sec t; tm_min := tm_min t; tm_hour := tm_hour t; tm_mday := v; tm_mon := tm_mon t; tm_year := tm_year t; tm_wday := tm_wday t; tm_yday := tm_yday t; tm_isdst := tm_isdst t |}.
Definition set_mon v t := {| tm_sec := tm_sec t; tm_min := tm_min t; tm_hour := tm_hour t; tm_mday := tm_mday t; tm_mon := v; tm_year := tm_year t; tm_wday := tm_wday t; tm_yday := tm_yday t; tm_isdst := tm_isdst t |}.
Definition set_year v t := {| tm_sec := tm_sec t; tm_min := tm_min t; tm_hour := tm_hour t; tm_mday := tm_mday t; tm_mon := tm_mon t; tm_year := v; tm_wday := tm_wday t; tm_yday := tm_yday t; tm_isdst := tm_isdst t |}.
Definition set_wday v t := {| tm_sec := tm_sec t; tm_min := tm_min t; tm_hour := tm_hour t; tm_mday := tm_mday t; tm_mon := tm_mon t; tm_year := tm_year t; tm_wday := v; tm_yday := tm_yday t; tm_isdst := tm_isdst t |}.
Definition set_yday v t := {| tm_sec := tm_sec t; tm_min := tm_min t; tm_hour := tm_hour t; tm_mday := tm_mday t; tm_mon := tm_mon t; tm_year := tm_year t; tm_wday := tm_wday t; tm_yday := v; tm_isdst := tm_isdst t |}.

(** Lines 203-208. *)
Definition ALT_E : Z := 1.
Definition ALT_O : Z := 2.
Definition legal_alt (alt x : Z) : bool := Z.land alt (Z.lnot x) =? 0.
Definition TM_YEAR_BASE : Z := 1900.

(** Lines 214-223. *)
Definition day := map lit ["Sunday"; "Monday"; "Tuesday"; "Wednesday"; "Thursday"; "Friday"; "Saturday"]%string.
Definition abday := map lit ["Sun"; "Mon"; "Tue"; "Wed"; "Thu"; "Fri"; "Sat"]%string.
Definition mon := map lit ["January"; "February"; "March"; "April"; "May"; "June";
                           "July"; "August"; "September"; "October"; "November"; "December"]%string.
Definition abmon := map lit ["Jan"; "Feb"; "Mar"; "Apr"; "May"; "Jun"; "Jul"; "Aug"; "Sep"; "Oct"; "Nov"; "Dec"]%string.

(** arg_strcasecmp(s1, s2) == 0, lines 225-233; the callers only test for 0, and s1 is a C string. *)
Fixpoint strcasecmp0 (s1 s2 : str) : bool :=
  ceqb (tolower (hd0 s1)) (tolower (hd0 s2)) &&
  match s1 with [] => true | _ :: s1' => strcasecmp0 s1' (tl s2) end.

(** arg_strncasecmp(s1, s2, n) == 0, lines 235-249. *)
Fixpoint strncasecmp0 (n : nat) (s1 s2 : str) : bool :=
  match n with
  | O => true
  | S n' =>
      if negb (ceqb (tolower (hd0 s1)) (tolower (hd0 s2))) then false
      else match s1 with [] => true | _ :: s1' => strncasecmp0 n' s1' (tl s2) end
  end.

(** conv_num, lines 550-570: [None] is the failure result (return 0), which leaves *dest alone.
    No signed overflow: result * 10 <= ulim holds before each further digit (see conv_num_bound). *)
Fixpoint conv_loop (ulim : Z) (result rulim : Z) (s : str) : Z * str :=
  match s with
  | [] => (result, [])                    (* not reached: the caller has seen a digit *)
  | c :: s' =>
      let result := result * 10 + (sc c - 48) in
      let rulim := Z.quot rulim 10 in
      if (result * 10 <=? ulim) && negb (rulim =? 0) && isdigitb (hd0 s')
      then conv_loop ulim result rulim s' else (result, s')
  end.
Definition conv_num (s : str) (llim ulim : Z) : option (Z * str) :=
  if negb (isdigitb (hd0 s)) then None
  else
    let '(result, s') := conv_loop ulim 0 ulim s in
    if (result <? llim) || (ulim <? result) then None else Some (result, s').

(** The loops over names, lines 334-344 and 358-368: for each index the full name is tried, then
    the abbreviation. Result: the index and the length matched. *)
Fixpoint find_name (full ab : list str) (i : Z) (bp : str) : option (Z * nat) :=
  match full, ab with
  | f :: full', a :: ab' =>
      if strncasecmp0 (List.length f) f bp then Some (i, List.length f)
      else if strncasecmp0 (List.length a) a bp then Some (i, List.length a)
      else find_name full' ab' (i + 1) bp
  | _, _ => None
  end.

(** Outcome of one conversion: return 0, or go on with a new position, tm and split_year. *)
Inductive step := Fail (t : tm) | Next (bp : str) (t : tm) (split : bool).

(** The complex conversions, lines 290-327: allowed modifiers and the format used recursively. *)
Definition complex (c : ascii) : option (Z * str) :=
  if ceqb c "c" then Some (ALT_E, lit "%x %X")
  else if ceqb c "D" then Some (0, lit "%m/%d/%y")
  else if ceqb c "R" then Some (0, lit "%H:%M")
  else if ceqb c "r" then Some (0, lit "%I:%M:%S %p")
  else if ceqb c "T" then Some (0, lit "%H:%M:%S")
  else if ceqb c "X" then Some (ALT_E, lit "%H:%M:%S")
  else if ceqb c "x" then Some (ALT_E, lit "%m/%d/%y")
  else None.

(** A numeric conversion: LEGAL_ALT, conv_num, then [set]. *)
Definition numeric (alt ok : Z) (bp : str) (lo hi : Z) (t : tm) (split : bool) (set : Z -> tm) : step :=
  if negb (legal_alt alt ok) then Fail t
  else match conv_num bp lo hi with
       | None => Fail t
       | Some (i, bp') => Next bp' (set i) split
       end.

(** The elementary and miscellaneous conversions, lines 329-541. [alt] is alt_format; bp += len
    skips at most to the terminator since [len] characters of it matched. *)
Definition elementary (alt : Z) (c : ascii) (bp : str) (t : tm) (split : bool) : step :=
  if ceqb c "A" || ceqb c "a" then
    if negb (legal_alt alt 0) then Fail t else
    match find_name day abday 0 bp with
    | None => Fail t
    | Some (i, len) => Next (skipn len bp) (set_wday i t) split
    end
  else if ceqb c "B" || ceqb c "b" || ceqb c "h" then
    if negb (legal_alt alt 0) then Fail t else
    match find_name mon abmon 0 bp with
    | None => Fail t
    | Some (i, len) => Next (skipn len bp) (set_mon i t) split
    end
  else if ceqb c "C" then
    numeric alt ALT_E bp 0 99 t true
      (fun i => if split then set_year (Z.rem (tm_year t) 100 + i * 100) t else set_year (i * 100) t)
  else if ceqb c "d" || ceqb c "e" then
    numeric alt ALT_O bp 1 31 t split (fun i => set_mday i t)
  else if ceqb c "k" then
    if negb (legal_alt alt 0) then Fail t else numeric alt ALT_O bp 0 23 t split (fun i => set_hour i t)
  else if ceqb c "H" then numeric alt ALT_O bp 0 23 t split (fun i => set_hour i t)
  else if ceqb c "l" then
    if negb (legal_alt alt 0) then Fail t
    else numeric alt ALT_O bp 1 12 t split (fun i => set_hour (if i =? 12 then 0 else i) t)
  else if ceqb c "I" then
    numeric alt ALT_O bp 1 12 t split (fun i => set_hour (if i =? 12 then 0 else i) t)
  else if ceqb c "j" then numeric alt 0 bp 1 366 t split (fun i => set_yday (i - 1) t)
  else if ceqb c "M" then numeric alt ALT_O bp 0 59 t split (fun i => set_min i t)
  else if ceqb c "m" then numeric alt ALT_O bp 1 12 t split (fun i => set_mon (i - 1) t)
  else if ceqb c "p" then
    if negb (legal_alt alt 0) then Fail t
    else if strcasecmp0 (lit "AM") bp then
      if 11 <? tm_hour t then Fail t else Next (skipn 2 bp) t split
    else if strcasecmp0 (lit "PM") bp then
      if 11 <? tm_hour t then Fail t else Next (skipn 2 bp) (set_hour (tm_hour t + 12) t) split
    else Fail t
  else if ceqb c "S" then numeric alt ALT_O bp 0 61 t split (fun i => set_sec i t)
  else if ceqb c "U" || ceqb c "W" then numeric alt ALT_O bp 0 53 t split (fun _ => t)
  else if ceqb c "w" then numeric alt ALT_O bp 0 6 t split (fun i => set_wday i t)
  else if ceqb c "Y" then numeric alt ALT_E bp 0 9999 t split (fun i => set_year (i - TM_YEAR_BASE) t)
  else if ceqb c "y" then
    numeric alt (Z.lor ALT_E ALT_O) bp 0 99 t true
      (fun i => if split then set_year (Z.quot (tm_year t) 100 * 100 + i) t
                else if i <=? 68 then set_year (i + 2000 - TM_YEAR_BASE) t
                else set_year (i + 1900 - TM_YEAR_BASE) t)
  else if ceqb c "n" || ceqb c "t" then
    if negb (legal_alt alt 0) then Fail t else Next (skip_space bp) t split
  else Fail t.

(** The literal case, lines 270-273. *)
Definition literal (c : ascii) (bp : str) (t : tm) (split : bool) : step :=
  match bp with
  | d :: bp' => if ceqb c d then Next bp' t split else Fail t
  | [] => Fail t                          (* c is not NUL *)
  end.

(** arg_strptime, lines 251-548. [depth] bounds the recursion through the complex conversions.
    [alt = None] is the head of the while loop, [Some a] the label "again" with alt_format = a.
    Result: the tm as left in memory (also on failure) and the end position, [None] for NULL. *)
Fixpoint strptime (depth : nat) (fmt bp : str) (t : tm) : res (tm * option str) :=
  match depth with
  | O => OutOfFuel
  | S d =>
      (fix go (fmt : str) (alt : option Z) (bp : str) (t : tm) (split : bool) {struct fmt} : res (tm * option str) :=
         match fmt with
         | [] => match alt with
                 | None => Ok (t, Some bp)
                 | Some _ => Ok (t, None)         (* default case with c = NUL *)
                 end
         | c :: fmt' =>
             let continue (st : step) : res (tm * option str) :=
               match st with
               | Fail t => Ok (t, None)
               | Next bp t split => go fmt' None bp t split
               end in
             match alt with
             | None =>
                 if isspaceb c then go fmt' None (skip_space bp) t split
                 else if ceqb c "%" then go fmt' (Some 0) bp t split
                 else continue (literal c bp t split)
             | Some a =>
                 if ceqb c "%" then continue (literal c bp t split)
                 else if ceqb c "E" then
                   if negb (legal_alt a 0) then Ok (t, None) else go fmt' (Some (Z.lor a ALT_E)) bp t split
                 else if ceqb c "O" then
                   if negb (legal_alt a 0) then Ok (t, None) else go fmt' (Some (Z.lor a ALT_O)) bp t split
                 else match complex c with
                 | Some (ok, f) =>
                     if negb (legal_alt a ok) then Ok (t, None)
                     else
                       '(t', r) <- strptime d f bp t ;;
                       match r with
                       | None => Ok (t', None)
                       | Some bp' => go fmt' None bp' t' split
                       end
                 | None => continue (elementary a c bp t split)
                 end
             end
         end) fmt None bp t false
  end.

(** The deepest nesting is %c -> %x -> %m/%d/%y. *)
Definition arg_strptime (bp fmt : str) (t : tm) : res (tm * option str) := strptime 3 fmt bp t.

(** struct arg_date (argtable3.h): the parts used here. *)
Record arg_date := { date_format : str; date_count : Z; date_tmval : list tm }.

(** arg_date_resetfn, lines 44-47. *)
Definition arg_date_resetfn (p : arg_date) : arg_date :=
  {| date_format := date_format p; date_count := 0; date_tmval := date_tmval p |}.

(** arg_date_scanfn, lines 49-71. *)
Definition arg_date_scanfn (maxcount : Z) (p : arg_date) (argval : option str) : res (arg_date * Z) :=
  if date_count p =? maxcount then Ok (p, ARG_ERR_MAXCOUNT)
  else match argval with
  | None => Ok ({| date_format := date_format p; date_count := date_count p + 1; date_tmval := date_tmval p |}, 0)
  | Some s =>
      t <- aget (date_tmval p) (date_count p) ;;
      '(t', pend) <- arg_strptime s (date_format p) t ;;
      match pend with
      | Some [] =>
          a <- aset (date_tmval p) (date_count p) t' ;;
          Ok ({| date_format := date_format p; date_count := date_count p + 1; date_tmval := a |}, 0)
      | _ => Ok (p, ARG_ERR_BADDATE)
      end
  end.
