(** Model of /repo/src/arg_file.c (file name decomposition) and of the simple scan functions of
    arg_lit.c, arg_str.c and arg_file.c. *)
From Verif Require Import Base IntModel.
From Coq Require Import ZArith List Ascii String Bool.
Import ListNotations.
Open Scope Z_scope.

(** strrchr (C library): suffix starting at the last occurrence, or NULL.
    (strrchr of the NUL character is not used by the code.) *)
Fixpoint strrchr (s : str) (c : ascii) : option str :=
  match s with
  | [] => None
  | x :: s' => match strrchr s' c with
               | Some r => Some r
               | None => if ceqb x c then Some s else None
               end
  end.

(** File separators, arg_file.c lines 42-48. *)
Record seps := { sep1 : ascii; sep2 : ascii }.
Definition unix_seps : seps := {| sep1 := "/"; sep2 := "/" |}.
Definition win_seps : seps := {| sep1 := "\"; sep2 := "/" |}.

(** arg_basename, arg_file.c lines 56-79, for a non-NULL argument (its only caller passes
    a non-NULL argval). The result pointer is represented by the suffix it points to. *)
Definition arg_basename (sp : seps) (filename : str) : str :=
  let result1 := strrchr filename (sep1 sp) in
  let result2 := strrchr filename (sep2 sp) in
  let result := match result1 with
                | Some r => tl r
                | None => match result2 with Some r => tl r | None => filename end
                end in
  if str_eqb (lit ".") result || str_eqb (lit "..") result then [] else result.

(** arg_extension, arg_file.c lines 82-99, for a non-NULL argument. The pointer comparison
    result == basename (line 91) is a comparison of suffix lengths. *)
Definition arg_extension (basename : str) : str :=
  let result := match strrchr basename "." with Some r => r | None => [] end in
  let result := if Nat.eqb (List.length result) (List.length basename) then [] else result in
  if Nat.eqb (List.length result) 1 then [] else result.

(** struct arg_file (argtable3.h): the changing parts. *)
Record arg_file := { file_count : Z; file_name : list str; file_base : list str; file_ext : list str }.

(** arg_file_scanfn, arg_file.c lines 101-122. *)
Definition arg_file_scanfn (sp : seps) (maxcount : Z) (p : arg_file) (argval : option str) : res (arg_file * Z) :=
  if file_count p =? maxcount then Ok (p, ARG_ERR_MAXCOUNT)
  else match argval with
  | None => Ok ({| file_count := file_count p + 1; file_name := file_name p;
                   file_base := file_base p; file_ext := file_ext p |}, 0)
  | Some s =>
      n <- aset (file_name p) (file_count p) s ;;
      b <- aset (file_base p) (file_count p) (arg_basename sp s) ;;
      bn <- aget b (file_count p) ;;
      e <- aset (file_ext p) (file_count p) (arg_extension bn) ;;
      Ok ({| file_count := file_count p + 1; file_name := n; file_base := b; file_ext := e |}, 0)
  end.

(** arg_file_resetfn, arg_file.c lines 50-53. *)
Definition arg_file_resetfn (p : arg_file) : arg_file :=
  {| file_count := 0; file_name := file_name p; file_base := file_base p; file_ext := file_ext p |}.

(** struct arg_str (argtable3.h): the changing parts; arg_str.c lines 41-66. *)
Record arg_str := { str_count : Z; str_sval : list str }.
Definition arg_str_scanfn (maxcount : Z) (p : arg_str) (argval : option str) : res (arg_str * Z) :=
  if str_count p =? maxcount then Ok (p, ARG_ERR_MAXCOUNT)
  else match argval with
  | None => Ok ({| str_count := str_count p + 1; str_sval := str_sval p |}, 0)
  | Some s =>
      a <- aset (str_sval p) (str_count p) s ;;
      Ok ({| str_count := str_count p + 1; str_sval := a |}, 0)
  end.
(** arg_str_resetfn, arg_str.c lines 41-49: the first [count] slots become empty strings. *)
Fixpoint str_clear (n : nat) (i : Z) (l : list str) : res (list str) :=
  match n with
  | O => Ok l
  | S n' => l' <- aset l i [] ;; str_clear n' (i + 1) l'
  end.
Definition arg_str_resetfn (p : arg_str) : res arg_str :=
  a <- str_clear (Z.to_nat (str_count p)) 0 (str_sval p) ;;
  Ok {| str_count := 0; str_sval := a |}.

(** struct arg_lit; arg_lit.c lines 41-56. *)
Definition arg_lit_scanfn (maxcount : Z) (count : Z) : Z * Z :=   (* (count, errorcode) *)
  if count <? maxcount then (count + 1, 0) else (count, ARG_ERR_MAXCOUNT).

(** The check functions of arg_lit, arg_int, arg_dbl, arg_str, arg_file, arg_date and arg_rex are
    the same text (arg_lit.c 58-62, arg_int.c 210-214, arg_dbl.c 75-80, arg_str.c 69-74,
    arg_file.c 124-129, arg_date.c 73-78, arg_rex.c checkfn). *)
Definition checkfn (mincount count : Z) : Z := if count <? mincount then ARG_ERR_MINCOUNT else 0.
