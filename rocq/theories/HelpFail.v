(** HelpFail: arg_set_module_name and arg_set_module_version (arg_cmd.c lines 53-105) when malloc may refuse and the
    panic function of the client leaves the library by longjmp, see DstrFail. *)
From Coq Require Import ZArith String List Ascii Bool.
From Verif Require Import Base MemModel DstrModel HelpModel DstrFail.
Import ListNotations.
Open Scope Z_scope.

Section Mod.
Context (granted : nat -> bool) (junk : nat -> ascii) (legacy : bool).

(** arg_set_module_name: lines 53-66. The old name is freed (line 56) before the new one is asked for (line 58); the variable is
    assigned when xmalloc has returned. [false]: left by the panic function. *)
Definition try_set_module_name (m : mem) (s : modstate) (name : ptr) : res (mem * modstate * bool) :=
  m <- xfree_opt m (s_module_name s) ;;
  _ <- rd_str m name ;;
  if granted (mnext m) then
    '(m, b) <- store_copy junk m name ;;
    Ok (m, {| s_module_name := Some b; s_mod_ver_tag := s_mod_ver_tag s; s_mod_ver := s_mod_ver s |}, true)
  else Ok (spent m, s, false).

(** arg_set_module_version: lines 68-105. The dynamic string is lost when the function is left before line 104. *)
Definition try_set_module_version (m : mem) (s : modstate) (major minor patch : Z) (tag : ptr) : res (mem * modstate * bool) :=
  m <- xfree_opt m (s_mod_ver_tag s) ;;
  _ <- rd_str m tag ;;
  if negb (granted (mnext m)) then Ok (spent m, s, false) else
  '(m, t) <- store_copy junk m tag ;;
  let s := {| s_module_name := s_module_name s; s_mod_ver_tag := Some t; s_mod_ver := s_mod_ver s |} in
  if negb (granted (mnext m)) then Ok (spent m, s, false) else
  '(m, ds) <- arg_dstr_create junk m ;;
  r <- thenon (try_catf granted junk legacy m ds (Some 3) (pct_d major ++ lit ".")) (fun '(m, ds) =>
       thenon (try_catf granted junk legacy m ds (Some 3) (pct_d minor ++ lit ".")) (fun '(m, ds) =>
       thenon (try_catf granted junk legacy m ds (Some 3) (pct_d patch ++ lit ".")) (fun '(m, ds) =>
       try_cat granted junk m ds (t, 0)))) ;;
  match r with
  | Refused m _ => Ok (m, s, false)
  | Done (m, ds) =>
      m <- xfree_opt m (s_mod_ver s) ;;
      _ <- rd_str m (arg_dstr_cstr ds) ;;
      if negb (granted (mnext m)) then Ok (spent m, s, false) else
      '(m, v) <- store_copy junk m (arg_dstr_cstr ds) ;;
      m <- arg_dstr_destroy m ds ;;
      Ok (m, {| s_module_name := s_module_name s; s_mod_ver_tag := s_mod_ver_tag s; s_mod_ver := Some v |}, true)
  end.
End Mod.
