(** HelpModel: the module name and version and the help and error texts of arg_cmd.c (lines 45-105 and 221-281). *)
From Coq Require Import ZArith String List Ascii Bool DecimalString.
From Verif Require Import Base MemModel DstrModel DstrSpec DateModel ParseModel ArgModel HashModel CmdModel PrintModel.
Import ListNotations.
Open Scope Z_scope.

(** C library: printf's %d *)
Definition pct_d (z : Z) : str := lit (NilZero.string_of_int (Z.to_int z)).

(** ** Module name and version *)

(** The static variables s_module_name, s_mod_ver_tag and s_mod_ver (lines 46-51): NULL or a block. s_mod_ver_major, _minor
    and _patch are written and read only inside arg_set_module_version. *)
Record modstate := { s_module_name : option nat; s_mod_ver_tag : option nat; s_mod_ver : option nat }.
Definition mod0 : modstate := {| s_module_name := None; s_mod_ver_tag := None; s_mod_ver := None |}.

Section Mod.
Context (junk : nat -> ascii) (legacy : bool).

(** xfree of a static variable, which may be NULL *)
Definition xfree_opt (m : mem) (b : option nat) : res mem :=
  match b with None => Ok m | Some b => xfree m (b, 0) end.
(** slen = strlen(src); dst = xmalloc(slen + 1); memset(dst, 0, slen + 1); memcpy(dst, src, slen): lines 57-65, 77-85, 94-102 *)
Definition store_copy (m : mem) (src : ptr) : res (mem * nat) :=
  s <- rd_str m src ;;
  let '(m, b) := xmalloc junk m (zlen s + 1) in
  m <- memset0 m (b, 0) (zlen s + 1) ;;
  m <- memcpy m (b, 0) src (zlen s) ;;
  Ok (m, b).

(** arg_set_module_name: lines 53-66 *)
Definition arg_set_module_name (m : mem) (s : modstate) (name : ptr) : res (mem * modstate) :=
  m <- xfree_opt m (s_module_name s) ;;
  '(m, b) <- store_copy m name ;;
  Ok (m, {| s_module_name := Some b; s_mod_ver_tag := s_mod_ver_tag s; s_mod_ver := s_mod_ver s |}).

(** arg_set_module_version: lines 68-105 *)
Definition arg_set_module_version (m : mem) (s : modstate) (major minor patch : Z) (tag : ptr) : res (mem * modstate) :=
  m <- xfree_opt m (s_mod_ver_tag s) ;;
  '(m, t) <- store_copy m tag ;;
  '(m, ds) <- arg_dstr_create junk m ;;
  '(m, ds) <- arg_dstr_catf junk legacy m ds (Some 3) (pct_d major ++ lit ".") ;;
  '(m, ds) <- arg_dstr_catf junk legacy m ds (Some 3) (pct_d minor ++ lit ".") ;;
  '(m, ds) <- arg_dstr_catf junk legacy m ds (Some 3) (pct_d patch ++ lit ".") ;;
  '(m, ds) <- arg_dstr_cat junk m ds (t, 0) ;;
  m <- xfree_opt m (s_mod_ver s) ;;
  '(m, v) <- store_copy m (arg_dstr_cstr ds) ;;
  m <- arg_dstr_destroy m ds ;;
  Ok (m, {| s_module_name := s_module_name s; s_mod_ver_tag := Some t; s_mod_ver := Some v |}).

(** module_name, module_version: lines 221-233 *)
Definition text_or (m : mem) (b : option nat) (default : string) : res str :=
  match b with
  | None => Ok (lit default)
  | Some b => s <- rd_str m (b, 0) ;; if zlen s =? 0 then Ok (lit default) else Ok s
  end.
Definition module_name (m : mem) (s : modstate) : res str := text_or m (s_module_name s) "<name>".
Definition module_version (m : mem) (s : modstate) : res str := text_or m (s_mod_ver s) "0.0.0.0".
End Mod.

(** ** Messages. [name], [version]: what module_name() and module_version() return. *)
Section Messages.
Context {D P C : Type}.
Context (strftime : str -> tm -> option str).

(** arg_make_get_help_msg: lines 235-238 *)
Definition arg_make_get_help_msg (name version : str) : list op :=
  [catf_nl "%s v%s" (name ++ lit " v" ++ version);
   catf_nl "Please type '%s help' to get more information." (lit "Please type '" ++ name ++ lit " help' to get more information.")].

(** The format "  %-23s %s\n" of line 250 *)
Definition help_format : gformat :=
  {| gf_len := 11; gf_text := fun syntax glossary => lit "  " ++ pad_right 23 syntax ++ lit " " ++ glossary ++ [NL] |}.
Definition options_suffix : str := [NL] ++ lit " " ++ [NL] ++ lit "Available options:" ++ [NL].

(** arg_make_help_msg: lines 240-253. A command name of NULL is dereferenced by the hash function. *)
Definition arg_make_help_msg (s : cmds P C) (name : str) (cmd_name : option str) (t : list slot) : res (list op) :=
  h <- table_of s ;;
  match cmd_name with
  | None => UB NullDeref
  | Some cmd_name =>
      cmd_info <- arg_hashtable_search hash_key equal_keys (s_mem s) h cmd_name ;;
      o1 <- match cmd_info with
            | None => Ok []
            | Some i => x <- sread (w_val (s_mem s)) i ;; Ok [catf_nl "%s: %s" (cmd_name ++ lit ": " ++ ci_desc x)]
            end ;;
      o2 <- arg_print_syntaxv_ds t (Some options_suffix) ;;
      o3 <- arg_print_glossary_ds t (Some help_format) ;;
      Ok (o1 ++ [OCat (lit "Usage:" ++ [NL]); catf "  %s" (lit "  " ++ name)] ++ o2 ++ o3 ++ [OCat [NL]])
  end.

(** The table as the printing functions see it: the entries and the terminator. *)
Definition slots_of (tab : list (entry (body D))) : list slot := map (fun e => SEntry (e_hdr e)) tab ++ [SEnd].

(** arg_make_syntax_err_msg: lines 255-261 *)
Definition arg_make_syntax_err_msg (name : str) (tab : list (entry (body D))) (e : arg_end) : res (list op) :=
  o1 <- arg_print_errors_ds strftime tab e (Some name) ;;
  o2 <- arg_print_syntaxv_ds (slots_of tab) (Some [NL]) ;;
  Ok (o1 ++ [OCat (lit "Usage: " ++ [NL]); catf "  %s" (lit "  " ++ name)] ++ o2 ++ [OCat [NL]]).

(** EXIT_SUCCESS, EXIT_FAILURE: C library (the values of POSIX systems) *)
Definition EXIT_SUCCESS : Z := 0.
Definition EXIT_FAILURE : Z := 1.

(** arg_make_syntax_err_help_msg: lines 263-281. Result: the calls, *exitcode, and the return value. *)
Definition arg_make_syntax_err_help_msg (s : cmds P C) (module : str) (name : option str) (help nerrors : Z) (tab : list (entry (body D)))
  (e : arg_end) (exitcode : Z) : res (list op * Z * Z) :=
  if 0 <? help then o <- arg_make_help_msg s module name (slots_of tab) ;; Ok (o, EXIT_SUCCESS, 1)
  else if 0 <? nerrors then o <- arg_make_syntax_err_msg module tab e ;; Ok (o, EXIT_FAILURE, 1)
  else Ok ([], exitcode, 0).
End Messages.
