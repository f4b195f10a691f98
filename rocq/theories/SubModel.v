(** Programs with sub-commands: a session in which commands are registered and unregistered and command lines are given, each
    answered by arg_cmd_dispatch (arg_cmd.c lines 180-187) or, if there is no such command, by arg_make_get_help_msg (lines
    235-238). A command's procedure follows the pattern for which arg_make_syntax_err_help_msg (lines 263-281) is made:

      build the table; nerrors = arg_parse(argc, argv, argtable);
      if (arg_make_syntax_err_help_msg(res, name, help->count, nerrors, argtable, end, &exitcode)) goto exit;
      do the work, append a text to res, set exitcode;
      exit: arg_freetable(argtable, n); return exitcode;

    Simplifications, as in ProgramModel: the constructors are taken to succeed, each giving a block of its own; what is written to
    stdout is taken as text. The vector of a procedure begins at the name of the command (argv + 1 of main). *)
From Verif Require Import Base IntModel FileModel DateModel GetoptModel ParseModel ArgModel MemModel DstrModel DstrSpec PrintModel HashModel CmdModel CmdSpec HelpModel ProgramModel.
From Verif Require TableModel.
From Coq Require Import ZArith List Ascii String Bool.
Import ListNotations.
Open Scope Z_scope.

Section Sub.
Context {D C : Type}.
Context (strtod : str -> D * nat).
Context (rexmatch : str -> Z -> str -> res bool).
Context (lm : long_model) (sp : seps).
Context (strftime : str -> tm -> option str).
Notation table := (list (entry (body D))).

(** A procedure: the table that it builds, where the help switch is, and the work, which sees the context given at the
    registration (arg_cmdfn, argtable3.h line 84), argc and the parsed table. *)
Record command := { k_table : table; k_help : nat; k_work : C -> Z -> table -> res (str * Z) }.

(** A command line: the words (of which the first is the name of the command) in the vector [l_argv] of the memory [l_heap]; and
    what malloc gives to this call: the arg_end and the contents of fresh memory. *)
Record line := {
  l_words : list str; l_argv : nat; l_heap : heap; l_end : arg_end; l_fuel : nat;
  l_opts : nat -> rawopt; l_chars : nat -> ascii; l_ptrs : nat -> option str; l_junk : nat -> ascii
}.

(** The procedure. Result: what is appended to res, the exit code, the entries left alive, the state of the scanner. *)
Definition procedure (r : cmds command C) (module name : str) (posix : bool) (s : gst) (k : command) (l : line) (ctx : C)
  : res (list op * Z * TableModel.heap * gst) :=
  let n := List.length (k_table k) in
  let argc := zlen (l_words l) in
  '(_, s', tab', en') <- karg_parse strtod rexmatch lm sp posix (l_opts l) (l_chars l) (l_ptrs l) (l_fuel l) argc (l_argv l) (l_heap l) s (k_table k) (l_end l) ;;
  help <- count_of tab' (k_help k) ;;
  '(os, exitcode, ret) <- arg_make_syntax_err_help_msg strftime r module (Some name) help (end_count en') tab' en' EXIT_SUCCESS ;;
  '(os, exitcode) <-
    (if ret =? 0 then '(t, code) <- k_work k ctx argc tab' ;; Ok (os ++ [OCat t], code) else Ok (os, exitcode)) ;;
  '(blocks, _) <- TableModel.arg_freetable (blocks_of n) (argtable_of n) (S n) ;;
  Ok (os, exitcode, blocks, s').

(** One command line: what is written, and how it is printed. *)
Definition respond (r : cmds command C) (module version : str) (posix : bool) (s : gst) (l : line) : res (list op * Z * TableModel.heap * gst) :=
  match l_words l with
  | [] => Ok (arg_make_get_help_msg module version, EXIT_FAILURE, fun _ => None, s)
  | name :: _ =>
      i <- arg_cmd_info r name ;;
      match i with
      | None => Ok (arg_make_get_help_msg module version, EXIT_FAILURE, fun _ => None, s)
      | Some _ => x <- arg_cmd_dispatch (procedure r module name posix s) r name l ;; x
      end
  end.
Definition answer (r : cmds command C) (module version : str) (posix legacy : bool) (s : gst) (l : line) : res (outcome * gst) :=
  '(os, code, blocks, s') <- respond r module version posix s l ;;
  '(t, m) <- print_to (l_junk l) legacy os ;;
  Ok ({| o_text := t; o_code := code; o_blocks := blocks; o_left := [m] |}, s').

(** A session: the registry is changed, and lines are answered, in any order. *)
Inductive item := Change (o : @cop command C) | Line (l : line).
Fixpoint session (r : cmds command C) (module version : str) (posix legacy : bool) (s : gst) (items : list item) : res (list outcome * cmds command C) :=
  match items with
  | [] => Ok ([], r)
  | Change o :: items => r <- do_cop r o ;; session r module version posix legacy s items
  | Line l :: items =>
      '(o, s) <- answer r module version posix legacy s l ;;
      '(os, r) <- session r module version posix legacy s items ;;
      Ok (o :: os, r)
  end.
End Sub.
Arguments command D C : clear implicits.
Arguments item D C : clear implicits.
