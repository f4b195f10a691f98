(** The program of the page Getting Started, docs/source/arg_getting_started.md lines 26-78 (the same program stands in
    docs/source/index.md from line 36 on), and examples/testargtable3.c. Unlike the programs of ProgramModel they do not check the table
    for null entries, do nothing for --version, and have no work to do. At the end examples/myprog_C89.c, which has the frame and the
    table of myprog.c.

    Simplifications: those of ProgramModel. *)
From Verif Require Import Base IntModel IntSpec FileModel DateModel GetoptModel ParseModel ArgModel MemModel DstrModel PrintModel ProgramModel.
From Verif Require TableModel.
From Coq Require Import ZArith List Ascii String Bool.
Import ListNotations.
Open Scope Z_scope.

Section Util.
Context {D : Type}.
Context (strtod : str -> D * nat).
Context (rexmatch : str -> Z -> str -> res bool).
Context (lm : long_model) (sp : seps).
Context (strftime : str -> tm -> option str).
Notation table := (list (entry (body D))).
Notation o s := (Some (lit s)).

(** lines 40-48; [jv] is what is in the memory of level->ival before. *)
Definition util_table (jv : nat -> Z) : table :=
  [arg_litn None (o "help") 0 1 (o "display this help and exit");
   arg_litn None (o "version") 0 1 (o "display version info and exit");
   arg_intn jv None (o "level") (o "<n>") 0 1 (o "foo value");
   arg_litn (o "v") (o "verbose") 0 1 (o "verbose output");
   arg_filen (o "o") None (o "myfile") 0 1 (o "output file");
   arg_filen None None (o "<file>") 1 100 (o "input files")].
(** arg_getting_started.md lines 51 and 56-73, testargtable3.c lines 26 and 31-52: text, exit code, leftovers. [name] is what progname
    holds and [about] what is printed between the syntax and the glossary. *)
Definition plain_after (name about : str) (junk : nat -> ascii) (legacy : bool) (nerrors : Z) (tab : table) (en : arg_end) : res (str * Z * list mem) :=
  help <- count_of tab 0 ;;
  if 0 <? help then
    syn <- arg_print_syntax_ds (slots_of tab) (Some [NL]) ;;
    '(t1, m1) <- print_to junk legacy syn ;;
    glo <- arg_print_glossary_ds (slots_of tab) (Some (columns 25)) ;;
    '(t2, m2) <- print_to junk legacy glo ;;
    Ok (lit "Usage: " ++ name ++ t1 ++ about ++ t2, 0, [m1; m2])
  else if 0 <? nerrors then
    err <- arg_print_errors_ds strftime tab en (Some name) ;;
    '(t1, m1) <- print_to junk legacy err ;;
    Ok (t1 ++ lit "Try '" ++ name ++ ln " --help' for more information.", 1, [m1])
  else Ok ([], 0, []).
(** arg_getting_started.md lines 37-78, testargtable3.c lines 9-58; what arg_parse returns is end->count, argtable3.c lines 451 and 479. *)
Definition plain_main (name about : str) (tab : table) (en : arg_end) (junk : nat -> ascii) (legacy posix : bool) jo jc jp fuel argc argv h s : res outcome :=
  let n := List.length tab in
  '(h', s', tab', en') <- karg_parse strtod rexmatch lm sp posix jo jc jp fuel argc argv h s tab en ;;
  '(t, code, remains) <- plain_after name about junk legacy (end_count en') tab' en' ;;
  '(blocks, _) <- TableModel.arg_freetable (blocks_of n) (argtable_of n) (S n) ;;
  Ok {| o_text := t; o_code := code; o_blocks := blocks; o_left := remains |}.
(** arg_getting_started.md lines 37-78; the name is in line 51, the text in line 59. *)
Definition util_main (jv : nat -> Z) := plain_main (lit "util.exe") (ln "Demonstrate command-line parsing in argtable3." ++ [NL]) (util_table jv).

(** examples/testargtable3.c lines 12-23; [jv] is what is in the memory of scal->ival before. *)
Definition test_table (jv : nat -> Z) : table :=
  [arg_lit0 None (o "help") (o "display this help and exit");
   arg_lit0 None (o "version") (o "display version info and exit");
   arg_lit0 (o "a") None (o "the -a option");
   arg_lit0 (o "b") None (o "the -b option");
   arg_lit0 (o "c") None (o "the -c option");
   arg_int0 jv None (o "scalar") (o "<n>") (o "foo value");
   arg_lit0 (o "v") (o "verbose") (o "verbose output");
   arg_file0 (o "o") None (o "myfile") (o "output file");
   arg_filen None None (o "<file>") 1 100 (o "input files")].
(** lines 9-58; the name is in line 26, the text in lines 36-37. *)
Definition test_main (jv : nat -> Z) :=
  plain_main (lit "testargtable2.exe") (ln "List information about the FILE(s) (the current directory by default)." ++ [NL]) (test_table jv).

(** examples/myprog_C89.c, main lines 70-165 and mymain lines 46-67: myprog.c but for the name and the text of the usage. *)
Definition myprog_C89_work (argc : Z) (tab : table) : res (str * Z) :=
  if argc =? 1 then Ok (lit "Try 'myprog_C89" ++ ln " --help' for more information.", 0) else myprog_work argc tab.
Definition myprog_C89 : frame :=
  {| f_name := lit "myprog_C89"; f_help := 6; f_version := 7;
     f_before := ln "This program demonstrates the use of the argtable2 library" ++ ln "for parsing command line arguments.";
     f_format := columns 25; f_after := []; f_work := myprog_C89_work |}.
End Util.
