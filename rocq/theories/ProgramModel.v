(** Programs that use the library: the frame that the example programs share (examples/echo.c lines 51-133, examples/uname.c lines
    53-141, examples/myprog.c lines 61-148), and three of these programs. The frame builds a table, checks and parses it, then
    prints the help, the version, the errors, or does its work, and releases the table.

    Simplifications. The constructors are taken to succeed (xmalloc ends the program otherwise, arg_utils.c lines 71-79), each
    giving a block of its own. What a program writes with printf is taken as text; stdout never fails. *)
From Verif Require Import Base IntModel IntSpec FileModel DateModel GetoptModel ParseModel ArgModel MemModel DstrModel PrintModel.
From Verif Require TableModel PropConvey.
From Coq Require Import ZArith List Ascii String Bool.
Import ListNotations.
Open Scope Z_scope.

(** What is seen of a run: the text on stdout and the exit code, the entries left alive, and what the printing functions left
    allocated. *)
Record outcome := { o_text : str; o_code : Z; o_blocks : TableModel.heap; o_left : list mem }.

Definition ln (s : string) : str := lit s ++ [NL].

Section Program.
Context {D : Type}.
Context (strtod : str -> D * nat).
Context (rexmatch : str -> Z -> str -> res bool).
Context (lm : long_model) (sp : seps).
Context (strftime : str -> tm -> option str).
Notation table := (list (entry (body D))).

(** The members that a program reads: an entry's count, and the first [n] strings of an arg_str or arg_file, the first integer
    of an arg_int. *)
Definition count_of (tab : table) (i : nat) : res Z :=
  match option_map (fun e => kcount (e_body e)) (nth_error tab i) with Some (Some n) => Ok n | _ => UB OOBRead end.
Fixpoint first_texts (n : nat) (l : list str) : res (list str) :=
  match n, l with
  | O, _ => Ok []
  | S n, s :: l => r <- first_texts n l ;; Ok (s :: r)
  | S _, [] => UB OOBRead
  end.
Definition texts_of (tab : table) (i : nat) (n : Z) : res (list str) :=
  match option_map e_body (nth_error tab i) with
  | Some (KStr p) => first_texts (Z.to_nat n) (str_sval p)
  | Some (KFile p) => first_texts (Z.to_nat n) (file_name p)
  | _ => UB OOBRead
  end.
Definition int_of (tab : table) (i : nat) : res Z :=
  match option_map e_body (nth_error tab i) with Some (KInt p) => aget (int_ival p) 0 | _ => UB OOBRead end.

(** The table as the printing functions see it. *)
Definition slots_of (tab : table) : list slot := map (fun e => SEntry (e_hdr e)) tab ++ [SEnd].
(** The blocks that the constructors allocate; the last is the arg_end. *)
Definition blocks_of (n : nat) : TableModel.heap := fun b => if Nat.ltb b n then Some false else if Nat.eqb b n then Some true else None.
Definition argtable_of (n : nat) : TableModel.slots := map Some (seq 0 (S n)).

(** What differs between the programs: the name, where help and version are, the texts before and after the glossary, the format
    of the glossary, and what is done after a successful parse. *)
Record frame := {
  f_name : str;
  f_help : nat;
  f_version : nat;
  f_before : str;
  f_format : gformat;
  f_after : str;
  f_work : Z -> table -> res (str * Z)
}.
Definition usage_head (f : frame) : str := lit "Usage: " ++ f_name f.
Definition version_text (f : frame) : str :=
  lit "'" ++ f_name f ++ ln "' example program for the ""argtable"" command line argument parser." ++ ln "September 2003, Stewart Heitmann".
Definition try_text (f : frame) : str := lit "Try '" ++ f_name f ++ ln " --help' for more information.".

(** After the parse: text, exit code, leftovers. *)
Definition after_parse (f : frame) (junk : nat -> ascii) (legacy : bool) (argc : Z) (tab : table) (en : arg_end) : res (str * Z * list mem) :=
  help <- count_of tab (f_help f) ;;
  if 0 <? help then
    syn <- arg_print_syntax_ds (slots_of tab) (Some [NL]) ;;
    '(t1, m1) <- print_to junk legacy syn ;;
    glo <- arg_print_glossary_ds (slots_of tab) (Some (f_format f)) ;;
    '(t2, m2) <- print_to junk legacy glo ;;
    Ok (usage_head f ++ t1 ++ f_before f ++ t2 ++ f_after f, 0, [m1; m2])
  else
    vers <- count_of tab (f_version f) ;;
    if 0 <? vers then Ok (version_text f, 0, [])
    else if 0 <? end_count en then
      err <- arg_print_errors_ds strftime tab en (Some (f_name f)) ;;
      '(t1, m1) <- print_to junk legacy err ;;
      Ok (t1 ++ try_text f, 1, [m1])
    else '(t, code) <- f_work f argc tab ;; Ok (t, code, []).

(** main: [tab] is the table with its defaults set; the error table has room for 20 errors. *)
Definition main (f : frame) (tab : table) (en : arg_end) (junk : nat -> ascii) (legacy posix : bool) jo jc jp fuel argc argv h s : res outcome :=
  let n := List.length tab in
  nulls <- TableModel.arg_nullcheck (blocks_of n) (Some (argtable_of n)) ;;
  '(t, code, remains) <-
    (if negb (nulls =? 0) then Ok (f_name f ++ ln ": insufficient memory", 1, [])
     else
       '(h', s', tab', en') <- karg_parse strtod rexmatch lm sp posix jo jc jp fuel argc argv h s tab en ;;
       after_parse f junk legacy argc tab' en') ;;
  '(blocks, _) <- TableModel.arg_freetable (blocks_of n) (argtable_of n) (S n) ;;
  Ok {| o_text := t; o_code := code; o_blocks := blocks; o_left := remains |}.

(** ** The programs *)
Notation o s := (Some (lit s)).
(** printf("  %-Ns %s\n") *)
Definition columns (n : nat) : gformat :=
  {| gf_len := 11; gf_text := fun syntax glossary => lit "  " ++ pad_right n syntax ++ lit " " ++ glossary ++ [NL] |}.
Definition when (n : Z) (s : str) : str := if n =? 0 then [] else s.

(** examples/echo.c, main lines 51-64 and mymain lines 38-49 *)
Definition echo_table (argc : Z) : table :=
  [arg_lit0 (o "n") None (o "do not output the trailing newline");
   arg_lit0 (o "e") None (o "enable interpretation of the backslash-escaped characters listed below");
   arg_lit0 (o "E") None (o "disable interpretation of those sequences in <string>s");
   arg_lit0 None (o "help") (o "print this help and exit");
   arg_lit0 None (o "version") (o "print version information and exit");
   arg_strn None None (o "STRING") 0 (argc + 2) None].
Definition yes_no (n : Z) : str := if n =? 0 then lit "NO" else lit "YES".
Definition echo_work (argc : Z) (tab : table) : res (str * Z) :=
  n <- count_of tab 0 ;; e <- count_of tab 1 ;; E <- count_of tab 2 ;; k <- count_of tab 5 ;; strings <- texts_of tab 5 k ;;
  Ok (lit "option -n = " ++ yes_no n ++ [NL] ++ lit "option -e = " ++ yes_no e ++ [NL] ++ lit "option -E = " ++ yes_no E ++ [NL] ++
      flat_map (fun s => s ++ lit " ") strings ++ [NL], 0).
Definition echo_after : str :=
  [NL] ++ ln "Without -E, the following sequences are recognized and interpolated:" ++ [NL] ++
  ln "  \NNN   the character whose ASCII code is NNN (octal)" ++
  ln "  \\     backslash" ++ ln "  \a     alert (BEL)" ++ ln "  \b     backspace" ++ ln "  \c     suppress trailing newline" ++
  ln "  \f     form feed" ++ ln "  \n     new line" ++ ln "  \r     carriage return" ++ ln "  \t     horizontal tab" ++
  ln "  \v     vertical tab" ++ [NL] ++ ln "Report bugs to <foo@bar>.".
Definition echo : frame :=
  {| f_name := lit "echo"; f_help := 3; f_version := 4; f_before := ln "Echo the STRINGs to standard output." ++ [NL];
     f_format := columns 10; f_after := echo_after; f_work := echo_work |}.

(** examples/uname.c, main lines 53-70 and 113-129, mymain lines 37-49 *)
Definition uname_table : table :=
  [arg_lit0 (o "a") (o "all") (o "print all information, in the following order:");
   arg_lit0 (o "s") (o "kernel-name") (o "print the kernel name");
   arg_lit0 (o "n") (o "nodename") (o "print the node name");
   arg_lit0 (o "r") (o "kernel-release") (o "print the kernel release");
   arg_lit0 (o "v") (o "kernel-version") (o "print the kernel version");
   arg_lit0 (o "m") (o "machine") (o "print the machine hardware name");
   arg_lit0 (o "p") (o "processor") (o "print the processor type");
   arg_lit0 (o "i") (o "hardware-platform") (o "print the hardware platform");
   arg_lit0 (o "o") (o "operating-system") (o "print the operating system");
   arg_lit0 None (o "help") (o "print this help and exit");
   arg_lit0 None (o "version") (o "print version information and exit")].
Definition uname_mymain (kname nname krel kver mach proc hard opsys : Z) : str :=
  when kname (lit "Linux ") ++ when nname (lit "localhost.localdomain ") ++ when krel (lit "2.4.19-16 ") ++
  when kver (lit "#1 Fri Sep 20 18:15:05 CEST 2002 ") ++ when mach (lit "i686 ") ++ when proc (lit "Intel ") ++
  when hard (lit "unknown ") ++ when opsys (lit "GNU/Linux ") ++ [NL].
Definition uname_work (argc : Z) (tab : table) : res (str * Z) :=
  if argc =? 1 then Ok (uname_mymain 0 1 0 0 0 0 0 0, 0)
  else
    all <- count_of tab 0 ;;
    if 0 <? all then Ok (uname_mymain 1 1 1 1 1 1 1 1, 0)
    else
      c1 <- count_of tab 1 ;; c2 <- count_of tab 2 ;; c3 <- count_of tab 3 ;; c4 <- count_of tab 4 ;; c5 <- count_of tab 5 ;;
      c6 <- count_of tab 6 ;; c7 <- count_of tab 7 ;; c8 <- count_of tab 8 ;;
      Ok (uname_mymain c1 c2 c3 c4 c5 c6 c7 c8, 0).
Definition uname : frame :=
  {| f_name := lit "uname"; f_help := 9; f_version := 10;
     f_before := ln "Print certain system information.  With no options, same as -s." ++ [NL];
     f_format := columns 25; f_after := [NL] ++ ln "Report bugs to <foo@bar>."; f_work := uname_work |}.

(** examples/myprog.c, main lines 61-88 and 126-141, mymain lines 37-58 *)
Definition myprog_table (junk : nat -> Z) (argc : Z) : table :=
  [arg_lit0 (o "lL") None (o "list files");
   arg_lit0 (o "R") None (o "recurse through subdirectories");
   arg_int0 junk (o "k") (o "scalar") None (o "define scalar value k (default is 3)");
   arg_strn (o "D") (o "define") (o "MACRO") 0 (argc + 2) (o "macro definitions");
   arg_file0 (o "o") None (o "<output>") (o "output file (default is ""-"")");
   arg_lit0 (o "v") (o "verbose,debug") (o "verbose messages");
   arg_lit0 None (o "help") (o "print this help and exit");
   arg_lit0 None (o "version") (o "print version information and exit");
   arg_filen None None None 1 (argc + 2) (o "input file(s)")].
(** lines 86-88: repeat->ival[0] = 3; outfile->filename[0] = "-" *)
Definition set_default (e : entry (body D)) : entry (body D) :=
  mkentry (e_hdr e)
    match e_body e with
    | KInt p => KInt {| int_count := int_count p; int_ival := match int_ival p with _ :: l => 3 :: l | [] => [] end |}
    | KFile p => KFile {| file_count := file_count p; file_name := match file_name p with _ :: l => lit "-" :: l | [] => [] end; file_base := file_base p; file_ext := file_ext p |}
    | b => b
    end.
Definition myprog_defaults (tab : table) : table :=
  map (fun x => if (Nat.eqb (fst x) 2 || Nat.eqb (fst x) 4)%bool then set_default (snd x) else snd x) (combine (seq 0 (List.length tab)) tab).
Fixpoint numbered (head : string) (k : Z) (l : list str) : str :=
  match l with
  | [] => []
  | s :: l => lit head ++ lit "[" ++ PropConvey.decimal k ++ lit "]=""" ++ s ++ ln """" ++ numbered head (k + 1) l
  end.
Definition myprog_work (argc : Z) (tab : table) : res (str * Z) :=
  if argc =? 1 then Ok (lit "Try 'myprog" ++ ln " --help' for more information.", 0)
  else
    l <- count_of tab 0 ;; R <- count_of tab 1 ;; k <- int_of tab 2 ;; nd <- count_of tab 3 ;; defines <- texts_of tab 3 nd ;;
    out <- texts_of tab 4 1 ;; v <- count_of tab 5 ;; ni <- count_of tab 8 ;; infiles <- texts_of tab 8 ni ;;
    Ok ((if 0 <? l then ln "list files (-l)" else []) ++ (if 0 <? R then ln "recurse through directories (-R)" else []) ++
        (if 0 <? v then ln "verbose is enabled (-v)" else []) ++ lit "scalar k=" ++ PropConvey.decimal k ++ [NL] ++
        lit "output is """ ++ List.concat out ++ ln """" ++
        flat_map (fun d => lit "user defined macro """ ++ d ++ ln """") defines ++ numbered "infile" 0 infiles, 0).
Definition myprog : frame :=
  {| f_name := lit "myprog"; f_help := 6; f_version := 7;
     f_before := ln "This program demonstrates the use of the argtable2 library" ++
                 ln "for parsing command line arguments. Argtable accepts integers" ++
                 ln "in decimal (123), hexadecimal (0xff), octal (0o123) and binary" ++
                 ln "(0b101101) formats. Suffixes KB, MB and GB are also accepted.";
     f_format := columns 25; f_after := []; f_work := myprog_work |}.
End Program.
