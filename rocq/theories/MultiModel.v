(** The example program with four syntaxes, each with a table of its own (examples/multisyntax.c lines 41-239). The simplifications
    are those of ProgramModel.v. *)
From Verif Require Import Base IntModel IntSpec FileModel DateModel GetoptModel ParseModel ArgModel MemModel DstrModel PrintModel ProgramModel.
From Verif Require DstrSpec TableModel PropConvey.
From Coq Require Import ZArith List Ascii String Bool.
Import ListNotations.
Open Scope Z_scope.

Section Multi.
Context {D : Type}.
Context (strtod : str -> D * nat).
Context (rexmatch : str -> Z -> str -> res bool).
Context (lm : long_model) (sp : seps).
Context (strftime : str -> tm -> option str).
Notation table := (list (entry (body D))).
Notation o s := (Some (lit s)).

(** Lines 41-42 *)
Definition REG_EXTENDED : Z := 1.
Definition REG_ICASE : Z := Z.shiftl REG_EXTENDED 1.
(** Lines 121-155: the tables *)
Definition multi1 (argc : Z) : table :=
  [arg_rex1 None None (lit "insert") None REG_ICASE None;
   arg_lit0 (o "n") None (o "take no action");
   arg_lit0 (o "v") (o "verbose") (o "verbose messages");
   arg_lit0 (o "R") None (o "recurse through subdirectories");
   arg_filen None None None 1 (argc + 2) (o "input file(s)");
   arg_file0 (o "o") None (o "<output>") (o "output file (default is ""-"")")].
Definition multi2 : table :=
  [arg_rex1 None None (lit "remove") None REG_ICASE None;
   arg_lit0 (o "n") None None;
   arg_lit0 (o "v") (o "verbose") None;
   arg_file1 None None None None].
Definition multi3 : table :=
  [arg_rex1 None None (lit "search") None REG_ICASE None;
   arg_lit0 (o "v") (o "verbose") None;
   arg_str1 None None (o "<pattern>") (o "search string");
   arg_file0 (o "o") None (o "<output>") None].
Definition multi4 : table :=
  [arg_lit0 None (o "help") (o "print this help and exit");
   arg_lit0 None (o "version") (o "print version information and exit")].
(** Lines 172-174: the default of -o *)
Definition set_output (i : nat) (tab : table) : table :=
  map (fun x => if Nat.eqb (fst x) i then set_default (snd x) else snd x) (combine (seq 0 (List.length tab)) tab).

(** What is printed, piece by piece: text, and what the printing functions write. *)
Inductive piece :=
| Text (s : str)
| Syntax (tab : table)
| Glossary (tab : table)
| Errors (tab : table) (en : arg_end).
Definition name : str := lit "multisyntax".
(** The format of the glossary *)
Definition six_columns : gformat :=
  {| gf_len := 15; gf_text := fun syntax glossary => lit "      " ++ pad_right 20 syntax ++ lit " " ++ glossary ++ [NL] |}.
Definition piece_ops (p : piece) : res (list DstrSpec.op) :=
  match p with
  | Text s => Ok []
  | Syntax tab => arg_print_syntax_ds (slots_of tab) (Some [NL])
  | Glossary tab => arg_print_glossary_ds (slots_of tab) (Some six_columns)
  | Errors tab en => arg_print_errors_ds strftime tab en (Some name)
  end.
Fixpoint print_all (junk : nat -> ascii) (legacy : bool) (ps : list piece) : res (str * list mem) :=
  match ps with
  | [] => Ok ([], [])
  | Text s :: ps => '(t, ms) <- print_all junk legacy ps ;; Ok (s ++ t, ms)
  | p :: ps => ops <- piece_ops p ;; '(t0, m) <- print_to junk legacy ops ;; '(t, ms) <- print_all junk legacy ps ;; Ok (t0 ++ t, m :: ms)
  end.

Definition number (head : string) (n : Z) : str := lit head ++ PropConvey.decimal n ++ [NL].
Definition quoting (head : string) (s : str) : str := lit head ++ lit """" ++ s ++ ln """".
(** mymain1 to mymain3, lines 44-79 *)
Definition mymain1 (n v R : Z) (outfile : str) (infiles : list str) : str :=
  ln "syntax 1 matched OK:" ++ number "n=" n ++ number "v=" v ++ number "R=" R ++ quoting "outfile=" outfile ++ numbered "infile" 0 infiles.
Definition mymain2 (n v : Z) (infile : str) : str :=
  ln "syntax 2 matched OK:" ++ number "n=" n ++ number "v=" v ++ quoting "infile=" infile.
Definition mymain3 (v : Z) (pattern outfile : str) : str :=
  ln "syntax 3 matched OK:" ++ number "v=" v ++ quoting "pattern=" pattern ++ quoting "outfile=" outfile.
(** mymain4, lines 83-116 *)
Definition mymain4 (help version : Z) (t1 t2 t3 t4 : table) : list piece :=
  if negb (help =? 0) then
    [Text (lit "Usage: " ++ name); Syntax t1; Text (lit "       " ++ name); Syntax t2; Text (lit "       " ++ name); Syntax t3;
     Text (lit "       " ++ name); Syntax t4;
     Text (ln "This program demonstrates the use of the argtable2 library" ++ ln "for parsing multiple command line syntaxes.");
     Glossary t1; Glossary t2; Glossary t3; Glossary t4]
  else if negb (version =? 0) then [Text (lit "'" ++ name ++ ln "' example program for the ""argtable"" command line argument parser.")]
  else [Text (lit "Try '" ++ name ++ ln " --help' for more information.")].

Definition first_text (tab : table) (i : nat) : res str := l <- texts_of tab i 1 ;; match l with [s] => Ok s | _ => UB OOBRead end.
(** Lines 186-229, after the parses. *)
Definition multi_after (t1 t2 t3 t4 : table) (e1 e2 e3 e4 : arg_end) : res (list piece) :=
  if end_count e1 =? 0 then
    n <- count_of t1 1 ;; v <- count_of t1 2 ;; R <- count_of t1 3 ;; out <- first_text t1 5 ;; k <- count_of t1 4 ;; files <- texts_of t1 4 k ;;
    Ok [Text (mymain1 n v R out files)]
  else if end_count e2 =? 0 then
    n <- count_of t2 1 ;; v <- count_of t2 2 ;; file <- first_text t2 3 ;; Ok [Text (mymain2 n v file)]
  else if end_count e3 =? 0 then
    v <- count_of t3 1 ;; pattern <- first_text t3 2 ;; out <- first_text t3 3 ;; Ok [Text (mymain3 v pattern out)]
  else if end_count e4 =? 0 then
    help <- count_of t4 0 ;; version <- count_of t4 1 ;; Ok (mymain4 help version t1 t2 t3 t4)
  else
    c1 <- count_of t1 0 ;; c2 <- count_of t2 0 ;; c3 <- count_of t3 0 ;;
    Ok (if 0 <? c1 then [Errors t1 e1; Text (lit "usage: " ++ name ++ lit " "); Syntax t1]
        else if 0 <? c2 then [Errors t2 e2; Text (lit "usage: " ++ name ++ lit " "); Syntax t2]
        else if 0 <? c3 then [Errors t3 e3; Text (lit "usage: " ++ name ++ lit " "); Syntax t3]
        else [Text (name ++ ln ": missing <insert|remove|search> command." ++ lit "usage 1: " ++ name ++ lit " "); Syntax t1;
              Text (lit "usage 2: " ++ name ++ lit " "); Syntax t2; Text (lit "usage 3: " ++ name ++ lit " "); Syntax t3;
              Text (lit "usage 4: " ++ name); Syntax t4]).

(** The blocks of several tables: table by table, the arg_end last. *)
Fixpoint blocks_from (a : nat) (ns : list nat) : TableModel.heap :=
  match ns with
  | [] => fun _ => None
  | n :: ns => fun b => if (Nat.leb a b && Nat.ltb b (a + n))%bool then Some false else if Nat.eqb b (a + n) then Some true else blocks_from (a + S n) ns b
  end.
Fixpoint tables_from (a : nat) (ns : list nat) : list TableModel.slots :=
  match ns with [] => [] | n :: ns => map Some (seq a (S n)) :: tables_from (a + S n) ns end.
(** Lines 160-164: the checks, up to the first that fails *)
Fixpoint null_any (m : TableModel.heap) (ts : list TableModel.slots) : res bool :=
  match ts with [] => Ok false | t :: ts => k <- TableModel.arg_nullcheck m (Some t) ;; if negb (k =? 0) then Ok true else null_any m ts end.
(** Lines 232-236 *)
Fixpoint free_each (m : TableModel.heap) (ts : list TableModel.slots) : res TableModel.heap :=
  match ts with [] => Ok m | t :: ts => '(m, _) <- TableModel.arg_freetable m t (List.length t) ;; free_each m ts end.

(** main, lines 119-239. The exit code is 0 in the end, whatever was found (unless memory was short). *)
Definition multisyntax (junk : nat -> ascii) (legacy posix : bool) jo jc jp fuel argc argv h s (e1 e2 e3 e4 : arg_end) : res outcome :=
  let t1 := multi1 argc in let t2 := multi2 in let t3 := multi3 in let t4 := multi4 in
  let sizes := map (@List.length _) [t1; t2; t3; t4] in
  let parse := karg_parse strtod rexmatch lm sp posix jo jc jp fuel argc argv in
  nulls <- null_any (blocks_from 0 sizes) (tables_from 0 sizes) ;;
  '(t, code, remains) <-
    (if nulls then Ok (name ++ ln ": insufficient memory", 1, [])
     else
       '(h, s, t1, e1) <- parse h s (set_output 5 t1) e1 ;;
       '(h, s, t2, e2) <- parse h s t2 e2 ;;
       '(h, s, t3, e3) <- parse h s (set_output 3 t3) e3 ;;
       '(h, s, t4, e4) <- parse h s t4 e4 ;;
       ps <- multi_after t1 t2 t3 t4 e1 e2 e3 e4 ;;
       '(t, ms) <- print_all junk legacy ps ;;
       Ok (t, 0, ms)) ;;
  m <- free_each (blocks_from 0 sizes) (tables_from 0 sizes) ;;
  Ok {| o_text := t; o_code := code; o_blocks := m; o_left := remains |}.
End Multi.
