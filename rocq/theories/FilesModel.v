(** Two more programs that use the library, in the frame of ProgramModel: examples/ls.c and examples/mv.c. Both have remarks between
    the options, options with defaults, and, ls, an option whose value may be left out.

    Simplifications: those of ProgramModel. The statements of ls.c's mymain, one for each option, are a list of rows that is gone
    through. mv.c sets the first string of --target-directory to a null pointer; as strings are never null in the model, the string
    counts as null here as long as the option was not given. *)
From Verif Require Import Base IntModel IntSpec FileModel DateModel GetoptModel ParseModel ArgModel MemModel DstrModel PrintModel ProgramModel.
From Verif Require PropConvey.
From Coq Require Import ZArith List Ascii String Bool.
Import ListNotations.
Open Scope Z_scope.

Section Files.
Context {D : Type}.
Notation table := (list (entry (body D))).
Notation o s := (Some (lit s)).

(** x->sval[0] = s *)
Definition set_text (s : str) (e : entry (body D)) : entry (body D) :=
  mkentry (e_hdr e)
    match e_body e with
    | KStr p => KStr {| str_count := str_count p; str_sval := match str_sval p with _ :: l => s :: l | [] => [] end |}
    | b => b
    end.
(** A change of entry [i] *)
Fixpoint change (i : nat) (f : entry (body D) -> entry (body D)) (tab : table) : table :=
  match i, tab with
  | _, [] => []
  | O, e :: tab => f e :: tab
  | S i, e :: tab => e :: change i f tab
  end.
(** x->sval[0] *)
Definition text_of (tab : table) (i : nat) : res str := l <- texts_of tab i 1 ;; Ok (List.concat l).
(** printf of the form head[%d] = and the quoted name for all files: ls.c lines 164-165, mv.c lines 69-70 *)
Fixpoint file_lines (head : string) (k : Z) (l : list str) : str :=
  match l with
  | [] => []
  | s :: l => lit head ++ lit "[" ++ PropConvey.decimal k ++ lit "] = """ ++ s ++ ln """" ++ file_lines head (k + 1) l
  end.

(** ** ls *)
(** lines 175-253 *)
Definition ls_table (junk : nat -> Z) (argc : Z) : table :=
  [arg_lit0 (o "a") (o "all") (o "do not hide entries starting with .");
   arg_lit0 (o "A") (o "almost-all") (o "do not list implied . and ..");
   arg_lit0 None (o "author") (o "print the author of each file");
   arg_lit0 (o "b") (o "escape") (o "print octal escapes for nongraphic characters");
   arg_int0 junk None (o "block-size") (o "SIZE") (o "use SIZE-byte blocks");
   arg_lit0 (o "B") (o "ignore-backups") (o "do not list implied entries ending with ~");
   arg_lit0 (o "c") None (o "with -lt: sort by, and show, ctime (time of last");
   arg_rem None (o "  modification of file status information)");
   arg_rem None (o "  with -l: show ctime and sort by name");
   arg_rem None (o "  otherwise: sort by ctime");
   arg_lit0 (o "C") None (o "list entries by columns");
   arg_str0 None (o "color") (o "WHEN") (o "control whether color is used to distinguish file");
   arg_rem None (o "  types.  WHEN may be `never', `always', or `auto'");
   arg_lit0 (o "d") (o "directory") (o "list directory entries instead of contents,");
   arg_rem None (o "  and do not dereference symbolic links");
   arg_lit0 (o "D") (o "dired") (o "generate output designed for Emacs' dired mode");
   arg_lit0 (o "f") None (o "do not sort, enable -aU, disable -lst");
   arg_lit0 (o "F") (o "classify") (o "append indicator (one of */=@|) to entries");
   arg_str0 None (o "format") (o "WORD") (o "across -x, commas -m, horizontal -x, long -l,");
   arg_rem None (o "  single-column -1, verbose -l, vertical -C");
   arg_lit0 None (o "full-time") (o "like -l --time-style=full-iso");
   arg_lit0 (o "g") None (o "like -l, but do not list owner");
   arg_lit0 (o "G") (o "no-group") (o "inhibit display of group information");
   arg_lit0 (o "h") (o "human-readable") (o "print sizes in human readable format (e.g., 1K 234M 2G)");
   arg_lit0 None (o "si") (o "likewise, but use powers of 1000 not 1024");
   arg_lit0 (o "H") (o "dereference-command-line") (o "follow symbolic links listed on the command line");
   arg_lit0 None (o "dereference-command-line-symlink-to-dir") (o "follow each command line symbolic link");
   arg_rem None (o "  that points to a directory");
   arg_str0 None (o "indicator-style") (o "WORD") (o "append indicator with style WORD to entry names:");
   arg_rem None (o "  none (default), classify (-F), file-type (-p)");
   arg_lit0 (o "i") (o "inode") (o "print index number of each file");
   arg_str0 (o "I") (o "ignore") (o "PATTERN") (o "do not list implied entries matching shell PATTERN");
   arg_lit0 (o "k") None (o "like --block-size=1K");
   arg_lit0 (o "l") None (o "use a long listing format");
   arg_lit0 (o "L") (o "dereference") (o "when showing file information for a symbolic");
   arg_rem None (o "  link, show information for the file the link");
   arg_rem None (o "  references rather than for the link itself");
   arg_lit0 (o "m") None (o "fill width with a comma separated list of entries");
   arg_lit0 (o "n") (o "numeric-uid-gid") (o "like -l, but list numeric UIDs and GIDs");
   arg_lit0 (o "N") (o "literal") (o "print raw entry names (don't treat e.g. control");
   arg_rem None (o "  characters specially)");
   arg_lit0 (o "o") None (o "like -l, but do not list group information");
   arg_lit0 (o "p") (o "file-type") (o "append indicator (one of /=@|) to entries");
   arg_lit0 (o "q") (o "hide-control-chars") (o "print ? instead of non graphic characters");
   arg_lit0 None (o "show-control-chars") (o "show non graphic characters as-is (default");
   arg_rem None (o "unless program is `ls' and output is a terminal)");
   arg_lit0 (o "Q") (o "quote-name") (o "enclose entry names in double quotes");
   arg_str0 None (o "quoting-style") (o "WORD") (o "use quoting style WORD for entry names:");
   arg_rem None (o "  literal, locale, shell, shell-always, c, escape");
   arg_lit0 (o "r") (o "reverse") (o "reverse order while sorting");
   arg_lit0 (o "R") (o "recursive") (o "list subdirectories recursively");
   arg_lit0 (o "s") (o "size") (o "print size of each file, in blocks");
   arg_lit0 (o "S") None (o "sort by file size");
   arg_str0 None (o "sort") (o "WORD") (o "extension -X, none -U, size -S, time -t, version -v,");
   arg_rem None (o "status -c, time -t, atime -u, access -u, use -u");
   arg_str0 None (o "time") (o "WORD") (o "show time as WORD instead of modification time:");
   arg_rem None (o "  atime, access, use, ctime or status; use");
   arg_rem None (o "  specified time as sort key if --sort=time");
   arg_str0 None (o "time-style") (o "STYLE") (o "show times using style STYLE:");
   arg_rem None (o "  full-iso, long-iso, iso, locale, +FORMAT");
   arg_rem None (o "FORMAT is interpreted like `date'; if FORMAT is");
   arg_rem None (o "FORMAT1<newline>FORMAT2, FORMAT1 applies to");
   arg_rem None (o "non-recent files and FORMAT2 to recent files;");
   arg_rem None (o "if STYLE is prefixed with `posix-', STYLE");
   arg_rem None (o "takes effect only outside the POSIX locale");
   arg_lit0 (o "t") None (o "sort by modification time");
   arg_int0 junk (o "T") (o "tabsize") (o "COLS") (o "assume tab stops at each COLS instead of 8");
   arg_lit0 (o "u") None (o "with -lt: sort by, and show, access time");
   arg_rem None (o "  with -l: show access time and sort by name");
   arg_rem None (o "  otherwise: sort by access time");
   arg_lit0 (o "U") None (o "do not sort; list entries in directory order");
   arg_lit0 (o "v") None (o "sort by version");
   arg_int0 junk (o "w") (o "width") (o "COLS") (o "assume screen width instead of current value");
   arg_lit0 (o "x") None (o "list entries by lines instead of by columns");
   arg_lit0 (o "X") None (o "sort alphabetically by entry extension");
   arg_lit0 (o "1") None (o "list one file per line");
   arg_lit0 None (o "help") (o "display this help and exit");
   arg_lit0 None (o "version") (o "display version information and exit");
   arg_filen None None (o "FILE") 0 (argc + 2) None].
(** lines 269-272: --color may come without a value, its default is always *)
Definition ls_defaults (tab : table) : table := change 11 (fun e => set_text (lit "always") (with_optvalue e)) tab.

(** What is printed of an option that was given: YES, its count, its text, its number. mymain, lines 54-161; [i] is the place in the
    table of the variable that the line is about. *)
Inductive field := Yes | Count | Text | Number.
Definition ls_rows : list (nat * string * field) :=
  [(0, "a", Yes); (1, "A", Yes); (2, "author", Yes); (3, "b", Yes); (4, "blocksize", Count); (5, "B", Yes);
   (6, "c", Yes); (10, "C", Yes); (11, "color", Text); (13, "d", Yes); (15, "D", Yes); (16, "f", Yes); (17, "F", Yes);
   (18, "format", Text); (20, "fulltime", Yes); (21, "g", Yes); (22, "G", Yes); (23, "h", Yes); (24, "si", Yes);
   (25, "H", Yes); (26, "deref", Yes); (28, "indic", Text); (30, "i", Yes); (31, "I", Text); (32, "k", Yes);
   (33, "l", Yes); (34, "L", Yes); (37, "m", Yes); (38, "n", Yes); (39, "N", Yes); (41, "o", Yes); (42, "p", Yes);
   (43, "q", Yes); (44, "shcont", Yes); (46, "Q", Yes); (47, "Qstyle", Text); (49, "r", Yes); (50, "R", Yes);
   (51, "s", Yes); (52, "S", Yes); (53, "sort", Text); (55, "time", Text); (58, "timesty", Text); (65, "t", Yes);
   (66, "T", Number); (67, "u", Yes); (70, "U", Yes); (71, "v", Yes); (72, "w", Number); (73, "x", Yes); (74, "X", Yes);
   (75, "1", Yes)]%nat%string.
Definition ls_row (tab : table) (r : nat * string * field) : res str :=
  let '(i, name, f) := r in
  n <- count_of tab i ;;
  if 0 <? n then
    match f with
    | Yes => Ok (lit name ++ ln "=YES")
    | Count => Ok (lit name ++ lit "=" ++ PropConvey.decimal n ++ [NL])
    | Text => s <- text_of tab i ;; Ok (lit name ++ lit "=" ++ s ++ [NL])
    | Number => k <- int_of tab i ;; Ok (lit name ++ lit "=" ++ PropConvey.decimal k ++ [NL])
    end
  else Ok [].
Fixpoint ls_print (tab : table) (rows : list (nat * string * field)) : res str :=
  match rows with
  | [] => Ok []
  | r :: rows => a <- ls_row tab r ;; b <- ls_print tab rows ;; Ok (a ++ b)
  end.
Definition ls_work (argc : Z) (tab : table) : res (str * Z) :=
  t <- ls_print tab ls_rows ;; n <- count_of tab 78 ;; files <- texts_of tab 78 n ;; Ok (t ++ file_lines "filename" 0 files, 0).
(** lines 278-298 *)
Definition ls : frame :=
  {| f_name := lit "ls"; f_help := 76; f_version := 77;
     f_before := ln "List information about the FILE(s) (the current directory by default)." ++
                 ln "Sort entries alphabetically if none of -cftuSUX nor --sort." ++ [NL];
     f_format := columns 25;
     f_after := [NL] ++ ln "SIZE may be (or may be an integer optionally followed by) one of following:" ++
                ln "kB 1000, K 1024, MB 1,000,000, M 1,048,576, and so on for G, T, P, E, Z, Y." ++ [NL] ++
                ln "By default, color is not used to distinguish types of files.  That is" ++
                ln "equivalent to using --color=none.  Using the --color option without the" ++
                ln "optional WHEN argument is equivalent to using --color=always.  With" ++
                ln "--color=auto, color codes are output only if standard output is connected" ++
                ln "to a terminal (tty)." ++ [NL] ++ ln "Report bugs to <foo@bar>.";
     f_work := ls_work |}.

(** ** mv *)
(** lines 80-99 *)
Definition mv_table (argc : Z) : table :=
  [arg_str0 None (o "backup") (o "[CONTROL]") (o "make a backup of each existing destination file");
   arg_lit0 (o "b") None (o "like --backup but does not accept an argument");
   arg_lit0 (o "f") (o "force") (o "do not prompt before overwriting");
   arg_rem None (o "  equivalent to --reply=yes");
   arg_lit0 (o "i") (o "interactive") (o "Prompt before overwriting");
   arg_rem None (o "  equivalent to --reply=yes");
   arg_str0 None (o "reply") (o "{yes,no,query}") (o "specify how to handle the prompt about an");
   arg_rem None (o "  existing destination file");
   arg_lit0 None (o "strip-trailing-slashes") (o "remove any trailing slashes from each SOURCE argument");
   arg_str0 (o "S") (o "suffix") (o "SUFFIX") (o "override the usual backup suffix");
   arg_str0 None (o "target-directory") (o "DIRECTORY") (o "move all SOURCE arguments into DIRECTORY");
   arg_lit0 (o "u") (o "update") (o "copy only when the SOURCE file is newer");
   arg_rem None (o "  than the destination file or when the");
   arg_rem None (o "  destination file is missing");
   arg_lit0 (o "v") (o "verbose") (o "explain what is being done");
   arg_lit0 None (o "help") (o "display this help and exit");
   arg_lit0 None (o "version") (o "display version information and exit");
   arg_filen None None (o "SOURCE") 1 (argc + 2) None;
   arg_rem (o "DEST|DIRECTORY") None].
(** lines 113-117 *)
Definition mv_defaults (tab : table) : table :=
  change 0 (set_text (lit "existing")) (change 6 (set_text (lit "query")) (change 9 (set_text (lit "~")) tab)).
(** targetd->sval[0], as an argument of %s *)
Definition target_of (tab : table) : res str := n <- count_of tab 10 ;; if 0 <? n then text_of tab 10 else UB NullDeref.
(** mymain, lines 39-73 *)
Definition mv_settings (tab : table) : res str :=
  backup_control <- text_of tab 0 ;; backup <- count_of tab 1 ;; force <- count_of tab 2 ;; interactive <- count_of tab 4 ;;
  reply <- text_of tab 6 ;; strip <- count_of tab 8 ;; suffix <- text_of tab 9 ;; update <- count_of tab 11 ;; verbose <- count_of tab 14 ;;
  targetdir <- target_of tab ;;
  Ok (lit "backup = " ++ yes_no backup ++ [NL] ++ lit "backup CONTROL = " ++ backup_control ++ [NL] ++ lit "force = " ++ yes_no force ++ [NL] ++
      lit "interactive mode = " ++ yes_no interactive ++ [NL] ++ lit "reply = " ++ reply ++ [NL] ++
      lit "strip-trailing-slashes = " ++ yes_no strip ++ [NL] ++ lit "suffix = " ++ suffix ++ [NL] ++
      lit "target-directory = " ++ targetdir ++ [NL] ++ lit "update = " ++ yes_no update ++ [NL] ++
      lit "verbose = " ++ yes_no verbose ++ [NL]).
Definition mv_work (argc : Z) (tab : table) : res (str * Z) :=
  verbose <- count_of tab 14 ;;
  settings <- (if verbose =? 0 then Ok [] else mv_settings tab) ;;
  n <- count_of tab 17 ;; files <- texts_of tab 17 n ;; Ok (settings ++ file_lines "file" 0 files, 0).
(** lines 123-140 *)
Definition mv : frame :=
  {| f_name := lit "mv"; f_help := 15; f_version := 16;
     f_before := ln "Rename SOURCE to DEST, or move SOURCE(s) to DIRECTORY." ++ [NL];
     f_format := columns 30;
     f_after := [NL] ++ ln "The backup suffix is ""~"", unless set with --suffix or SIMPLE_BACKUP_SUFFIX." ++
                ln "The version control method may be selected via the --backup option or through" ++
                ln "the VERSION_CONTROL environment variable.  Here are the values:" ++ [NL] ++
                ln "  none, off       never make backups (even if --backup is given)" ++
                ln "  numbered, t     make numbered backups" ++
                ln "  existing, nil   numbered if numbered backups exist, simple otherwise" ++
                ln "  simple, never   always make simple backups" ++ [NL] ++ ln "Report bugs to <foo@bar>.";
     f_work := mv_work |}.
End Files.
