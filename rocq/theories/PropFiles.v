(** C85: the example programs ls and mv, for every command line. *)
From Verif Require Import Base IntModel IntSpec IntProofs FileModel FileSpec DateModel DateSpec GetoptModel ParseModel ParseSpec GetoptProofs ParseIdeal ParseProofs ParseFacts ParseObserve ParseSafe ParseLemmas ArgModel KindsSpec KindsProofs PropKinds CommandSpec CommandProofs PropCommand ReportSpec ReportProofs PropReport.
From Verif Require Import MemModel DstrModel PrintModel PrintProofs PrintFacts ErrorSpec ErrorProofs PropErrors ProgramModel FilesModel PropProgram.
From Verif Require ReparseProofs PrintSpec PropPrint PropTable TableModel PropConvey PropFile ExTable.
From Coq Require Import ZArith List Ascii String Bool Lia.
Import ListNotations.
Open Scope Z_scope.

Section Files.
Context {D : Type}.
Context (strtod : str -> D * nat).
Context (rexmatch : str -> Z -> str -> res bool).
Context (sp : seps).
Context (strftime : str -> tm -> option str).
Notation lm := Long64.
Notation table := (list (entry (body D))).
Notation stored := (stored strtod rexmatch lm sp).
Notation reached := (reached strtod rexmatch lm sp).
Notation shared := (shared strtod rexmatch lm sp).
Notation satisfied := (satisfied strtod rexmatch lm sp).
Notation report := (report strtod rexmatch lm sp).
Notation holds := (ReportSpec.holds strtod rexmatch lm sp).
Notation acceptable := (acceptable strtod rexmatch lm sp).
Notation valued := (valued strtod rexmatch sp).
Notation safe_value := (safe_value lm).
Notation parse := (karg_parse strtod rexmatch lm sp).
Notation main := (main strtod rexmatch lm sp strftime).
Notation frame := (@frame D).
Hypothesis Hd : strtod_contract strtod.

(** ** Specification *)
(** The command line is correct for options that may be given once, some of them with an integer as value. *)
Definition needs (b : body D) (given : list (option str)) : Prop :=
  match b with
  | KRem => True
  | KInt _ => zlen given <= 1 /\ forall x, In (Some x) given -> exists n, int_literal x n /\ int_range n
  | _ => zlen given <= 1
  end.
Definition flawless (tab : table) (evs : list event) : Prop :=
  (forall c v, ~ In (EvErr c v) evs) /\ forall i e, nth_error tab i = Some e -> needs (e_body e) (occurrences i evs).
(** The entry with a given option, and what this option was given. *)
Definition named (s : string) (h : hdr) : bool :=
  match lit s with
  | [_; c] => existsb (ceqb c) (orempty (h_shortopts h))
  | _ :: _ :: long => match h_longopts h with Some l => if list_eq_dec ascii_dec l long then true else false | None => false end
  | _ => false
  end.
Fixpoint place (tab : table) (s : string) : nat :=
  match tab with [] => 0 | e :: tab => if named s (e_hdr e) then 0 else S (place tab s) end.
Definition given_as (tab : table) (s : string) (evs : list event) : list (option str) := occurrences (place tab s) evs.
(** The text of an option: the one given, or else the one that was there before. *)
Definition text_or (d : str) (given : list (option str)) : str := match given with Some s :: _ => s | _ => d end.
(** The line [part] that is printed for an option with label [name] that was given [given]. *)
Inductive says (name : string) : field -> list (option str) -> str -> Prop :=
| says_nothing f : says name f [] []
| says_yes v given : says name Yes (v :: given) (lit name ++ ln "=YES")
| says_count v given : says name Count (v :: given) (lit name ++ lit "=" ++ PropConvey.decimal (zlen (v :: given)) ++ [NL])
| says_text s given : says name Text (Some s :: given) (lit name ++ lit "=" ++ s ++ [NL])
| says_always given : says name Text (None :: given) (lit name ++ ln "=always")
| says_number s n given : int_literal s n -> int_range n -> says name Number (Some s :: given) (lit name ++ lit "=" ++ PropConvey.decimal n ++ [NL]).
(** The files, numbered *)
Fixpoint listing (head : string) (k : Z) (l : list str) : str :=
  match l with [] => [] | x :: l => lit head ++ lit "[" ++ PropConvey.decimal k ++ lit "] = """ ++ x ++ ln """" ++ listing head (k + 1) l end.

(** The text for --version *)
Definition about (name : string) : str :=
  lit "'" ++ lit name ++ ln "' example program for the ""argtable"" command line argument parser." ++ ln "September 2003, Stewart Heitmann".

(** *** ls *)
Notation ls_of jv argc := (ls_defaults (D := D) (ls_table jv argc)).
(** The lines, in this order: the option, what it is called in the line, and what is said of it *)
Definition ls_lines : list (string * string * field) :=
  [("-a", "a", Yes); ("-A", "A", Yes); ("--author", "author", Yes); ("-b", "b", Yes); ("--block-size", "blocksize", Count);
   ("-B", "B", Yes); ("-c", "c", Yes); ("-C", "C", Yes); ("--color", "color", Text); ("-d", "d", Yes); ("-D", "D", Yes);
   ("-f", "f", Yes); ("-F", "F", Yes); ("--format", "format", Text); ("--full-time", "fulltime", Yes); ("-g", "g", Yes);
   ("-G", "G", Yes); ("-h", "h", Yes); ("--si", "si", Yes); ("-H", "H", Yes);
   ("--dereference-command-line-symlink-to-dir", "deref", Yes); ("--indicator-style", "indic", Text); ("-i", "i", Yes);
   ("-I", "I", Text); ("-k", "k", Yes); ("-l", "l", Yes); ("-L", "L", Yes); ("-m", "m", Yes); ("-n", "n", Yes); ("-N", "N", Yes);
   ("-o", "o", Yes); ("-p", "p", Yes); ("-q", "q", Yes); ("--show-control-chars", "shcont", Yes); ("-Q", "Q", Yes);
   ("--quoting-style", "Qstyle", Text); ("-r", "r", Yes); ("-R", "R", Yes); ("-s", "s", Yes); ("-S", "S", Yes);
   ("--sort", "sort", Text); ("--time", "time", Text); ("--time-style", "timesty", Text); ("-t", "t", Yes); ("-T", "T", Number);
   ("-u", "u", Yes); ("-U", "U", Yes); ("-v", "v", Yes); ("-w", "w", Number); ("-x", "x", Yes); ("-X", "X", Yes); ("-1", "1", Yes)]%string.
Definition ls_prints (tab : table) (evs : list event) (pos : list str) (out : str) : Prop :=
  exists parts, Forall2 (fun l part => says (snd (fst l)) (snd l) (given_as tab (fst (fst l)) evs) part) ls_lines parts /\
    out = List.concat parts ++ listing "filename" 0 pos.
Definition ls_usage : str :=
  ln "Usage: ls [-aAbBcCdDfFgGhHiklLmnNopqQrRsStuUvxX1] [--author] [--block-size=SIZE] [--color=[WHEN]] [--format=WORD] [--full-time] [--si] [--dereference-command-line-symlink-to-dir] [--indicator-style=WORD] [-I PATTERN] [--show-control-chars] [--quoting-style=WORD] [--sort=WORD] [--time=WORD] [--time-style=STYLE] [-T COLS] [-w COLS] [--help] [--version] [FILE]..." ++
  ln "List information about the FILE(s) (the current directory by default)." ++
  ln "Sort entries alphabetically if none of -cftuSUX nor --sort." ++ [NL] ++
  ln "  -a, --all                 do not hide entries starting with ." ++
  ln "  -A, --almost-all          do not list implied . and .." ++
  ln "  --author                  print the author of each file" ++
  ln "  -b, --escape              print octal escapes for nongraphic characters" ++
  ln "  --block-size=SIZE         use SIZE-byte blocks" ++
  ln "  -B, --ignore-backups      do not list implied entries ending with ~" ++
  ln "  -c                        with -lt: sort by, and show, ctime (time of last" ++
  ln "                              modification of file status information)" ++
  ln "                              with -l: show ctime and sort by name" ++
  ln "                              otherwise: sort by ctime" ++
  ln "  -C                        list entries by columns" ++
  ln "  --color=[WHEN]            control whether color is used to distinguish file" ++
  ln "                              types.  WHEN may be `never', `always', or `auto'" ++
  ln "  -d, --directory           list directory entries instead of contents," ++
  ln "                              and do not dereference symbolic links" ++
  ln "  -D, --dired               generate output designed for Emacs' dired mode" ++
  ln "  -f                        do not sort, enable -aU, disable -lst" ++
  ln "  -F, --classify            append indicator (one of */=@|) to entries" ++
  ln "  --format=WORD             across -x, commas -m, horizontal -x, long -l," ++
  ln "                              single-column -1, verbose -l, vertical -C" ++
  ln "  --full-time               like -l --time-style=full-iso" ++
  ln "  -g                        like -l, but do not list owner" ++
  ln "  -G, --no-group            inhibit display of group information" ++
  ln "  -h, --human-readable      print sizes in human readable format (e.g., 1K 234M 2G)" ++
  ln "  --si                      likewise, but use powers of 1000 not 1024" ++
  ln "  -H, --dereference-command-line follow symbolic links listed on the command line" ++
  ln "  --dereference-command-line-symlink-to-dir follow each command line symbolic link" ++
  ln "                              that points to a directory" ++
  ln "  --indicator-style=WORD    append indicator with style WORD to entry names:" ++
  ln "                              none (default), classify (-F), file-type (-p)" ++
  ln "  -i, --inode               print index number of each file" ++
  ln "  -I, --ignore=PATTERN      do not list implied entries matching shell PATTERN" ++
  ln "  -k                        like --block-size=1K" ++
  ln "  -l                        use a long listing format" ++
  ln "  -L, --dereference         when showing file information for a symbolic" ++
  ln "                              link, show information for the file the link" ++
  ln "                              references rather than for the link itself" ++
  ln "  -m                        fill width with a comma separated list of entries" ++
  ln "  -n, --numeric-uid-gid     like -l, but list numeric UIDs and GIDs" ++
  ln "  -N, --literal             print raw entry names (don't treat e.g. control" ++
  ln "                              characters specially)" ++
  ln "  -o                        like -l, but do not list group information" ++
  ln "  -p, --file-type           append indicator (one of /=@|) to entries" ++
  ln "  -q, --hide-control-chars  print ? instead of non graphic characters" ++
  ln "  --show-control-chars      show non graphic characters as-is (default" ++
  ln "                            unless program is `ls' and output is a terminal)" ++
  ln "  -Q, --quote-name          enclose entry names in double quotes" ++
  ln "  --quoting-style=WORD      use quoting style WORD for entry names:" ++
  ln "                              literal, locale, shell, shell-always, c, escape" ++
  ln "  -r, --reverse             reverse order while sorting" ++
  ln "  -R, --recursive           list subdirectories recursively" ++
  ln "  -s, --size                print size of each file, in blocks" ++
  ln "  -S                        sort by file size" ++
  ln "  --sort=WORD               extension -X, none -U, size -S, time -t, version -v," ++
  ln "                            status -c, time -t, atime -u, access -u, use -u" ++
  ln "  --time=WORD               show time as WORD instead of modification time:" ++
  ln "                              atime, access, use, ctime or status; use" ++
  ln "                              specified time as sort key if --sort=time" ++
  ln "  --time-style=STYLE        show times using style STYLE:" ++
  ln "                              full-iso, long-iso, iso, locale, +FORMAT" ++
  ln "                            FORMAT is interpreted like `date'; if FORMAT is" ++
  ln "                            FORMAT1<newline>FORMAT2, FORMAT1 applies to" ++
  ln "                            non-recent files and FORMAT2 to recent files;" ++
  ln "                            if STYLE is prefixed with `posix-', STYLE" ++
  ln "                            takes effect only outside the POSIX locale" ++
  ln "  -t                        sort by modification time" ++
  ln "  -T, --tabsize=COLS        assume tab stops at each COLS instead of 8" ++
  ln "  -u                        with -lt: sort by, and show, access time" ++
  ln "                              with -l: show access time and sort by name" ++
  ln "                              otherwise: sort by access time" ++
  ln "  -U                        do not sort; list entries in directory order" ++
  ln "  -v                        sort by version" ++
  ln "  -w, --width=COLS          assume screen width instead of current value" ++
  ln "  -x                        list entries by lines instead of by columns" ++
  ln "  -X                        sort alphabetically by entry extension" ++
  ln "  -1                        list one file per line" ++
  ln "  --help                    display this help and exit" ++
  ln "  --version                 display version information and exit" ++ [NL] ++
  ln "SIZE may be (or may be an integer optionally followed by) one of following:" ++
  ln "kB 1000, K 1024, MB 1,000,000, M 1,048,576, and so on for G, T, P, E, Z, Y." ++ [NL] ++
  ln "By default, color is not used to distinguish types of files.  That is" ++
  ln "equivalent to using --color=none.  Using the --color option without the" ++
  ln "optional WHEN argument is equivalent to using --color=always.  With" ++
  ln "--color=auto, color codes are output only if standard output is connected" ++
  ln "to a terminal (tty)." ++ [NL] ++
  ln "Report bugs to <foo@bar>.".
(** *** mv *)
Notation mv_of argc := (mv_defaults (D := D) (mv_table argc)).
Definition mv_right (tab : table) (evs : list event) (pos : list str) : Prop := flawless tab evs /\ pos <> [].
Definition tell_yes (tab : table) (evs : list event) (head opt : string) : str :=
  lit head ++ lit " = " ++ match given_as tab opt evs with [] => lit "NO" | _ => lit "YES" end ++ [NL].
Definition tell_text (tab : table) (evs : list event) (head default opt : string) : str := lit head ++ lit " = " ++ text_or (lit default) (given_as tab opt evs) ++ [NL].
Definition mv_tells (tab : table) (evs : list event) : str :=
  tell_yes tab evs "backup" "-b" ++ tell_text tab evs "backup CONTROL" "existing" "--backup" ++ tell_yes tab evs "force" "--force" ++
  tell_yes tab evs "interactive mode" "--interactive" ++ tell_text tab evs "reply" "query" "--reply" ++
  tell_yes tab evs "strip-trailing-slashes" "--strip-trailing-slashes" ++ tell_text tab evs "suffix" "~" "--suffix" ++
  tell_text tab evs "target-directory" "" "--target-directory" ++ tell_yes tab evs "update" "--update" ++ tell_yes tab evs "verbose" "--verbose".
Definition mv_prints (tab : table) (evs : list event) (pos : list str) : str :=
  match given_as tab "--verbose" evs with [] => [] | _ => mv_tells tab evs end ++ listing "file" 0 pos.
Definition mv_usage : str :=
  ln "Usage: mv [-bfiuv] [--backup=[CONTROL]] [--reply={yes,no,query}] [--strip-trailing-slashes] [-S SUFFIX] [--target-directory=DIRECTORY] [--help] [--version] SOURCE [SOURCE]... DEST|DIRECTORY" ++
  ln "Rename SOURCE to DEST, or move SOURCE(s) to DIRECTORY." ++ [NL] ++
  ln "  --backup=[CONTROL]             make a backup of each existing destination file" ++
  ln "  -b                             like --backup but does not accept an argument" ++
  ln "  -f, --force                    do not prompt before overwriting" ++
  ln "                                   equivalent to --reply=yes" ++
  ln "  -i, --interactive              Prompt before overwriting" ++
  ln "                                   equivalent to --reply=yes" ++
  ln "  --reply={yes,no,query}         specify how to handle the prompt about an" ++
  ln "                                   existing destination file" ++
  ln "  --strip-trailing-slashes       remove any trailing slashes from each SOURCE argument" ++
  ln "  -S, --suffix=SUFFIX            override the usual backup suffix" ++
  ln "  --target-directory=DIRECTORY   move all SOURCE arguments into DIRECTORY" ++
  ln "  -u, --update                   copy only when the SOURCE file is newer" ++
  ln "                                   than the destination file or when the" ++
  ln "                                   destination file is missing" ++
  ln "  -v, --verbose                  explain what is being done" ++
  ln "  --help                         display this help and exit" ++
  ln "  --version                      display version information and exit" ++ [NL] ++
  ln "The backup suffix is ""~"", unless set with --suffix or SIMPLE_BACKUP_SUFFIX." ++
  ln "The version control method may be selected via the --backup option or through" ++
  ln "the VERSION_CONTROL environment variable.  Here are the values:" ++ [NL] ++
  ln "  none, off       never make backups (even if --backup is given)" ++
  ln "  numbered, t     make numbered backups" ++
  ln "  existing, nil   numbered if numbered backups exist, simple otherwise" ++
  ln "  simple, never   always make simple backups" ++ [NL] ++
  ln "Report bugs to <foo@bar>.".

(** ** Tables with one entry for positional arguments *)
(** An entry that takes no positional argument *)
Definition aside (e : entry (body D)) : Prop := no_options (e_hdr e) -> kcount (e_body e) = None.
Definition run_mid (n : nat) (pos : list str) (m : nat) : list (list str) := repeat [] n ++ pos :: repeat [] m.
Lemma nth_repeat_nil n i : (i < n)%nat -> nth_error (repeat (@nil str) n) i = Some [].
Proof.
  intros H. destruct (nth_error (repeat [] n) i) as [r|] eqn:E; [|apply nth_error_None in E; rewrite repeat_length in E; lia].
  apply nth_error_In, repeat_spec in E. congruence.
Qed.
Lemma run_mid_nth n pos m i : (i < n + S m)%nat -> nth_error (run_mid n pos m) i = Some (if Nat.eqb i n then pos else []).
Proof.
  intros H. unfold run_mid. destruct (Nat.lt_ge_cases i n) as [L|L].
  - rewrite nth_error_app1 by (rewrite repeat_length; auto). destruct (Nat.eqb_spec i n); [lia|]. apply nth_repeat_nil; auto.
  - rewrite nth_error_app2 by (rewrite repeat_length; auto). rewrite repeat_length. destruct (Nat.eqb_spec i n) as [->|N].
    + rewrite Nat.sub_diag. reflexivity.
    + destruct (i - n)%nat as [|k] eqn:E; [lia|]. cbn [nth_error]. apply nth_repeat_nil. lia.
Qed.
Lemma concat_nil n : List.concat (repeat (@nil str) n) = [].
Proof. induction n; auto. Qed.
Lemma shared_mid (front : table) mid (back : table) os pos runs : Forall aside front -> Forall aside back -> shared (front ++ mid :: back) os pos runs ->
  runs = run_mid (List.length front) pos (List.length back).
Proof.
  intros Hf Hb (E & L & H). rewrite app_length in L. cbn [List.length] in L. rewrite Forall_forall in Hf, Hb.
  assert (Hr : forall i run, nth_error runs i = Some run -> i <> List.length front -> run = []).
  { intros i run Hi Hn. destruct run as [|x run]; auto. exfalso.
    assert (Li : (i < List.length runs)%nat) by (apply nth_error_Some; congruence).
    destruct (nth_error (front ++ mid :: back) i) as [e|] eqn:Ee; [|apply nth_error_None in Ee; rewrite app_length in Ee; cbn in Ee; lia].
    destruct (H i e _ Ee Hi) as (H1 & _). destruct H1 as (N1 & N2); [discriminate|]. apply N2.
    destruct (Nat.lt_ge_cases i (List.length front)) as [Lt|Ge].
    - rewrite nth_error_app1 in Ee by auto. apply Hf; auto. eapply nth_error_In; eauto.
    - rewrite nth_error_app2 in Ee by auto. destruct (i - List.length front)%nat as [|k] eqn:Ek; [lia|]. cbn [nth_error] in Ee. apply Hb; auto. eapply nth_error_In; eauto. }
  assert (G : forall n m (rs : list (list str)), List.length rs = (n + S m)%nat -> (forall i run, nth_error rs i = Some run -> i <> n -> run = []) -> rs = run_mid n (List.concat rs) m).
  { induction n as [|n IH]; intros m rs Ln Hrs.
    - destruct rs as [|r rs]; [discriminate|]. unfold run_mid. cbn [repeat app List.concat].
      assert (Hz : rs = repeat [] m).
      { cbn in Ln. injection Ln as <-. clear - Hrs. assert (K : forall run, In run rs -> run = []).
        { intros run Hi. apply In_nth_error in Hi as (k & Hk). apply (Hrs (S k) run Hk). lia. }
        clear Hrs. induction rs as [|x rs IH]; [reflexivity|]. cbn. rewrite (K x) by (left; auto). f_equal. apply IH. intros y Hy. apply K. right. auto. }
      rewrite Hz, concat_nil, app_nil_r. reflexivity.
    - destruct rs as [|r rs]; [discriminate|]. rewrite (Hrs 0%nat r eq_refl) by lia. unfold run_mid. cbn [List.concat app repeat]. f_equal. apply IH; [cbn in Ln; lia|]. intros i run Hi Hlt. apply (Hrs (S i)); [exact Hi|lia]. }
  rewrite E. apply G; auto; lia.
Qed.
Lemma shared_mid_iff (front : table) mid (back : table) os pos : Forall aside front -> Forall aside back ->
  (shared (front ++ mid :: back) os pos (run_mid (List.length front) pos (List.length back)) <->
   (forall i e, nth_error (front ++ mid :: back) i = Some e -> i <> List.length front -> satisfied e (given_to i os)) /\
   (pos <> [] -> no_options (e_hdr mid) /\ kcount (e_body mid) <> None) /\
   satisfied mid (given_to (List.length front) os ++ map Some pos)).
Proof.
  intros Hf Hb. set (n := List.length front). set (m := List.length back).
  assert (Hl : nth_error (front ++ mid :: back) n = Some mid) by (rewrite nth_error_app2, Nat.sub_diag by auto; reflexivity).
  assert (Hn : nth_error (run_mid n pos m) n = Some pos) by (rewrite run_mid_nth, Nat.eqb_refl by lia; reflexivity).
  assert (Len : List.length (front ++ mid :: back) = (n + S m)%nat) by (rewrite app_length; reflexivity).
  assert (Lr : List.length (run_mid n pos m) = (n + S m)%nat) by (unfold run_mid; rewrite app_length; cbn [List.length]; rewrite !repeat_length; reflexivity).
  split.
  - intros (_ & _ & H). split; [|split].
    + intros i e He Hi. assert ((i < n + S m)%nat) by (rewrite <- Len; apply nth_error_Some; congruence).
      destruct (H i e [] He) as (_ & K & _); [rewrite run_mid_nth by auto; destruct (Nat.eqb_spec i n); [contradiction|reflexivity]|]. cbn [map] in K. rewrite app_nil_r in K. exact K.
    + exact (proj1 (H n mid pos Hl Hn)).
    + exact (proj1 (proj2 (H n mid pos Hl Hn))).
  - intros (H1 & H2 & H3). split; [|split].
    + unfold run_mid. rewrite concat_app. cbn [List.concat]. rewrite !concat_nil, app_nil_r. reflexivity.
    + rewrite Lr, Len. reflexivity.
    + intros i e run He Hr. cbv zeta. assert (Li : (i < n + S m)%nat) by (rewrite <- Len; apply nth_error_Some; congruence). rewrite run_mid_nth in Hr by auto. destruct (Nat.eqb_spec i n) as [->|Ni].
      * rewrite Hl in He. injection He as <-. injection Hr as <-. split; [auto|]. split; [auto|]. intros _ a Ha. exfalso.
        assert (E : List.concat (skipn (S n) (run_mid n pos m)) = []).
        { unfold run_mid. rewrite skipn_app, repeat_length. rewrite (skipn_all2 (repeat [] n)) by (rewrite repeat_length; lia). replace (S n - n)%nat with 1%nat by lia. cbn [skipn app]. apply concat_nil. }
        rewrite E in Ha. discriminate.
      * injection Hr as <-. cbn [map]. rewrite app_nil_r. split; [congruence|]. split; [apply H1; auto|]. intros Hno a _ (K & _). apply K.
        rewrite Forall_forall in Hf, Hb. destruct (Nat.lt_ge_cases i n) as [Lt|Ge].
        -- rewrite nth_error_app1 in He by auto. apply Hf; auto. eapply nth_error_In; eauto.
        -- rewrite nth_error_app2 in He by auto. fold n in He. destruct (i - n)%nat as [|k] eqn:Ek; [lia|]. cbn [nth_error] in He. apply Hb; auto. eapply nth_error_In; eauto.
Qed.

(** ** Options that may be given once *)
Definition once (e : entry (body D)) : bool := (h_mincount (e_hdr e) =? 0) && (h_maxcount (e_hdr e) =? 1).
Definition optionb (e : entry (body D)) : bool := match h_shortopts (e_hdr e), h_longopts (e_hdr e) with None, None => false | _, _ => true end.
Definition simpleb (e : entry (body D)) : bool :=
  match e_body e with
  | KRem => true
  | KLit _ => optionb e && once e
  | KInt p => optionb e && once e && h_hasvalue (e_hdr e) && negb (h_hasoptvalue (e_hdr e)) && match int_ival p with [_] => true | _ => false end
  | KStr p => optionb e && once e && (str_count p =? 0) && h_hasvalue (e_hdr e) && match str_sval p with [_] => true | _ => false end
  | _ => false
  end.
Lemma optionb_ok e : optionb e = true -> ~ no_options (e_hdr e).
Proof. unfold optionb. intros H [K1 K2]. rewrite K1, K2 in H. discriminate. Qed.
Lemma once_ok e : once e = true -> h_mincount (e_hdr e) = 0 /\ h_maxcount (e_hdr e) = 1.
Proof. unfold once. intros H. apply andb_prop in H as [H1 H2]. apply Z.eqb_eq in H1, H2. auto. Qed.
Lemma simple_aside e : simpleb e = true -> aside e.
Proof.
  unfold simpleb, aside. intros H N. destruct (e_body e); try discriminate; try reflexivity; exfalso; apply (optionb_ok e); auto; repeat (apply andb_prop in H as [H ?]); auto.
Qed.
Lemma zlen_one {A} (l : list A) : zlen l <= 1 -> l = [] \/ exists x, l = [x].
Proof. destruct l as [|x [|y l]]; intros H; [auto|right; eauto|]. rewrite !zlen_cons in H. pose proof (zlen_nonneg l). lia. Qed.
Lemma simple_satisfied e given : simpleb e = true -> (is_int (e_body e) = true -> ~ In None given) -> (satisfied e given <-> needs (e_body e) given).
Proof.
  intros Hs Hn. unfold simpleb, satisfied, CommandSpec.satisfied in *. destruct (e_body e) as [k|p| |p| | | |] eqn:Eb; try discriminate; cbn [needs].
  - apply andb_prop in Hs as [_ Hs]. apply once_ok in Hs as [H1 H2]. rewrite H1, H2. split; [intros H; apply H; discriminate|]. intros H _. split; [pose proof (zlen_nonneg given); lia|]. eapply lit_acceptable; eauto.
  - repeat (apply andb_prop in Hs as [Hs ?]). destruct (once_ok e) as [H1' H2']; [assumption|]. rewrite H1', H2'.
    destruct (int_ival p) as [|v0 [|]] eqn:Ep; try discriminate. unfold acceptable, CommandSpec.acceptable. rewrite Eb. cbn [slots_reset slots]. rewrite Ep. cbn [map]. split.
    + intros H'. destruct H' as (H3 & l & _ & H4); [discriminate|]. split; [lia|]. intros x Hx. apply In_nth_error in Hx as (j & Hj). specialize (H4 j). rewrite Hj in H4.
      destruct H4 as (w0 & w & _ & _ & n & _ & Hw). exists n. auto.
    + intros (H3 & H4) _. split; [pose proof (zlen_nonneg given); lia|]. destruct (zlen_one given H3) as [->|([x|] & ->)].
      * exists [VInt v0]. split; [exact I|]. intros [|j]; reflexivity.
      * destruct (H4 x (or_introl eq_refl)) as (n & Hl). exists [VInt n]. split; [exact I|]. intros [|[|j]]; cbn [nth_error]; auto. exists (VInt v0), (VInt n). repeat split; auto. exists n. auto.
      * exfalso. apply Hn; [reflexivity|left; auto].
  - repeat (apply andb_prop in Hs as [Hs ?]). destruct (once_ok e) as [H1' H2']; [assumption|]. rewrite H1', H2'. match goal with K : (str_count p =? 0) = true |- _ => apply Z.eqb_eq in K; rename K into Ec end.
    destruct (str_sval p) as [|v0 [|]] eqn:Ep; try discriminate. unfold acceptable, CommandSpec.acceptable. rewrite Eb. cbn [slots_reset]. rewrite Ep, Ec. cbn [Z.to_nat repeat skipn app map]. split.
    + intros H'. apply H'. discriminate.
    + intros H3 _. split; [pose proof (zlen_nonneg given); lia|]. destruct (zlen_one given H3) as [->|([x|] & ->)].
      * exists [VText v0]. split; [exact I|]. intros [|j]; reflexivity.
      * exists [VText x]. split; [exact I|]. intros [|[|j]]; cbn [nth_error]; auto. exists (VText v0), (VText x). repeat split; auto.
      * exists [VText v0]. split; [exact I|]. intros [|[|j]]; reflexivity.
  - split; [auto|]. intros _ K. exfalso. apply K. reflexivity.
Qed.
(** The entry for the files *)
Lemma file_satisfied so lo dt mn mx gl ss : 0 <= mn <= mx -> zlen ss <= mx -> (satisfied (arg_filen so lo dt mn mx gl) (map Some ss) <-> mn <= zlen ss).
Proof.
  intros Hm Hl. assert (F : foolproof mn mx = mx) by (unfold foolproof; destruct (Z.ltb_spec mx mn); lia).
  assert (L : zlen (map Some ss) = zlen ss) by (unfold zlen; rewrite map_length; reflexivity). unfold satisfied, CommandSpec.satisfied. rewrite L. split.
  - intros H. destruct H as (H & _); [discriminate|]. cbn in H. lia.
  - intros H _. split; [cbn [h_mincount h_maxcount e_hdr arg_filen mkentry mkhdr]; rewrite F; lia|].
    apply stored_reset_size; [discriminate| |intros x v0 _; apply file_denotes]. cbn [arg_filen mkentry e_body slots_reset slots file_name file_base file_ext]. rewrite F.
    assert (Hf : forall k, List.length (files (D := D) (repeat [] k) (repeat [] k) (repeat [] k)) = k) by (induction k; cbn; auto). unfold filled, zlen in *. rewrite Hf. lia.
Qed.
(** A table of such options, the files, and remarks is satisfied by just the flawless command lines. *)
Section Shape.
Context (front back : table) (dt gl : option str) (mn argc : Z).
Notation mid := (arg_filen None None dt mn (argc + 2) gl).
Notation tab := (front ++ mid :: back).
Hypothesis simple_front : forallb simpleb front = true.
Hypothesis simple_back : forallb simpleb back = true.
Hypothesis Hmn : 0 <= mn <= 1.
Lemma front_aside : Forall aside front.
Proof. rewrite forallb_forall in simple_front. apply Forall_forall. intros e He. apply simple_aside; auto. Qed.
Lemma back_aside : Forall aside back.
Proof. rewrite forallb_forall in simple_back. apply Forall_forall. intros e He. apply simple_aside; auto. Qed.
Lemma tab_simple i e : nth_error tab i = Some e -> i <> List.length front -> simpleb e = true.
Proof.
  rewrite forallb_forall in simple_front, simple_back. intros He Hi. destruct (Nat.lt_ge_cases i (List.length front)) as [Lt|Ge].
  - rewrite nth_error_app1 in He by auto. apply simple_front. eapply nth_error_In; eauto.
  - rewrite nth_error_app2 in He by auto. destruct (i - List.length front)%nat as [|k] eqn:Ek; [lia|]. cbn [nth_error] in He. apply simple_back. eapply nth_error_In; eauto.
Qed.
Lemma tab_mid : nth_error tab (List.length front) = Some mid.
Proof. rewrite nth_error_app2, Nat.sub_diag by auto. reflexivity. Qed.
Lemma simple_given posix rest os pos i e : nth_error tab i = Some e -> i <> List.length front -> spells (map e_hdr tab) posix rest os pos ->
  is_int (e_body e) = true -> ~ In None (given_to i os).
Proof.
  intros He Hi Hs Hn K. destruct (given_dispatched tab posix rest os pos i None Hs K) as (e' & He' & _ & H & _). rewrite He in He'. injection He' as <-.
  pose proof (tab_simple i e He Hi) as Hsi. unfold simpleb in Hsi. destruct (e_body e); try discriminate. repeat (apply andb_prop in Hsi as [Hsi ?]).
  destruct (H eq_refl) as [H'|H']; rewrite H' in *; discriminate.
Qed.
Lemma mid_given posix rest os pos : spells (map e_hdr tab) posix rest os pos -> given_to (List.length front) os = [].
Proof. intros Hs. eapply (given_none tab); [exact Hs|exact tab_mid|split; reflexivity]. Qed.
Lemma shared_flawless posix rest os pos : argc = Z.succ (zlen rest) -> spells (map e_hdr tab) posix rest os pos ->
  ((exists runs, shared tab os pos runs) <-> flawless tab (evs_of os) /\ mn <= zlen pos).
Proof.
  intros Ha Hs. assert (Hr : reading (map e_hdr tab) posix rest (evs_of os) pos) by (apply reading_iff, spells_iff; exact Hs). apply reading_shorter in Hr.
  assert (Hle : zlen pos <= argc + 2) by (unfold zlen in *; lia). assert (Hrn : 0 <= zlen rest) by apply zlen_nonneg. pose proof (mid_given posix rest os pos Hs) as Hm.
  assert (NE : forall c v, ~ In (EvErr c v) (evs_of os)) by (intros c v K; unfold evs_of in K; apply in_map_iff in K as (? & ? & _); discriminate).
  assert (Sat : forall i e, nth_error tab i = Some e -> i <> List.length front -> (satisfied e (given_to i os) <-> needs (e_body e) (given_to i os))).
  { intros i e He Hi. apply simple_satisfied; [eapply tab_simple; eauto|]. intros Hn. eapply simple_given; eauto. }
  split.
  - intros (runs & H). pose proof (shared_mid _ _ _ _ _ _ front_aside back_aside H) as ->. apply (shared_mid_iff _ _ _ _ _ front_aside back_aside) in H as (H1 & _ & H3).
    rewrite Hm in H3. cbn [app] in H3. apply file_satisfied in H3; try lia. split; [split; [exact NE|]|exact H3].
    intros i e He. rewrite given_evs. destruct (Nat.eq_dec i (List.length front)) as [->|Ni].
    + rewrite tab_mid in He. injection He as <-. cbn. rewrite Hm. cbn. lia.
    + apply Sat; auto.
  - intros ((_ & H) & Hp). exists (run_mid (List.length front) pos (List.length back)). apply (shared_mid_iff _ _ _ _ _ front_aside back_aside). split; [|split].
    + intros i e He Ni. apply Sat; auto. specialize (H i e He). rewrite given_evs in H. exact H.
    + intros _. split; [split; reflexivity|discriminate].
    + rewrite Hm. cbn [app]. apply file_satisfied; auto; lia.
Qed.

(** ** Values *)
Section Values.
Context (posix : bool) (rest : list str) (os : list occurrence) (pos : list str) (runs : list (list str)) (tab' : table).
Hypothesis Hs : spells (map e_hdr tab) posix rest os pos.
Hypothesis Hsh : shared tab os pos runs.
Hypothesis Hv : valued tab os runs tab'.
Lemma runs_nth i : i <> List.length front -> (i < List.length tab)%nat -> nth_error runs i = Some [].
Proof.
  intros Ni Li. rewrite (shared_mid _ _ _ _ _ _ front_aside back_aside Hsh). rewrite app_length in Li. rewrite run_mid_nth by (cbn in Li; lia). destruct (Nat.eqb_spec i (List.length front)); [contradiction|reflexivity].
Qed.
Lemma runs_mid : nth_error runs (List.length front) = Some pos.
Proof. rewrite (shared_mid _ _ _ _ _ _ front_aside back_aside Hsh). rewrite run_mid_nth, Nat.eqb_refl by lia. reflexivity. Qed.
Lemma count_is i e : nth_error tab i = Some e -> i <> List.length front -> kcount (e_body e) <> None -> count_of tab' i = Ok (zlen (occurrences i (evs_of os))).
Proof.
  intros He Ni Hk. assert ((i < List.length tab)%nat) by (apply nth_error_Some; congruence).
  erewrite (valued_count _ _ _ _ _ _ _ _ _ _ Hv He (runs_nth i Ni ltac:(assumption)) Hk). cbn [map]. rewrite app_nil_r, given_evs. reflexivity.
Qed.
Lemma count_files : count_of tab' (List.length front) = Ok (zlen pos).
Proof.
  erewrite (valued_count _ _ _ _ _ _ _ _ _ _ Hv tab_mid runs_mid) by discriminate. rewrite (mid_given _ _ _ _ Hs). cbn [app]. unfold zlen. rewrite map_length. reflexivity.
Qed.
Lemma files_are : texts_of tab' (List.length front) (zlen pos) = Ok pos.
Proof. eapply (valued_texts _ _ _ _ _ _ _ _ _ _ _ Hv tab_mid runs_mid); [exact I|]. rewrite (mid_given _ _ _ _ Hs). reflexivity. Qed.
Lemma text_is i e p d : nth_error tab i = Some e -> i <> List.length front -> e_body e = KStr p -> str_sval p = [d] ->
  text_of tab' i = Ok (text_or d (occurrences i (evs_of os))).
Proof.
  intros He Ni Hb Hp. assert (Li : (i < List.length tab)%nat) by (apply nth_error_Some; congruence). pose proof (tab_simple i e He Ni) as Si.
  destruct (proj2 Hv i e [] He (runs_nth i Ni Li)) as (e' & He' & _ & Hc). cbv zeta in Hc. cbn [map] in Hc. rewrite app_nil_r in Hc. destruct Hc as (_ & Hc); [rewrite Hb; discriminate|].
  pose proof (valued_sig _ _ _ _ _ _ _ _ _ _ Hv He He') as Hsg. rewrite Hb in Hsg, Hc. unfold simpleb in Si. rewrite Hb in Si. repeat (apply andb_prop in Si as [Si ?]).
  match goal with K : (str_count p =? 0) = true |- _ => apply Z.eqb_eq in K; rename K into Ec end. cbn [slots_reset] in Hc. rewrite Ec, Hp in Hc. cbn [Z.to_nat repeat skipn app map] in Hc.
  rewrite given_evs. unfold text_of, texts_of. rewrite He'. cbn [option_map]. change (Z.to_nat 1) with 1%nat. destruct Hc as [_ Hc]. specialize (Hc 0%nat).
  destruct (e_body e') as [| | |p'| | | |]; try discriminate Hsg. cbn [slots] in Hc. unfold text_or. destruct (given_to i os) as [|[x|] l]; cbn [nth_error] in Hc.
  - destruct (str_sval p') as [|y l']; cbn in Hc |- *; [discriminate|]. injection Hc as ->. rewrite app_nil_r. reflexivity.
  - destruct Hc as (v0 & v & _ & K & Kd). cbn [denotes] in Kd. subst v. destruct (str_sval p') as [|y l']; cbn in K |- *; [discriminate|]. injection K as ->. rewrite app_nil_r. reflexivity.
  - destruct (str_sval p') as [|y l']; cbn in Hc |- *; [discriminate|]. injection Hc as ->. rewrite app_nil_r. reflexivity.
Qed.
Lemma number_is i e p x l : nth_error tab i = Some e -> i <> List.length front -> e_body e = KInt p -> occurrences i (evs_of os) = x :: l ->
  exists s n, x = Some s /\ int_of tab' i = Ok n /\ int_literal s n /\ int_range n.
Proof.
  intros He Ni Hb Ho. assert (Li : (i < List.length tab)%nat) by (apply nth_error_Some; congruence). rewrite given_evs in Ho.
  assert (NN : ~ In None (given_to i os)) by (eapply simple_given; eauto; rewrite Hb; reflexivity).
  destruct (proj2 Hv i e [] He (runs_nth i Ni Li)) as (e' & He' & _ & Hc). cbv zeta in Hc. cbn [map] in Hc. rewrite app_nil_r in Hc. destruct Hc as (_ & _ & Hc); [rewrite Hb; discriminate|].
  pose proof (valued_sig _ _ _ _ _ _ _ _ _ _ Hv He He') as Hsg. rewrite Hb in Hsg, Hc. specialize (Hc 0%nat). rewrite Ho in Hc, NN. cbn [nth_error] in Hc.
  destruct x as [x|]; [|exfalso; apply NN; left; reflexivity]. destruct Hc as (v0 & v & _ & K & n & -> & Hn). exists x, n. split; [reflexivity|]. split; [|apply Hn; reflexivity].
  unfold int_of. rewrite He'. cbn [option_map]. destruct (e_body e') as [|p'| | | | | |]; try discriminate Hsg. cbn [slots] in K. unfold aget. cbn. destruct (int_ival p') as [|y l']; [discriminate|]. cbn in K. congruence.
Qed.
End Values.
End Shape.

Ltac made_one := split; [constructor; unfold foolproof; repeat match goal with |- context [?a <? ?b] => destruct (Z.ltb_spec a b) end; lia|split; [exact I|try discriminate; reflexivity]].
Ltac texts_clit := repeat (apply Forall_cons; [repeat split; apply literal; vm_compute; reflexivity|]); constructor.
Ltac counts_tac := repeat (apply Forall_cons; [apply counts_small; cbn [h_mincount h_maxcount e_hdr arg_lit0 arg_int0 arg_str0 arg_rem arg_litn arg_strn arg_intn arg_filen mkentry mkhdr set_text with_optvalue];
  unfold foolproof, INT_MAX in *; repeat match goal with |- context [?a <? ?b] => destruct (Z.ltb_spec a b) end; lia|]); constructor.
(** ** ls *)
Lemma file_lines_listing head l : forall k, file_lines head k l = listing head k l.
Proof. induction l as [|x l IH]; intros k; [reflexivity|]. cbn [file_lines listing]. rewrite IH. reflexivity. Qed.
Section Ls.
Context (jv : nat -> Z).
Notation lst argc := (ls_of jv argc).
Definition ls_front : table := firstn 78 (lst 0).
Lemma ls_split argc : lst argc = ls_front ++ arg_filen None None (Some (lit "FILE")) 0 (argc + 2) None :: [].
Proof. reflexivity. Qed.
Lemma ls_front_simple : forallb simpleb ls_front = true.
Proof. vm_compute. reflexivity. Qed.
Lemma ls_reached argc : 0 <= argc -> reached true (lst argc).
Proof.
  intros Ha. apply (reached_preset _ _ _ _ _ (change 11 with_optvalue (ls_table jv argc))).
  - apply reached_new. unfold ls_table. cbn [change]. repeat (apply Forall_cons; [first [made_one|split; [apply built_optvalue, built_str; vm_compute; discriminate|split; [exact I|reflexivity]]]|]). constructor.
  - unfold ls_defaults, ls_table. cbn [change]. repeat (apply Forall2_cons; [repeat split|]). constructor.
Qed.
Lemma ls_short argc : Forall short_texts (map e_hdr (lst argc)).
Proof. repeat (apply Forall_cons; [split; vm_compute; discriminate|]). constructor. Qed.
Definition ls_used (argc : Z) : str :=
  lit "Usage: " ++ f_name (@ls D) ++ PrintSpec.syntax_line brief_of (map e_hdr (lst argc)) ++ [NL] ++ f_before (@ls D) ++
    PropPrint.glossary_text (gf_text (f_format (@ls D))) verbose_of (map e_hdr (lst argc)) ++ f_after (@ls D).
Lemma syntax_last (front : table) (e : entry (body D)) : PrintSpec.is_switch (e_hdr e) = false -> brief_of (e_hdr e) <> [] ->
  PrintSpec.syntax_line brief_of (map e_hdr (front ++ [e])) = PrintSpec.cluster (map e_hdr (front ++ [e])) ++
    flat_map (fun h => if PrintSpec.is_switch h then [] else match brief_of h with [] => [] | s => PrintSpec.occurrences (h_mincount h) (h_maxcount h) s end) (map e_hdr front) ++
    PrintSpec.occurrences (h_mincount (e_hdr e)) (h_maxcount (e_hdr e)) (brief_of (e_hdr e)).
Proof.
  intros H1 H2. unfold PrintSpec.syntax_line. f_equal. rewrite map_app, flat_map_app. f_equal. cbn [map flat_map]. rewrite H1, app_nil_r. destruct (brief_of (e_hdr e)); congruence.
Qed.
Lemma ls_usage_ok argc : 0 < argc -> ls_used argc = ls_usage.
Proof.
  intros Ha. transitivity (ls_used 1); [|vm_compute; reflexivity]. 
  assert (E : PrintSpec.syntax_line brief_of (map e_hdr (lst argc)) = PrintSpec.syntax_line brief_of (map e_hdr (lst 1))); [|assert (E2 : PropPrint.glossary_text (gf_text (f_format (@ls D))) verbose_of (map e_hdr (lst argc)) = PropPrint.glossary_text (gf_text (f_format (@ls D))) verbose_of (map e_hdr (lst 1))) by (vm_compute; reflexivity); unfold ls_used; rewrite E, E2; reflexivity].
  rewrite !ls_split, !syntax_last by (reflexivity || (vm_compute; discriminate)). apply (f_equal2 (@app ascii)); [vm_compute; reflexivity|]. apply (f_equal2 (@app ascii)); [reflexivity|].
  cbn [arg_filen mkentry e_hdr h_mincount h_maxcount]. cbn [mkhdr h_mincount h_maxcount]. rewrite fool, occurrences_many by lia. reflexivity.
Qed.
Lemma ls_rows_lines argc : map (fun l => (place (lst argc) (fst (fst l)), snd (fst l), snd l)) ls_lines = ls_rows.
Proof. vm_compute. reflexivity. Qed.
(** The rows that are printed are about options of the right kind. *)
Definition rowb (tab : table) (r : nat * string * field) : bool :=
  match nth_error tab (fst (fst r)) with
  | Some e =>
    match snd r, e_body e with
    | (Yes | Count), (KLit _ | KInt _) => true
    | Text, KStr p => match str_sval p with [d] => negb (h_hasoptvalue (e_hdr e)) || (if list_eq_dec ascii_dec d (lit "always") then true else false) | _ => false end
    | Number, KInt _ => true
    | _, _ => false
    end
  | None => false
  end.
Lemma ls_rows_good argc : forallb (fun r => rowb (lst argc) r && negb (Nat.eqb (fst (fst r)) 78)) ls_rows = true.
Proof. vm_compute. reflexivity. Qed.
Section Work.
Context (posix : bool) (rest : list str) (os : list occurrence) (pos : list str) (runs : list (list str)) (tab' : table) (argc : Z).
Hypothesis Hs : spells (map e_hdr (lst argc)) posix rest os pos.
Hypothesis Hsh : shared (lst argc) os pos runs.
Hypothesis Hv : valued (lst argc) os runs tab'.
Lemma row_says r : rowb (lst argc) r = true -> fst (fst r) <> 78%nat ->
  exists part, ls_row tab' r = Ok part /\ says (snd (fst r)) (snd r) (occurrences (fst (fst r)) (evs_of os)) part.
Proof.
  destruct r as [[i name] f]. cbn [fst snd]. unfold rowb. cbn [fst snd]. intros Hr Hi. destruct (nth_error (lst argc) i) as [e|] eqn:He; [|discriminate].
  pose proof (fun p1 p2 => count_is ls_front [] (Some (lit "FILE")) None 0 argc ls_front_simple eq_refl os pos runs tab' Hsh Hv i e p1 Hi p2) as Hc. rewrite <- (ls_split argc) in Hc. specialize (Hc He).
  unfold ls_row. destruct (kcount (e_body e)) eqn:Ek; [|destruct f, (e_body e); discriminate]. rewrite Hc by discriminate. cbn [bind].
  destruct (occurrences i (evs_of os)) as [|v l] eqn:Eo; [exists []; split; [reflexivity|constructor]|].
  assert (0 < zlen (v :: l)) by (rewrite zlen_cons; pose proof (zlen_nonneg l); lia). destruct (Z.ltb_spec 0 (zlen (v :: l))); [|lia].
  destruct f.
  - eexists. split; [reflexivity|constructor].
  - eexists. split; [reflexivity|constructor].
  - destruct (e_body e) as [| | |p| | | |] eqn:Eb; try discriminate. destruct (str_sval p) as [|d [|]] eqn:Ep; try discriminate.
    pose proof (fun p1 => text_is ls_front [] (Some (lit "FILE")) None 0 argc ls_front_simple eq_refl os pos runs tab' Hsh Hv i e p d p1 Hi Eb Ep) as Ht. rewrite <- (ls_split argc) in Ht. rewrite (Ht He), Eo. cbn [bind text_or].
    eexists. split; [reflexivity|]. destruct v as [v|]; [constructor|].
    assert (Hg : In None (given_to i os)) by (rewrite <- given_evs, Eo; left; reflexivity). destruct (given_dispatched _ _ _ _ _ _ _ Hs Hg) as (e' & He' & _ & Hn & _).
    rewrite He in He'. injection He' as <-. assert (Ho : h_hasoptvalue (e_hdr e) = true).
    { destruct (Hn eq_refl) as [K|K]; [|exact K]. pose proof (tab_simple ls_front [] (Some (lit "FILE")) None 0 argc ls_front_simple eq_refl i e) as Si. rewrite <- (ls_split argc) in Si. specialize (Si He Hi). unfold simpleb in Si. rewrite Eb in Si.
      repeat (apply andb_prop in Si as [Si ?]). congruence. }
    rewrite Ho in Hr. cbn [negb orb] in Hr. destruct (list_eq_dec ascii_dec d (lit "always")) as [->|]; [|discriminate]. exact (says_always name l).
  - destruct (e_body e) as [|p| | | | | |] eqn:Eb; try discriminate.
    destruct (number_is ls_front [] (Some (lit "FILE")) None 0 argc ls_front_simple eq_refl posix rest os pos runs tab') with (i := i) (e := e) (p := p) (x := v) (l := l) as (s & n & -> & E & H1 & H2); rewrite <- ?(ls_split argc); auto.
    rewrite E. cbn [bind]. eexists. split; [reflexivity|]. constructor; auto.
Qed.
Lemma print_says : forall rows, forallb (fun r => rowb (lst argc) r && negb (Nat.eqb (fst (fst r)) 78)) rows = true ->
  exists parts, ls_print tab' rows = Ok (List.concat parts) /\ Forall2 (fun r part => says (snd (fst r)) (snd r) (occurrences (fst (fst r)) (evs_of os)) part) rows parts.
Proof.
  induction rows as [|r rows IH]; intros H; [exists []; split; [reflexivity|constructor]|]. cbn [forallb] in H. apply andb_prop in H as [H1 H2]. apply andb_prop in H1 as [H0 H1].
  destruct (IH H2) as (parts & E & F). destruct (row_says r H0) as (part & E1 & F1).
  { intros K. rewrite K in H1. discriminate. }
  exists (part :: parts). cbn [ls_print List.concat]. rewrite E1. cbn [bind]. rewrite E. cbn [bind]. split; [reflexivity|constructor; auto].
Qed.
Lemma ls_works : exists out, ls_work argc tab' = Ok (out, 0) /\ ls_prints (lst argc) (evs_of os) pos out.
Proof.
  destruct (print_says ls_rows (ls_rows_good argc)) as (parts & E & F). unfold ls_work. rewrite E. cbn [bind].
  change 78%nat with (List.length ls_front).
  rewrite (count_files ls_front [] (Some (lit "FILE")) None 0 argc ls_front_simple eq_refl posix rest os pos runs tab' Hs Hsh Hv). cbn [bind].
  rewrite (files_are ls_front [] (Some (lit "FILE")) None 0 argc ls_front_simple eq_refl posix rest os pos runs tab' Hs Hsh Hv). cbn [bind].
  eexists. split; [reflexivity|]. exists parts. split; [|rewrite file_lines_listing; reflexivity].
  rewrite <- (ls_rows_lines argc) in F. clear - F. unfold given_as. revert parts F. generalize ls_lines. induction l as [|x l IH]; intros parts F; inversion F; subst; constructor; auto.
Qed.
End Work.

Theorem C85_ls : forall posix legacy junk rest jo jc jp fuel argv h s en a0 evs pos,
  let argc := zlen (a0 :: rest) in let tab := lst argc in
  call 20 tab en h argv a0 rest fuel -> argc + 2 <= INT_MAX -> (forall a, In a rest -> zlen a <= 20000000) -> Forall (safe_value true) rest ->
  reading (map e_hdr tab) posix rest evs pos ->
  exists o, main ls tab en junk legacy posix jo jc jp fuel argc argv h s = Ok o /\ clean o /\
    (given_as tab "--help" evs <> [] -> o_text o = ls_usage /\ o_code o = 0) /\
    (given_as tab "--help" evs = [] -> given_as tab "--version" evs <> [] -> o_text o = about "ls" /\ o_code o = 0) /\
    (given_as tab "--help" evs = [] -> given_as tab "--version" evs = [] -> ~ flawless tab evs -> complains "ls" (o_text o) /\ o_code o = 1) /\
    (given_as tab "--help" evs = [] -> given_as tab "--version" evs = [] -> flawless tab evs -> ls_prints tab evs pos (o_text o) /\ o_code o = 0).
Proof.
  intros posix legacy junk rest jo jc jp fuel argv h s en a0 evs pos argc tab Hc Hm Hl Hv Hrd.
  assert (Ha : argc = Z.succ (zlen rest)) by (unfold argc; rewrite zlen_cons; lia). assert (Hp : 0 < argc) by (pose proof (zlen_nonneg rest); lia).
  assert (P1 : place tab "--help" = 76%nat) by (unfold tab; generalize argc; intros; vm_compute; reflexivity).
  assert (P2 : place tab "--version" = 77%nat) by (unfold tab; generalize argc; intros; vm_compute; reflexivity).
  unfold given_as. rewrite P1, P2. clear P1 P2.
  assert (Flaw : forall os, spells (map e_hdr tab) posix rest os pos -> ((exists runs, shared tab os pos runs) <-> flawless tab (evs_of os))).
  { intros os Hs. pose proof (shared_flawless ls_front [] (Some (lit "FILE")) None 0 argc ls_front_simple eq_refl ltac:(lia) posix rest os pos Ha) as K.
    rewrite <- (ls_split argc) in K. pose proof (zlen_nonneg pos). split; [intros H'; exact (proj1 (proj1 (K Hs) H'))|intros H'; apply (proj2 (K Hs)); split; [exact H'|lia]]. }
  destruct (program strtod rexmatch sp strftime Hd ls "ls" (ls_used argc) true posix legacy junk tab rest jo jc jp fuel argv h s en a0 evs pos) as (o & Eo & Cl & H1 & H2 & H3); auto.
  - apply ls_reached. lia.
  - do 2 eexists. split; [reflexivity|]. split; [reflexivity|]. split; [vm_compute; discriminate|]. intros [K1 K2]; discriminate.
  - do 2 eexists. split; [reflexivity|]. split; [reflexivity|]. split; [vm_compute; discriminate|]. intros [K1 K2]; discriminate.
  - apply (literal (Some _)). vm_compute. reflexivity.
  - apply columns_good.
  - unfold tab. texts_clit.
  - unfold tab, ls_defaults, ls_table. cbn [change]. counts_tac.
  - unfold tab. repeat (apply Forall_cons; [exact I|]). constructor.
  - apply (usage_fits ls tab (ls_used argc)); [unfold tab; texts_clit|apply ls_short|reflexivity|cbn; lia|rewrite ls_usage_ok by lia; vm_compute; discriminate|vm_compute; discriminate].
  - split; [vm_compute; discriminate|]. split; [exact Hl|]. intros hd fmt x Hi. apply in_map_iff in Hi as (e & K & Hi). injection K as _ K.
    assert (N : forallb (fun e => match sigof (e_body e) with SDate _ => false | _ => true end) tab = true) by (unfold tab; generalize argc; intros; vm_compute; reflexivity).
    rewrite forallb_forall in N. specialize (N e Hi). rewrite K in N. discriminate.
  - intros os pos' runs tab' S1 _ _ S2 S3. destruct (ls_works posix rest os pos' runs tab' argc S1 S2 S3) as (out & E & _). eauto.
  - apply ls_short.
  - exists o. split; [exact Eo|]. split; [exact Cl|]. cbn [f_help f_version ls] in H1, H2, H3. split.
    { intros K. destruct (H1 K) as [-> ->]. split; [apply ls_usage_ok; lia|reflexivity]. }
    split; [exact H2|]. split; intros E3 E4 Hx; destruct (H3 E3 E4) as [(os & runs & tab' & -> & Hs & Hsh & Hvl & Hw)|(Hn & Hcm & Hcd)].
    + exfalso. apply Hx. apply Flaw; eauto.
    + auto.
    + cbn [f_work ls] in Hw. destruct (ls_works posix rest os pos runs tab' argc Hs Hsh Hvl) as (out & E & P). fold argc in Hw, E. rewrite E in Hw. injection Hw as <- <-. auto.
    + exfalso. destruct (no_mistake evs) as (os & ->); [intros c v; apply (proj1 Hx)|].
      assert (Hs : spells (map e_hdr tab) posix rest os pos) by (apply spells_iff, reading_iff; exact Hrd).
      destruct (proj2 (Flaw os Hs) Hx) as (runs & Hsh). exact (Hn os runs eq_refl Hsh).
Qed.
(** One would like to see which block size was chosen: the line shows how often the option was given, that is 1. *)
Theorem C85_ls_block_size_refuted : forall posix legacy junk rest jo jc jp fuel argv h s en a0 evs pos size,
  let argc := zlen (a0 :: rest) in let tab := lst argc in
  call 20 tab en h argv a0 rest fuel -> argc + 2 <= INT_MAX -> (forall a, In a rest -> zlen a <= 20000000) -> Forall (safe_value true) rest ->
  reading (map e_hdr tab) posix rest evs pos -> given_as tab "--help" evs = [] -> given_as tab "--version" evs = [] -> flawless tab evs ->
  given_as tab "--block-size" evs = [size] ->
  exists o before after, main ls tab en junk legacy posix jo jc jp fuel argc argv h s = Ok o /\ o_text o = before ++ ln "blocksize=1" ++ after.
Proof.
  intros posix legacy junk rest jo jc jp fuel argv h s en a0 evs pos size argc tab Hc Hm Hl Hv Hrd G1 G2 Hf Hb.
  destruct (C85_ls posix legacy junk rest jo jc jp fuel argv h s en a0 evs pos Hc Hm Hl Hv Hrd) as (o & Eo & _ & _ & _ & _ & H). destruct (H G1 G2 Hf) as [(parts & F & E) _]. clear H.
  change ls_lines with (firstn 4 ls_lines ++ ("--block-size", "blocksize", Count)%string :: skipn 5 ls_lines) in F.
  apply Forall2_app_inv_l in F as (p1 & p2 & _ & F & ->). inversion F as [|? part ? p3 Hp _]; subst. cbn [fst snd] in Hp. change (says "blocksize" Count (given_as tab "--block-size" evs) part) in Hp.
  rewrite Hb in Hp. inversion Hp; subst. exists o, (List.concat p1), (List.concat p3 ++ listing "filename" 0 pos). split; [exact Eo|].
  assert (Ep : lit "blocksize" ++ lit "=" ++ PropConvey.decimal (zlen [size]) ++ [NL] = ln "blocksize=1") by (vm_compute; reflexivity).
  rewrite E, concat_app. cbn [List.concat]. rewrite Ep. rewrite !app_assoc. reflexivity.
Qed.
Lemma exists_last_or_nil {A} (l : list A) : l = [] \/ exists l' x, l = l' ++ [x].
Proof. destruct l as [|a l]; [auto|]. right. destruct (exists_last (l := a :: l)) as (l' & x & E); [discriminate|eauto]. Qed.
(** The help promises sizes such as 2K; no integer ends in one of these letters alone. *)
Lemma digits_end base s v : IntSpec.digits base s v -> exists l c, s = l ++ [c] /\ exists d, digit_of base c d.
Proof. intros [c d H|s' v' c d _ H]; [exists [], c|exists s', c]; eauto. Qed.
Lemma number_end n nv : IntSpec.number n nv -> exists l c, n = l ++ [c] /\ exists base d, digit_of base c d.
Proof.
  intros [sg k ds v _ H|sg k px base w sg2 k2 ip ds v _ _ _ _ _ H]; destruct (digits_end _ _ _ H) as (l & c & -> & d & Hd'); [exists (sg ++ l)|exists (sg ++ px ++ w ++ sg2 ++ ip ++ l)]; exists c; rewrite <- ?app_assoc; eauto.
Qed.
Lemma literal_end s n : int_literal s n -> exists l c, s = l ++ [c] /\ (space_char c \/ In c ["b"; "B"]%char \/ exists base d, digit_of base c d).
Proof.
  intros (w1 & m & nv & sf & k & w2 & -> & _ & Hn & Hsf & Hw & _). destruct (number_end m nv Hn) as (l & c & -> & Hc).
  destruct (exists_last_or_nil w2) as [->|(w & x & ->)].
  - rewrite app_nil_r. destruct Hsf as [|a b _ Hb|a b _ Hb|a b _ Hb].
    + exists (w1 ++ l), c. rewrite app_nil_r, app_assoc. auto.
    + exists (w1 ++ (l ++ [c]) ++ [a]), b. rewrite <- !app_assoc. auto.
    + exists (w1 ++ (l ++ [c]) ++ [a]), b. rewrite <- !app_assoc. auto.
    + exists (w1 ++ (l ++ [c]) ++ [a]), b. rewrite <- !app_assoc. auto.
  - exists (w1 ++ (l ++ [c]) ++ sf ++ w), x. rewrite <- !app_assoc. split; [reflexivity|]. left. unfold spaces in Hw. rewrite Forall_forall in Hw. apply Hw. apply in_app_iff. right. left. reflexivity.
Qed.
Lemma no_unit x c n : In c ["k"; "K"; "M"; "G"; "T"; "P"; "Z"; "Y"]%char -> ~ int_literal (x ++ [c]) n.
Proof.
  intros Hc H. destruct (literal_end _ _ H) as (l & c' & E & Hl). apply app_inj_tail in E as [_ <-].
  destruct Hl as [Hl|[Hl|(base & d & _ & Hl)]].
  - unfold space_char in Hl. cbn in Hc, Hl. intuition (subst; discriminate).
  - cbn in Hc, Hl. intuition (subst; discriminate).
  - assert (Hi : In c (lit "0123456789abcdefABCDEF")).
    { destruct Hl as [Hl|Hl]; apply nth_error_In in Hl; cbn in Hl |- *; tauto. }
    cbn in Hc, Hi. intuition (subst; discriminate).
Qed.
Theorem C85_ls_size_unit_refuted : forall posix legacy junk rest jo jc jp fuel argv h s en a0 evs pos number unit,
  let argc := zlen (a0 :: rest) in let tab := lst argc in
  call 20 tab en h argv a0 rest fuel -> argc + 2 <= INT_MAX -> (forall a, In a rest -> zlen a <= 20000000) -> Forall (safe_value true) rest ->
  reading (map e_hdr tab) posix rest evs pos -> given_as tab "--help" evs = [] -> given_as tab "--version" evs = [] ->
  In unit ["k"; "K"; "M"; "G"; "T"; "P"; "Z"; "Y"]%char -> In (Some (number ++ [unit])) (given_as tab "--block-size" evs) ->
  exists o, main ls tab en junk legacy posix jo jc jp fuel argc argv h s = Ok o /\ complains "ls" (o_text o) /\ o_code o = 1.
Proof.
  intros posix legacy junk rest jo jc jp fuel argv h s en a0 evs pos x c argc tab Hc Hm Hl Hv Hrd G1 G2 Hu Hb.
  destruct (C85_ls posix legacy junk rest jo jc jp fuel argv h s en a0 evs pos Hc Hm Hl Hv Hrd) as (o & Eo & _ & _ & _ & H & _). exists o. split; [exact Eo|]. apply (H G1 G2).
  intros [_ K]. destruct (proj2 (K 4%nat _ eq_refl) (x ++ [c]) Hb) as (n & Hn & _). exact (no_unit x c n Hu Hn).
Qed.
End Ls.

(** ** mv *)
Definition mv_front : table := firstn 17 (mv_of 0).
Definition mv_back : table := [arg_rem (Some (lit "DEST|DIRECTORY")) None].
Lemma mv_split argc : mv_of argc = mv_front ++ arg_filen None None (Some (lit "SOURCE")) 1 (argc + 2) None :: mv_back.
Proof. reflexivity. Qed.
Lemma mv_front_simple : forallb simpleb mv_front = true.
Proof. vm_compute. reflexivity. Qed.
Lemma mv_reached argc : 0 <= argc -> reached false (mv_of argc).
Proof.
  intros Ha. apply (reached_preset _ _ _ _ _ (mv_table argc)).
  - apply reached_new. unfold mv_table. repeat (apply Forall_cons; [made_one|]). constructor.
  - unfold mv_defaults, mv_table. cbn [change]. repeat (apply Forall2_cons; [repeat split|]). constructor.
Qed.
Lemma mv_short argc : Forall short_texts (map e_hdr (mv_of argc)).
Proof. repeat (apply Forall_cons; [split; vm_compute; discriminate|]). constructor. Qed.
Definition mv_used (argc : Z) : str :=
  lit "Usage: " ++ f_name (@mv D) ++ PrintSpec.syntax_line brief_of (map e_hdr (mv_of argc)) ++ [NL] ++ f_before (@mv D) ++
    PropPrint.glossary_text (gf_text (f_format (@mv D))) verbose_of (map e_hdr (mv_of argc)) ++ f_after (@mv D).
Lemma mv_usage_ok argc : 1 < argc -> mv_used argc = mv_usage.
Proof.
  intros Ha. assert (E : PrintSpec.syntax_line brief_of (map e_hdr (mv_of argc)) =
    lit " [-bfiuv] [--backup=[CONTROL]] [--reply={yes,no,query}] [--strip-trailing-slashes] [-S SUFFIX] [--target-directory=DIRECTORY] [--help] [--version]" ++
    PrintSpec.occurrences 1 (foolproof 1 (argc + 2)) (lit "SOURCE") ++ lit " DEST|DIRECTORY").
  { rewrite mv_split. unfold PrintSpec.syntax_line. rewrite map_app, flat_map_app. cbn [map flat_map]. rewrite app_assoc. apply (f_equal2 (@app ascii)); [|reflexivity].
    vm_compute. reflexivity. }
  assert (F : foolproof 1 (argc + 2) = argc + 2) by (unfold foolproof; destruct (Z.ltb_spec (argc + 2) 1); lia).
  unfold mv_used. rewrite E, F, occurrences_files by lia. vm_compute. reflexivity.
Qed.
Lemma mv_used_small argc : 0 < argc -> zlen (mv_used argc) <= 1000000.
Proof.
  intros Ha. destruct (Z.eq_dec argc 1) as [->|]; [vm_compute; discriminate|]. rewrite mv_usage_ok by lia. vm_compute. discriminate.
Qed.
Section Work.
Context (posix : bool) (rest : list str) (os : list occurrence) (pos : list str) (runs : list (list str)) (tab' : table) (argc : Z).
Hypothesis Hs : spells (map e_hdr (mv_of argc)) posix rest os pos.
Hypothesis Hsh : shared (mv_of argc) os pos runs.
Hypothesis Hv : valued (mv_of argc) os runs tab'.
Lemma mv_count i : In i [1; 2; 4; 8; 10; 11; 14]%nat -> count_of tab' i = Ok (zlen (occurrences i (evs_of os))).
Proof.
  intros Hi. assert (Hc : forall e, nth_error (mv_of argc) i = Some e -> i <> 17%nat -> kcount (e_body e) <> None -> count_of tab' i = Ok (zlen (occurrences i (evs_of os)))).
  { intros e He Ni Hk. eapply (count_is mv_front mv_back (Some (lit "SOURCE")) None 1 argc mv_front_simple eq_refl os pos runs tab'); rewrite <- ?(mv_split argc); eauto. }
  repeat (destruct Hi as [<-|Hi]; [eapply Hc; [reflexivity|discriminate|discriminate]|]). destruct Hi.
Qed.
Lemma mv_text i d : In (i, d) [(0%nat, lit "existing"); (6%nat, lit "query"); (9%nat, lit "~"); (10%nat, [])] -> text_of tab' i = Ok (text_or d (occurrences i (evs_of os))).
Proof.
  intros Hi. assert (Hc : forall e p, nth_error (mv_of argc) i = Some e -> i <> 17%nat -> e_body e = KStr p -> str_sval p = [d] -> text_of tab' i = Ok (text_or d (occurrences i (evs_of os)))).
  { intros e p He Ni Hk Hp. eapply (text_is mv_front mv_back (Some (lit "SOURCE")) None 1 argc mv_front_simple eq_refl os pos runs tab'); rewrite <- ?(mv_split argc); eauto. }
  repeat (destruct Hi as [[= <- <-]|Hi]; [eapply Hc; [reflexivity|discriminate|reflexivity|reflexivity]|]). destruct Hi.
Qed.
Lemma yes_given {A} (l : list A) : yes_no (zlen l) = match l with [] => lit "NO" | _ => lit "YES" end.
Proof. destruct l as [|x l]; [reflexivity|]. unfold yes_no. destruct (Z.eqb_spec (zlen (x :: l)) 0) as [E|_]; [|reflexivity]. rewrite zlen_cons in E. pose proof (zlen_nonneg l). lia. Qed.
Lemma some_given {A} (l : list A) : l <> [] -> (0 <? zlen l) = true /\ (zlen l =? 0) = false.
Proof. destruct l as [|x l]; [congruence|]. intros _. rewrite zlen_cons. pose proof (zlen_nonneg l). split; [apply Z.ltb_lt|apply Z.eqb_neq]; lia. Qed.
Lemma mv_files : count_of tab' 17 = Ok (zlen pos) /\ texts_of tab' 17 (zlen pos) = Ok pos.
Proof.
  change 17%nat with (List.length mv_front). split.
  - exact (count_files mv_front mv_back (Some (lit "SOURCE")) None 1 argc mv_front_simple eq_refl posix rest os pos runs tab' Hs Hsh Hv).
  - exact (files_are mv_front mv_back (Some (lit "SOURCE")) None 1 argc mv_front_simple eq_refl posix rest os pos runs tab' Hs Hsh Hv).
Qed.
Lemma mv_works : (occurrences 14 (evs_of os) <> [] -> occurrences 10 (evs_of os) <> []) -> mv_work argc tab' = Ok (mv_prints (mv_of argc) (evs_of os) pos, 0).
Proof.
  intros Hx. unfold mv_work. rewrite (mv_count 14) by (cbn; tauto). cbn [bind]. destruct mv_files as [F1 F2].
  assert (P : forall s i, place (mv_of argc) s = i -> given_as (mv_of argc) s (evs_of os) = occurrences i (evs_of os)) by (intros s i <-; reflexivity).
  unfold mv_prints. rewrite (P "--verbose"%string 14%nat) by (generalize argc; intros; vm_compute; reflexivity).
  destruct (occurrences 14 (evs_of os)) as [|v l] eqn:E14.
  - cbn [zlen List.length Z.of_nat Z.eqb bind]. rewrite F1. cbn [bind]. rewrite F2. cbn [bind app]. rewrite file_lines_listing. reflexivity.
  - destruct (some_given (v :: l) ltac:(discriminate)) as [_ ->]. specialize (Hx ltac:(discriminate)). destruct (some_given _ Hx) as [H10 _].
    unfold mv_settings, target_of. rewrite (mv_count 10) by (cbn; tauto). cbn [bind]. rewrite H10.
    rewrite (mv_text 0 (lit "existing")), (mv_text 6 (lit "query")), (mv_text 9 (lit "~")), (mv_text 10 []) by (cbn; tauto).
    rewrite (mv_count 1), (mv_count 2), (mv_count 4), (mv_count 8), (mv_count 11), (mv_count 14) by (cbn; tauto). cbn [bind]. rewrite F1. cbn [bind]. rewrite F2. cbn [bind]. rewrite file_lines_listing, !yes_given.
    unfold mv_tells, tell_yes, tell_text.
    rewrite (P "-b"%string 1%nat), (P "--backup"%string 0%nat), (P "--force"%string 2%nat), (P "--interactive"%string 4%nat), (P "--reply"%string 6%nat), (P "--strip-trailing-slashes"%string 8%nat),
      (P "--suffix"%string 9%nat), (P "--target-directory"%string 10%nat), (P "--update"%string 11%nat), (P "--verbose"%string 14%nat) by (generalize argc; intros; vm_compute; reflexivity).
    rewrite E14. do 2 f_equal. f_equal. rewrite <- !app_assoc. reflexivity.
Qed.
Lemma mv_fails : occurrences 14 (evs_of os) <> [] -> occurrences 10 (evs_of os) = [] -> mv_work argc tab' = UB NullDeref.
Proof.
  intros H14 H10. unfold mv_work. rewrite (mv_count 14) by (cbn; tauto). cbn [bind]. destruct (some_given _ H14) as [_ ->]. unfold mv_settings, target_of.
  rewrite (mv_text 0 (lit "existing")), (mv_text 6 (lit "query")), (mv_text 9 (lit "~")) by (cbn; tauto).
  rewrite (mv_count 1), (mv_count 2), (mv_count 4), (mv_count 8), (mv_count 10), (mv_count 11), (mv_count 14) by (cbn; tauto). cbn [bind]. rewrite H10. reflexivity.
Qed.
End Work.
Lemma mv_flawless argc posix rest os pos : argc = Z.succ (zlen rest) -> spells (map e_hdr (mv_of argc)) posix rest os pos ->
  ((exists runs, shared (mv_of argc) os pos runs) <-> mv_right (mv_of argc) (evs_of os) pos).
Proof.
  intros Ha Hs. pose proof (shared_flawless mv_front mv_back (Some (lit "SOURCE")) None 1 argc mv_front_simple eq_refl ltac:(lia) posix rest os pos Ha) as K.
  rewrite <- (mv_split argc) in K. specialize (K Hs). unfold mv_right. split.
  - intros H. destruct (proj1 K H) as [K1 K2]. split; [exact K1|]. intros ->. cbn in K2. lia.
  - intros [H1 H2]. apply (proj2 K). split; [exact H1|]. destruct pos as [|x l]; [congruence|]. rewrite zlen_cons. pose proof (zlen_nonneg l). lia.
Qed.
Theorem C85_mv : forall posix legacy junk rest jo jc jp fuel argv h s en a0 evs pos,
  let argc := zlen (a0 :: rest) in let tab := mv_of argc in
  call 20 tab en h argv a0 rest fuel -> argc + 2 <= INT_MAX -> (forall a, In a rest -> zlen a <= 20000000) ->
  reading (map e_hdr tab) posix rest evs pos ->
  (given_as tab "--help" evs = [] -> given_as tab "--version" evs = [] -> mv_right tab evs pos -> given_as tab "--verbose" evs <> [] -> given_as tab "--target-directory" evs <> []) ->
  exists o, main mv tab en junk legacy posix jo jc jp fuel argc argv h s = Ok o /\ clean o /\
    (given_as tab "--help" evs <> [] -> o_text o = mv_usage /\ o_code o = 0) /\
    (given_as tab "--help" evs = [] -> given_as tab "--version" evs <> [] -> o_text o = about "mv" /\ o_code o = 0) /\
    (given_as tab "--help" evs = [] -> given_as tab "--version" evs = [] -> ~ mv_right tab evs pos -> complains "mv" (o_text o) /\ o_code o = 1) /\
    (given_as tab "--help" evs = [] -> given_as tab "--version" evs = [] -> mv_right tab evs pos -> o_text o = mv_prints tab evs pos /\ o_code o = 0).
Proof.
  intros posix legacy junk rest jo jc jp fuel argv h s en a0 evs pos argc tab Hc Hm Hl Hrd.
  assert (Ha : argc = Z.succ (zlen rest)) by (unfold argc; rewrite zlen_cons; lia). assert (Hp : 0 < argc) by (pose proof (zlen_nonneg rest); lia).
  assert (P : forall s i, place tab s = i -> given_as tab s evs = occurrences i evs) by (intros ? i <-; reflexivity).
  rewrite (P "--help"%string 15%nat), (P "--version"%string 16%nat), (P "--verbose"%string 14%nat), (P "--target-directory"%string 10%nat) by (unfold tab; generalize argc; intros; vm_compute; reflexivity).
  intros Hx. assert (Hv : Forall (safe_value false) rest).
  { eapply Forall_impl; [|exact (c_args _ _ _ _ _ _ _ _ Hc)]. intros a Ca. split; [exact Ca|discriminate]. }
  assert (Flaw : forall os, spells (map e_hdr tab) posix rest os pos -> ((exists runs, shared tab os pos runs) <-> mv_right tab (evs_of os) pos)) by (intros os Hs; exact (mv_flawless argc posix rest os pos Ha Hs)).
  assert (Works : forall os runs tab', evs = evs_of os -> spells (map e_hdr tab) posix rest os pos -> shared tab os pos runs -> valued tab os runs tab' -> occurrences 15 evs = [] -> occurrences 16 evs = [] ->
    mv_work argc tab' = Ok (mv_prints tab evs pos, 0)).
  { intros os runs tab' -> S1 S2 S3 O1 O2. apply (mv_works posix rest os pos runs tab' argc S1 S2 S3). apply Hx; auto. apply (Flaw os S1). eauto. }
  destruct (program strtod rexmatch sp strftime Hd mv "mv" (mv_used argc) false posix legacy junk tab rest jo jc jp fuel argv h s en a0 evs pos) as (o & Eo & Cl & H1 & H2 & H3); auto.
  - apply mv_reached. lia.
  - do 2 eexists. split; [reflexivity|]. split; [reflexivity|]. split; [vm_compute; discriminate|]. intros [K1 K2]; discriminate.
  - do 2 eexists. split; [reflexivity|]. split; [reflexivity|]. split; [vm_compute; discriminate|]. intros [K1 K2]; discriminate.
  - apply (literal (Some _)). vm_compute. reflexivity.
  - apply columns_good.
  - unfold tab. texts_clit.
  - unfold tab, mv_defaults, mv_table. cbn [change]. counts_tac.
  - unfold tab. repeat (apply Forall_cons; [exact I|]). constructor.
  - apply (usage_fits mv tab (mv_used argc)); [unfold tab; texts_clit|apply mv_short|reflexivity|cbn; lia|apply mv_used_small; lia|vm_compute; discriminate].
  - split; [vm_compute; discriminate|]. split; [exact Hl|]. intros hd fmt x Hi. repeat (destruct Hi as [K|Hi]; [discriminate|]). contradiction.
  - intros os pos' runs tab' S1 O1 O2 S2 S3. cbn [f_help f_version f_work mv] in *.
    assert (R : reading (map e_hdr tab) posix rest (evs_of os) pos') by (apply reading_iff, spells_iff; exact S1). destruct (C61_reading_one_way _ _ _ _ _ _ _ Hrd R) as [Ee Ep]. rewrite <- Ep in S1, S2.
    do 2 eexists. eapply (Works os runs tab'); eauto; rewrite Ee, given_evs; assumption.
  - apply mv_short.
  - exists o. split; [exact Eo|]. split; [exact Cl|]. cbn [f_help f_version mv] in H1, H2, H3. split.
    { intros K. destruct (H1 K) as [-> ->]. split; [|reflexivity]. apply mv_usage_ok. destruct rest as [|a rest]; [inversion Hrd; subst; contradiction K; reflexivity|]. rewrite zlen_cons in Ha. pose proof (zlen_nonneg rest). lia. }
    split; [exact H2|]. split; intros E3 E4 Hy; destruct (H3 E3 E4) as [(os & runs & tab' & Ee & Hs & Hsh & Hvl & Hw)|(Hn & Hcm & Hcd)].
    + exfalso. apply Hy. rewrite Ee. apply Flaw; eauto.
    + auto.
    + cbn [f_work mv] in Hw. pose proof (Works os runs tab' Ee Hs Hsh Hvl E3 E4) as E. fold argc in Hw. rewrite E in Hw. injection Hw as <- <-. auto.
    + exfalso. destruct (no_mistake evs) as (os & Ee); [intros c v; apply (proj1 (proj1 Hy))|]. rewrite Ee in Hy, Hrd.
      assert (Hs : spells (map e_hdr tab) posix rest os pos) by (apply spells_iff, reading_iff; exact Hrd).
      destruct (proj2 (Flaw os Hs) Hy) as (runs & Hsh). exact (Hn os runs Ee Hsh).
Qed.
(** A program whose work fails after a successful parse *)
Lemma program_ub (f : frame) ints posix legacy junk (tab : table) rest jo jc jp fuel argv h (s : gst) en a0 os pos runs u :
  reached ints tab -> call 20 tab en h argv a0 rest fuel -> Forall (safe_value ints) rest -> spells (map e_hdr tab) posix rest os pos -> shared tab os pos runs ->
  switch_at tab (f_help f) -> switch_at tab (f_version f) -> occurrences (f_help f) (evs_of os) = [] -> occurrences (f_version f) (evs_of os) = [] ->
  (forall tab', valued tab os runs tab' -> f_work f (zlen (a0 :: rest)) tab' = UB u) ->
  main f tab en junk legacy posix jo jc jp fuel (zlen (a0 :: rest)) argv h s = UB u.
Proof.
  intros Ht Hc Hv Hs Hsh Sh Sv Oh Ov Hw. assert (Hrd : reading (map e_hdr tab) posix rest (evs_of os) pos) by (apply reading_iff, spells_iff; exact Hs).
  destruct (C61_report strtod rexmatch sp Hd ints posix 20 tab rest jo jc jp fuel argv h s en a0 (evs_of os) pos Ht Hc Hv Hrd) as (h' & s' & tab' & en' & held & errs & Ep & Hr & Hh & E1 & E2).
  destruct (switch_count strtod rexmatch sp tab _ (evs_of os) pos held errs tab' Sh Hr Hh) as (nh & Ch & Ph & Zh). destruct (switch_count strtod rexmatch sp tab _ (evs_of os) pos held errs tab' Sv Hr Hh) as (nv & Cv & Pv & Zv).
  apply Zh in Oh. apply Zv in Ov. subst nh nv.
  destruct (C59_accepted_values strtod rexmatch sp Hd ints posix 20 tab rest jo jc jp fuel argv h s en a0 os pos runs Ht Hc Hv Hs Hsh) as (h2 & s2 & t2 & en2 & Ep2 & Hz & Hval).
  rewrite Ep in Ep2. injection Ep2 as <- <- <- <-.
  assert (Hsig : table_sig tab' = table_sig tab).
  { pose proof (reached_ready strtod rexmatch lm sp Hd _ _ Ht) as Hrdy. destruct (parse_ok_safe strtod rexmatch lm sp Hd _ _ _ _ _ _ _ _ _ _ _ _ _ _ _ _ _ _ Hrdy Hc Hv Ep) as (ev2 & p2 & er2 & Er2 & Ei2 & _).
    apply (parse_report strtod rexmatch lm sp posix tab rest ev2 p2 tab' er2); auto. eapply Forall_impl; [|exact Hv]. intros x Hx. exact (proj1 Hx). }
  unfold ProgramModel.main. rewrite null_ok. cbn [bind]. change (negb (0 =? 0)) with false. cbv iota. rewrite Ep. cbn [bind]. unfold after_parse. rewrite Ch, Cv. cbn [bind].
  change (0 <? 0) with false. cbv iota. rewrite Hz. change (0 <? 0) with false. cbv iota. rewrite (Hw tab' (conj Hsig Hval)). reflexivity.
Qed.
(** With --verbose but without --target-directory, every right command line makes the program print a null pointer as a text. *)
Theorem C85_mv_verbose_refuted : forall posix legacy junk rest jo jc jp fuel argv h s en a0 evs pos,
  let argc := zlen (a0 :: rest) in let tab := mv_of argc in
  call 20 tab en h argv a0 rest fuel -> reading (map e_hdr tab) posix rest evs pos ->
  given_as tab "--help" evs = [] -> given_as tab "--version" evs = [] -> mv_right tab evs pos -> given_as tab "--verbose" evs <> [] -> given_as tab "--target-directory" evs = [] ->
  main mv tab en junk legacy posix jo jc jp fuel argc argv h s = UB NullDeref.
Proof.
  intros posix legacy junk rest jo jc jp fuel argv h s en a0 evs pos argc tab Hc Hrd.
  assert (Ha : argc = Z.succ (zlen rest)) by (unfold argc; rewrite zlen_cons; lia). assert (Hp : 0 < argc) by (pose proof (zlen_nonneg rest); lia).
  assert (P : forall s i, place tab s = i -> given_as tab s evs = occurrences i evs) by (intros ? i <-; reflexivity).
  rewrite (P "--help"%string 15%nat), (P "--version"%string 16%nat), (P "--verbose"%string 14%nat), (P "--target-directory"%string 10%nat) by (unfold tab; generalize argc; intros; vm_compute; reflexivity).
  intros O1 O2 Hr O3 O4. destruct (no_mistake evs) as (os & Ee); [intros c v; apply (proj1 (proj1 Hr))|]. rewrite Ee in *.
  assert (Hs : spells (map e_hdr tab) posix rest os pos) by (apply spells_iff, reading_iff; exact Hrd).
  destruct (proj2 (mv_flawless argc posix rest os pos Ha Hs) Hr) as (runs & Hsh).
  apply (program_ub mv false posix legacy junk tab rest jo jc jp fuel argv h s en a0 os pos runs); auto.
  - apply mv_reached. lia.
  - eapply Forall_impl; [|exact (c_args _ _ _ _ _ _ _ _ Hc)]. intros a Ca. split; [exact Ca|discriminate].
  - do 2 eexists. split; [reflexivity|]. split; [reflexivity|]. split; [vm_compute; discriminate|]. intros [K1 K2]; discriminate.
  - do 2 eexists. split; [reflexivity|]. split; [reflexivity|]. split; [vm_compute; discriminate|]. intros [K1 K2]; discriminate.
  - intros tab' Hv. exact (mv_fails os pos runs tab' argc Hsh Hv O3 O4).
Qed.
Lemma needs_none (b : body D) : needs b [].
Proof. destruct b; cbn; try lia; auto. split; [lia|]. intros x []. Qed.
(** The usage puts CONTROL in brackets and asks for a destination. But the argument after --backup is taken as CONTROL, and one
    operand is enough. *)
Theorem C85_mv_backup_refuted : forall legacy junk a b jo jc jp fuel argv h s en a0,
  let tab := mv_of 4 in
  call 20 tab en h argv a0 [lit "--backup"; a; b] fuel -> a <> [] -> word b -> zlen a <= 20000000 -> zlen b <= 20000000 ->
  exists o, main mv tab en junk legacy false jo jc jp fuel 4 argv h s = Ok o /\ o_text o = lit "file[0] = """ ++ b ++ ln """" /\ o_code o = 0.
Proof.
  intros legacy junk a b jo jc jp fuel argv h s en a0 tab Hc Na Wb La Lb.
  assert (Hrd : reading (map e_hdr tab) false [lit "--backup"; a; b] [EvScan 0 (Some a)] [b]).
  { change [EvScan 0 (Some a)] with ([EvScan 0 (Some a)] ++ [] : list event). change (lit "--backup") with ("-"%char :: "-"%char :: lit "backup").
    eapply rd_option; [discriminate|discriminate| |apply rd_word; [reflexivity|exact Wb|constructor]].
    apply cr_long; [discriminate|]. apply (lr_next _ _ _ a 0%nat (nth 0 (map e_hdr tab) (e_hdr (arg_rem (D := D) None None))));
      [intros K; repeat (destruct K as [K|K]; [discriminate|]); destruct K|apply long_find_iff; vm_compute; reflexivity|reflexivity|exact Na]. }
  destruct (C85_mv false legacy junk [lit "--backup"; a; b] jo jc jp fuel argv h s en a0 [EvScan 0 (Some a)] [b]) as (o & Eo & _ & _ & _ & _ & H); [exact Hc|vm_compute; discriminate| |exact Hrd|intros _ _ _ K; contradiction K; reflexivity|].
  { intros x [<-|[<-|[<-|[]]]]; [vm_compute; discriminate|exact La|exact Lb]. }
  exists o. split; [exact Eo|]. destruct H as [E1 E2]; [reflexivity|reflexivity| |split; [exact E1|exact E2]].
  split; [|discriminate]. split; [intros c v [K|[]]; discriminate|]. intros [|i] e He; [injection He as <-; vm_compute; discriminate|]. apply needs_none.
Qed.
Theorem C85_mv_one_operand_refuted : forall legacy junk a jo jc jp fuel argv h s en a0,
  let tab := mv_of 2 in
  call 20 tab en h argv a0 [a] fuel -> word a -> zlen a <= 20000000 ->
  exists o, main mv tab en junk legacy false jo jc jp fuel 2 argv h s = Ok o /\ o_text o = lit "file[0] = """ ++ a ++ ln """" /\ o_code o = 0.
Proof.
  intros legacy junk a jo jc jp fuel argv h s en a0 tab Hc Wa La.
  assert (Hrd : reading (map e_hdr tab) false [a] [] [a]) by (apply rd_word; [reflexivity|exact Wa|constructor]).
  destruct (C85_mv false legacy junk [a] jo jc jp fuel argv h s en a0 [] [a]) as (o & Eo & _ & _ & _ & _ & H); [exact Hc|vm_compute; discriminate| |exact Hrd|intros _ _ _ K; contradiction K; reflexivity|].
  { intros x [<-|[]]. exact La. }
  exists o. split; [exact Eo|]. destruct H as [E1 E2]; [reflexivity|reflexivity| |split; [exact E1|exact E2]].
  split; [|discriminate]. split; [intros c v []|]. intros i e He. apply needs_none.
Qed.
End Files.

(** ** Examples *)
Notation zero := (fun _ : nat => 0).
Notation ls_args := ["-la"; "--color"; "x"; "-w"; "80"; "--block-size=2"; "--"; "-y"]%string.
Definition ls_example : str :=
  ln "a=YES" ++ ln "blocksize=1" ++ ln "color=always" ++ ln "l=YES" ++ ln "w=80" ++ ln "filename[0] = ""x""" ++ ln "filename[1] = ""-y""".
Definition ls_tab (argc : Z) : list (entry (body Z)) := ls_defaults (ls_table zero argc).
Definition mv_tab (argc : Z) : list (entry (body Z)) := mv_defaults (mv_table argc).
Example C85_case_ls_run : text_code (ex_main ls (ls_tab 9) "ls" ls_args) = Some (ls_example, 0).
Proof. vm_compute. reflexivity. Qed.
Example C85_case_ls_wrong : text_code (ex_main ls (ls_tab 4) "ls" ["-w"; "8K"; "-aa"]%string) =
  Some (ln "ls: invalid argument ""8K"" to option -w|--width=COLS" ++ ln "ls: extraneous option -a|--all" ++ ln "Try 'ls --help' for more information.", 1).
Proof. vm_compute. reflexivity. Qed.
Example C85_case_ls_help : text_code (ex_main ls (ls_tab 3) "ls" ["--he"; "-w8K"]%string) = Some (ls_usage, 0).
Proof. vm_compute. reflexivity. Qed.
Notation mv_args := ["-v"; "a"; "--target=d"; "--backup"; "none"; "b"]%string.
Definition mv_example : str :=
  ln "backup = NO" ++ ln "backup CONTROL = none" ++ ln "force = NO" ++ ln "interactive mode = NO" ++ ln "reply = query" ++ ln "strip-trailing-slashes = NO" ++ ln "suffix = ~" ++
  ln "target-directory = d" ++ ln "update = NO" ++ ln "verbose = YES" ++ ln "file[0] = ""a""" ++ ln "file[1] = ""b""".
Example C85_case_mv_run : text_code (ex_main mv (mv_tab 7) "mv" mv_args) = Some (mv_example, 0).
Proof. vm_compute. reflexivity. Qed.
Example C85_case_mv_help : text_code (ex_main mv (mv_tab 3) "mv" ["-vv"; "--help"]%string) = Some (mv_usage, 0).
Proof. vm_compute. reflexivity. Qed.
Notation ls_evs := [EvScan 33 None; EvScan 0 None; EvScan 11 None; EvScan 72 (Some (lit "80")); EvScan 4 (Some (lit "2"))].
Lemma lit_number (s : string) n : int_convert Long64 (lit s) = Ok (inl n) -> int_literal (lit s) n /\ int_range n.
Proof. intros E. pose proof (int_convert_sound (lit s)) as K. rewrite E in K. exact K. Qed.
Lemma ls_evs_flawless : flawless (ls_tab 9) ls_evs.
Proof.
  split.
  - intros c v K. repeat (destruct K as [K|K]; [discriminate|]). destruct K.
  - intros i e He. assert (Hz : forall i, zlen (occurrences i ls_evs) <= 1).
    { intros j. unfold occurrences. cbn [flat_map]. do 73 (destruct j as [|j]; [vm_compute; discriminate|]). vm_compute. discriminate. }
    assert (Hn : forall x, In (Some x) (occurrences i ls_evs) -> x = lit "80" \/ x = lit "2").
    { intros x. unfold occurrences. cbn [flat_map]. rewrite !in_app_iff. intros K. repeat (destruct K as [K|K]; [destruct (Nat.eqb _ i); [destruct K as [K|[]]; try discriminate K; injection K as <-; auto|destruct K]|]). destruct K. }
    destruct (e_body e); cbn [needs]; auto. split; [apply Hz|]. intros x Hx. destruct (Hn x Hx) as [->| ->]; eexists; apply lit_number; vm_compute; reflexivity.
Qed.
Notation ex_ls := (fun rest : list string => C85_ls ExTable.strtod ExTable.rexmatch unix_seps no_strftime ex_contract zero false false (fun _ => "z"%char) (map lit rest) ExTable.jo ExTable.jc ExTable.jp (S (total (map lit rest))) 1
    (ExTable.heap0 ("ls"%string :: rest)) ExTable.s0 (ExTable.en 20) (lit "ls")).
Example C85_case_ls : ls_prints (ls_tab 9) ls_evs (map lit ["x"; "-y"]%string) ls_example.
Proof.
  destruct (ex_ls ls_args ls_evs (map lit ["x"; "-y"]%string)) as (out & E & _ & _ & _ & _ & H).
  - apply program_call; vm_compute; reflexivity.
  - vm_compute. discriminate.
  - args_short.
  - apply safe_values; vm_compute; reflexivity.
  - ex_read.
  - change (zlen (lit "ls" :: map lit ls_args)) with 9 in E, H. fold (ls_tab 9) in E, H. pose proof C85_case_ls_run as R. change (zlen (lit "ls" :: map lit ls_args)) with 9 in R. rewrite E in R. injection R as <- _.
    apply H; [reflexivity|reflexivity|exact ls_evs_flawless].
Qed.
Example C85_case_ls_block_size : exists out before after, ex_main ls (ls_tab 9) "ls" ls_args = Ok out /\ o_text out = before ++ ln "blocksize=1" ++ after.
Proof.
  apply (C85_ls_block_size_refuted ExTable.strtod ExTable.rexmatch unix_seps no_strftime ex_contract zero false false (fun _ => "z"%char) (map lit ls_args) ExTable.jo ExTable.jc ExTable.jp (S (total (map lit ls_args))) 1
    (ExTable.heap0 ("ls"%string :: ls_args)) ExTable.s0 (ExTable.en 20) (lit "ls") ls_evs (map lit ["x"; "-y"]%string) (Some (lit "2"))).
  - apply program_call; vm_compute; reflexivity.
  - vm_compute. discriminate.
  - args_short.
  - apply safe_values; vm_compute; reflexivity.
  - ex_read.
  - reflexivity.
  - reflexivity.
  - exact ls_evs_flawless.
  - vm_compute. reflexivity.
Qed.
Example C85_case_ls_size_unit : exists out, ex_main ls (ls_tab 2) "ls" ["--block-size=2K"]%string = Ok out /\ complains "ls" (o_text out) /\ o_code out = 1.
Proof.
  apply (C85_ls_size_unit_refuted ExTable.strtod ExTable.rexmatch unix_seps no_strftime ex_contract zero false false (fun _ => "z"%char) (map lit ["--block-size=2K"]%string) ExTable.jo ExTable.jc ExTable.jp (S (total (map lit ["--block-size=2K"]%string))) 1
    (ExTable.heap0 ["ls"; "--block-size=2K"]%string) ExTable.s0 (ExTable.en 20) (lit "ls") [EvScan 4 (Some (lit "2K"))] [] (lit "2") "K"%char).
  - apply program_call; vm_compute; reflexivity.
  - vm_compute. discriminate.
  - args_short.
  - apply safe_values; vm_compute; reflexivity.
  - ex_read.
  - reflexivity.
  - reflexivity.
  - cbn. tauto.
  - vm_compute. auto.
Qed.
Notation mv_evs := [EvScan 14 None; EvScan 10 (Some (lit "d")); EvScan 0 (Some (lit "none"))].
Lemma mv_few argc evs : (forall c v, ~ In (EvErr c v) evs) -> (forall i, (i <= 18)%nat -> zlen (occurrences i evs) <= 1) -> flawless (mv_tab argc) evs.
Proof.
  intros H1 H2. split; [exact H1|]. intros i e He. assert (Hi : (i < 19)%nat) by (change 19%nat with (List.length (mv_tab argc)); apply nth_error_Some; congruence).
  assert (N : forallb (fun e => match e_body e with KInt _ => false | _ => true end) (mv_tab argc) = true) by (generalize argc; intros; vm_compute; reflexivity).
  rewrite forallb_forall in N. specialize (N e (nth_error_In _ _ He)). destruct (e_body e); try discriminate; try (apply H2; lia). exact I.
Qed.
Example C85_case_mv : ex_main mv (mv_tab 7) "mv" mv_args <> UB NullDeref /\ mv_prints (mv_tab 7) mv_evs (map lit ["a"; "b"]%string) = mv_example.
Proof.
  assert (Hr : mv_right (mv_tab 7) mv_evs (map lit ["a"; "b"]%string)).
  { split; [|discriminate]. apply mv_few; [intros c v K; repeat (destruct K as [K|K]; [discriminate|]); destruct K|]. intros i Hi. do 19 (destruct i as [|i]; [vm_compute; discriminate|]). lia. }
  destruct (C85_mv ExTable.strtod ExTable.rexmatch unix_seps no_strftime ex_contract false false (fun _ => "z"%char) (map lit mv_args) ExTable.jo ExTable.jc ExTable.jp (S (total (map lit mv_args))) 1
    (ExTable.heap0 ("mv"%string :: mv_args)) ExTable.s0 (ExTable.en 20) (lit "mv") mv_evs (map lit ["a"; "b"]%string)) as (out & E & _ & _ & _ & _ & H).
  - apply program_call; vm_compute; reflexivity.
  - vm_compute. discriminate.
  - args_short.
  - ex_read.
  - intros _ _ _ _. vm_compute. discriminate.
  - change (zlen (lit "mv" :: map lit mv_args)) with 7 in E, H. fold (mv_tab 7) in E, H. pose proof C85_case_mv_run as R. change (zlen (lit "mv" :: map lit mv_args)) with 7 in R |- *. rewrite E in R |- *. split; [discriminate|]. injection R as <- _.
    symmetry. apply H; [reflexivity|reflexivity|exact Hr].
Qed.
Example C85_case_mv_verbose : ex_main mv (mv_tab 4) "mv" ["a"; "-v"; "b"]%string = UB NullDeref.
Proof.
  apply (C85_mv_verbose_refuted ExTable.strtod ExTable.rexmatch unix_seps no_strftime ex_contract false false (fun _ => "z"%char) (map lit ["a"; "-v"; "b"]%string) ExTable.jo ExTable.jc ExTable.jp
    (S (total (map lit ["a"; "-v"; "b"]%string))) 1 (ExTable.heap0 ["mv"; "a"; "-v"; "b"]%string) ExTable.s0 (ExTable.en 20) (lit "mv") [EvScan 14 None] (map lit ["a"; "b"]%string)).
  - apply program_call; vm_compute; reflexivity.
  - ex_read.
  - reflexivity.
  - reflexivity.
  - split; [|discriminate]. apply (mv_few 4); [intros c v K; repeat (destruct K as [K|K]; [discriminate|]); destruct K|]. intros i Hi. do 19 (destruct i as [|i]; [vm_compute; discriminate|]). lia.
  - vm_compute. discriminate.
  - vm_compute. reflexivity.
Qed.
Example C85_case_mv_backup : exists out, ex_main mv (mv_tab 4) "mv" ["--backup"; "a"; "b"]%string = Ok out /\ o_text out = ln "file[0] = ""b""" /\ o_code out = 0.
Proof.
  apply (C85_mv_backup_refuted ExTable.strtod ExTable.rexmatch unix_seps no_strftime ex_contract false (fun _ => "z"%char) (lit "a") (lit "b") ExTable.jo ExTable.jc ExTable.jp
    (S (total (map lit ["--backup"; "a"; "b"]%string))) 1 (ExTable.heap0 ["mv"; "--backup"; "a"; "b"]%string) ExTable.s0 (ExTable.en 20) (lit "mv")).
  - apply (program_call (mv_tab 4) "mv" ["--backup"; "a"; "b"]%string); vm_compute; reflexivity.
  - discriminate.
  - intros cs K. discriminate.
  - vm_compute. discriminate.
  - vm_compute. discriminate.
Qed.
Example C85_case_mv_one_operand : exists out, ex_main mv (mv_tab 2) "mv" ["a"]%string = Ok out /\ o_text out = ln "file[0] = ""a""" /\ o_code out = 0.
Proof.
  apply (C85_mv_one_operand_refuted ExTable.strtod ExTable.rexmatch unix_seps no_strftime ex_contract false (fun _ => "z"%char) (lit "a") ExTable.jo ExTable.jc ExTable.jp
    (S (total (map lit ["a"]%string))) 1 (ExTable.heap0 ["mv"; "a"]%string) ExTable.s0 (ExTable.en 20) (lit "mv")).
  - apply (program_call (mv_tab 2) "mv" ["a"]%string); vm_compute; reflexivity.
  - intros cs K. discriminate.
  - vm_compute. discriminate.
Qed.

Print Assumptions C85_ls.
Print Assumptions C85_ls_block_size_refuted.
Print Assumptions C85_ls_size_unit_refuted.
Print Assumptions C85_mv.
Print Assumptions C85_mv_verbose_refuted.
Print Assumptions C85_mv_backup_refuted.
Print Assumptions C85_mv_one_operand_refuted.
