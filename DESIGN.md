# Formal model of argtable3: design

## 1. What is being verified

`/repo/src` of argtable3 (C). The model is written in Gallina (Coq 8.16.1), function by
function, as total executable functions; every definition cites the file and lines it models
and says where it simplifies. Properties are in `properties.jsonl`, status in `MANIFEST.json`.

## 2. Trusted base

* Coq's kernel (8.16.1), and `coqchk` as a second check.
* Axioms: none. `Print Assumptions` stands behind every theorem in its file and answers
  `Closed under the global context` for each. No theorem uses an axiom of the standard library. (The
  list of axioms of the *loaded libraries* that `coqchk -o` prints contains seven constants of
  `Coq.ssr.ssrunder`, a module signature loaded with the tactic library; no theorem depends on them.)
* The hand translation from C to Gallina (cited line by line) and the representation choices in
  section 3.
* The C library functions used by the code, modelled from the C standard in the C locale
  (`isspace`, `toupper`, `strtol`, `strncmp`, `strchr`, `strncat`, `vsnprintf` of the formats used).
  The code hands plain `char`s to the functions of `ctype.h`; where `char` is signed this is undefined by the letter of
  the standard for bytes from 128 on. Here such bytes have the answers of the C locale (no space, no letter, not
  printable), as in the common C libraries.
  `strtod` is an oracle: a universally quantified function with its standard contract. In the
  theorems about the kinds of entries the regular expression matcher enters in the same way (with a
  contract); `PropRex` is about the matcher itself, and `PropRexTable` (C60) puts the two together.
* Allocation succeeds, in all models but `AllocModel` (C82) and `DstrFail`, `HelpFail`, `CmdFail` (C88). `AllocModel` shows that a request that fails
  does not return, and that a panic function that does return leads to a null pointer being used; the other three are about programs whose
  panic function jumps back into the program (`longjmp`) and go on using a dynamic string, the module's name and version, or the command registry
  (once `arg_cmd_init` has succeeded).

## 3. Representation

* Bytes are `ascii`; a C string is the `list ascii` of its content without the terminating NUL;
  reading at index `length s` yields NUL, reading beyond is undefined behaviour.
* `res A := Ok a | UB u | OutOfFuel`. `UB` carries which undefined behaviour was hit
  (out-of-bounds read/write, use after free, double free, free of something not allocated, null dereference,
  division by zero, signed overflow, misaligned access, overlapping copy, and for the matcher a read outside the
  text). `OutOfFuel` is a distinct outcome for fuel-bounded loops, and is either excluded by
  a theorem, or proven for all fuels (= non-termination).
* Machine integers are `Z` with explicit range checks where the code can overflow, and explicit reduction where it wraps.
* Pointers into strings are suffixes or (base, offset) pairs; pointer equality tests are modelled on
  offsets.
* Where ownership matters there is a memory: `MemModel` (blocks of bytes with liveness; the dynamic string, the text
  buffers, the module name) and the node heap of `HashModel`.
* The functions that a table entry points to are fields of a record; the parser theorems (`PropParse`) hold for entries with
  *any* functions, those of `PropKinds` for the library's kinds.
  In `ParseModel` an entry's functions work on the entry's own contents; `ShareModel` (C90) is about functions that share variables. `NestModel` (C91) about
  functions that call `arg_parse` themselves. Functions that change headers or `argv` are not modelled.

### What is modelled

| source | model | not modelled |
|--------|-------|--------------|
| `argtable3.c` 60-500 | `ParseModel`; for entries that share variables of the program, `ShareModel`; for functions that call `arg_parse`, `NestModel` | debug tracing, `dump_longoptions` |
| `argtable3.c` 502-1032 | `PrintModel` | the `FILE*` variants write what the `_ds` variants append; `fputs` itself is not modelled |
| `argtable3.c` 1034-1097 | `TableModel` | `DllMain` |
| `arg_getopt_long.c` | `GetoptModel`; with messages and the `getopt` entry point, `GetoptSay`; with the `idx` argument, `GetoptIdx`; `warnx` on Windows, `WarnModel` | what `warnx` of `err.h` puts around a message |
| `arg_lit/int/dbl/str/file/date/rem/rex/end.c` | `ArgModel`, `IntModel`, `FileModel`, `DateModel`, `LayoutModel`, error functions in `PrintModel` | locale-dependent names; `strtod` is an oracle |
| `arg_rex.c` (matcher) | `RexModel`; with a count of steps, `RexCost` | `trex_search*`, `trex_getsubexp*` (never called by the library), the contents of the captures (only that their slot exists) |
| `arg_dstr.c` | `DstrModel`; with refused requests, `DstrFail` | |
| `arg_hashtable.c` | `HashModel`; insertion and growth with refused requests, `CmdFail` | |
| `arg_cmd.c` | `CmdModel`, `HelpModel`; the module's name and version with refused requests, `HelpFail`; registration, `CmdFail`; procedures and sessions of a client, `SubModel` | |
| `examples/echo.c`, `uname.c`, `myprog.c`, `myprog_C89.c`, `multisyntax.c`, `ls.c`, `mv.c`, `testargtable3.c` (all the examples), the program of `docs/source/arg_getting_started.md` | `ProgramModel`, `MultiModel`, `FilesModel`, `UtilModel` | that constructors may fail |
| `arg_utils.c` | `MgsortModel` (elements), `MgsortBytesModel` (bytes), `MgsortTrace` (calls and blocks); allocation in `MemModel` (contents) and `AllocModel` (failure, `panic`) | `dbg_printf` |

## 4. Properties: what is modelled, how proved

Theorems about the parser speak of tables whose headers are `good_hdr` (long option strings neither empty nor beginning with a comma,
option letters other than `:` `;` `?`, byte 255 and NUL) and of a `call`: such a table, an `arg_end` with room for at least one error, an
`argv` array in memory that holds the arguments, and fuel above their total length. These conditions are in the quantifiers of the
properties; what happens outside of them is in the theorems named `…_refuted` (C01, C04, C15).

| id | model | how proved |
|----|-------|------------|
| C01 | getopt state record + `arg_parse` | refinement to a one-pass scanner that does not mention the state; refuted for `?` as an option character |
| C02 | value arrays as bounds-checked lists | invariant of every scan function, lifted through `arg_parse`; negative maximum counts refuted |
| C03 | `arg_parse`, `arg_parse_check` | invariant + completeness of the check loop |
| C04 | `arg_register_error` | induction over the error sequence; refutation for capacity 0 |
| C05 | argv as a heap block, copied | frame lemma: the scanner only writes the copy |
| C06 | `arg_parse_untagged` | refinement to a recursive matching specification |
| C07, C08 | `getopt_internal`, `permute_args` | refinement to one-pass scanner; corollaries |
| C09 | `parse_long_options` | loop = first exact / unique prefix specification |
| C10, C11 | `getopt_internal` | equalities of the one-pass scanner |
| C12 | fuel; decreasing measure | measure; for the refutation: every fuel runs out |
| C13 | `permute_args` as cyclic moves | p -> p+m mod n cycles, gcd many |
| C14 | `arg_parse_tagged` | monotone error count + event argument |
| C15 | `alloc_longoptions`, `alloc_shortoptions` with bounded blocks | counting invariant; witnesses |
| C16 | scan functions with NULL value | case analysis |
| C17-C19 | `strtol`, `strtol0X`, `detectsuffix`, `arg_int_scanfn` | independent grammar/value specification |
| C20 | `arg_basename`, `arg_extension` | characterisation by last separator/dot |
| C21-C23 | `arg_strptime` | invariant over the format loop; round trip; refutation |
| C24, C26 | `trex_compile` as a state monad over pattern and node table; `trex_matchnode` over the table | `RexCompile`: any pattern, by induction on fuel, ends in a table that represents an expression it spells, or fails; `RexForward`: any spelled expression is compiled to a table that represents it; `RexMatch`: matching a represented expression is sound, for a language in which the boundaries of words are a parameter (the real ones, or for patterns with \b those that the program sees); `RexTerm`: measure = size of the remaining chains |
| C25 | the same | consequence of C58 for choices of words |
| C27, C57 | size and address arithmetic of the constructors; `arg_dbl_scanfn` over an oracle | arithmetic, case analysis |
| C28-C30 | `arg_dstr` on an explicit memory | refinement to string concatenation; setting a text to a part of itself is decided exactly (overlapping `strcpy` or not) |
| C31-C36, C47 | hash table with linked nodes + registry | refinement to association lists; invariants |
| C37, C38 | `merge`, `arg_mgsort` | loop = functional merge; Permutation + Sorted; refutation; the model on bytes refines the one on elements |
| C39, C40, C53 | `arg_cat*`, syntax printing | buffer invariant; relation to ideal text |
| C41, C42, C54 | `arg_print_formatted_ds` | loops = greedy line layout; layout unique; refutations |
| C43 | error functions, `arg_print_errors_ds` | structural; errors recorded by a parse |
| C44, C45 | table walks, `arg_free` on a memory | induction |
| C46, C55 | message helpers | case analysis over the specification of the printed parts |
| C48 | constructors, including the 0 and 1 variants | arithmetic; the default date format through the round trip of C22 |
| C49 | `find_shortoption`, dispatch | specification of first declaring entry |
| C50 | `arg_parse` + kinds | refinement to a fold over the events of the one-pass scanner |
| C51 | reset, scan functions, `arg_strptime` on old values | simulation between two runs |
| C52 | `arg_parse` | parametricity in the scan function: two runs with functions that agree where called |
| C56 | `arg_set_module_name/version` on an explicit memory | invariant over call sequences |
| C58 | `trex_matchnode` | every node of an orderly expression finds its longest match |
| C59 | `arg_parse` + kinds | the command lines are described by inductive rules (`CommandSpec.v`); equivalence with the one-pass scanner by induction, and of the entries' scan functions with what their texts denote |
| C60 | `arg_parse` + `arg_rex` with the matcher of `RexModel.v` | the matcher parameter of the table theorems is instantiated with `trex`; what it accepts is replaced by the language by C24 and C58 |
| C61 | `arg_parse` + kinds | reading, what entries keep and the list of errors are described by inductive rules (`ReportSpec.v`); the one-pass scanner gives that report by induction over events, positional arguments and entries; uniqueness of the report is proved separately |
| C62 | `arg_parse` + `arg_rem` | inserting an entry without functions and options commutes, with renumbering, with reading, scanning, distributing, checking: induction over each; an equivalence of observations; its text in the syntax lines by the theorems of C40 |
| C63 | `arg_parse` | events of different entries commute; lists of events with equal projections are connected by such exchanges (induction on the first list) |
| C64 | `arg_parse` | `CommandSpec.spells` determines the events; the canonical form is spelled so by induction |
| C65 | `arg_parse` | spelled in the old table implies spelled in the new one with entries renumbered (induction on `CommandSpec.spells`); then as C62. An example shows that the condition on abbreviations is needed |
| C66 | `arg_parse`, `arg_print_syntax` | `UsageSpec`: the line typed by someone who follows the syntax line, and its words; they spell the occurrences meant (induction over the table), which are shared out as meant, so C59 applies; the required parts of the printed line (C40) are such a line. Refuted for optional positional occurrences before required ones |
| C67 | `arg_cat_optionv`, `arg_parse` | the tags of `PrintSpec.verbose` (which C39 shows to be what is printed) against the names and letters of `ParseSpec`; the two readings of a comma-separated list agree up to a final empty name (induction); then C10 and C11 for the parser. Refuted for names with an equals sign |
| C68 | `arg_parse` | `front` (words and complete options) put before any command line, in terms of `ReportSpec.reading` and `CommandSpec.spells`; induction over the front, then C59 and C61 for values and errors. Refuted for arbitrary fronts |
| C69 | `arg_parse`, `getopt_internal` | `reading` with and without the flag: `options_first` is exactly when they agree; with the flag a line is read as without it and a `--` put before the first positional argument (induction over the reading) |
| C70 | `arg_parse` | `place` and `put` say where a text may stand; the command line built from them is a `front` (C68) that spells exactly the texts as values; then C59. Refuted for the empty text behind a letter or a long name, for bare positional arguments and for optional values |
| C71 | `arg_parse` | `undergoes`: one entry alone, given values one by one. For arbitrary kinds (the three functions of an entry are parameters) the events of one entry commute out of the whole (induction), positional arguments and the final check of other entries do not reach it |
| C72 | `arg_parse`, scan and check functions | `looser` on tables of the library's kinds; the spelling depends only on options and flags (induction), `shared` (C59) is preserved, and values are determined by texts (C17, C20, C21). Refuted for entries without options |
| C73 | `arg_parse`, `getopt_long` | `reordered`: exchanges of neighbours that are not both without options and share no option. One exchange renames the entry numbers in the reading of the command line (induction along `read_args`, with the lookup of short and long options, abbreviations included), and commutes with the events, the positional pass and the check. Refuted for the other exchanges |
| C74 | `arg_parse`, scan functions | `written`: the command line for a list of `wish`es. It spells the wishes (C70), they are acceptable (C17 for decimal numbers, C21 for files), so the parse accepts it and stores them (C59). `expresses`: any command line of filled places (C70) and positional arguments that says the wishes, for tables of every sort; `C74_no_gaps` shows by C59 that the condition on room is needed |
| C75 | `arg_parse`, `getopt_long` | `parse_each` hands the state of getopt from one call to the next. Induction over the calls: each leaves the arguments of the later ones alone (C05), and its outcome does not depend on the state it finds (C01). C59 for the return values |
| C76 | `arg_parse`, scan functions, `arg_register_error` | Induction along `reading` (C61): the texts of all events, and the positional arguments, are ends of arguments. What the entries hold, and the errors, are among these (C61); `denotes` and the specification of base name and extension for the rest |
| C77 | `arg_strptime`, `arg_date_scanfn`, `arg_date_errorfn` | `StrftimeSpec` says what strftime writes (C11 7.27.3.5, C locale); a format is a list of items. One lemma per conversion (what was written is read, up to where the next item begins), induction over the items; white space of several items is skipped at once (`ahead`). The message is that of C43 |
| C78 | `getopt_long_only` and `arg_parse` calling it | `LongOnlySpec` is the one-pass reading of both builds (`longonly = false` is `ParseSpec`'s, proved). `GetoptProofs` and `ParseProofs` prove that the parser refines it, for both builds at once; `PropLongOnly` compares the readings by induction over the arguments and their characters |
| C79 | `main` of `echo.c`, `uname.c`, `myprog.c`, `myprog_C89.c`, as one frame with parameters | `behaves` says what such a program prints in terms of `reading`, `report` (C61), `spells`, `shared` (C59), `message` (C43) and the texts of C39 and C53. One theorem for the frame, from these and C44, C45; the programs are instances, where `shared` and the usage are worked out |
| C80 | several tables on one command line; `main` and `mymain1` to `mymain4` of `multisyntax.c` | `PropSyntaxes`: two tables that `agree` split the arguments alike (induction over `spells`), so the first word decides (`begins`, `wordless`). `PropMultisyntax`: `insert_right` and so on say in terms of `reading` alone when a syntax is meant; `shared` of C59 is proved equivalent to them, the four parses are chained as in C75, the texts are those of C39, C53, the messages those of C61 and C43, the command words by C25 |
| C81 | as C24, C58 and C60 | `RexRead` reads a pattern into an expression, and is proved to find every expression that the pattern spells. `tidy` is computed from the characters that a part can begin with or go on with; by induction over the expression it implies `orderly` of C58 for every text. `good_pattern` adds the other conditions of C58 as computations |
| C82 | `AllocModel`: the allocation functions and `panic` with an oracle that grants or refuses each request, and on top of them who owns which block in the constructors, `trex_compile`, `trex_free` and `arg_parse`; what is in the blocks is the matter of the other models | an invariant of the state (the blocks from before are there, ours are new and listed, every request so far was granted) carried through each step; the table by induction over the constructors. How often the table of nodes grows during compilation is left open, so the claim holds for any number |
| C83 | `RexCost`: the matcher of `RexModel` with a counter; that the answers are the same is a theorem (`C83_answers`) | induction on fuel over the table that represents the expression: a visit of a part x costs at most size(x) * Q^(repetitions in x, behind it in its chain, and in the chain that follows), because each of the at most N rounds of a repetition visits its operand and, to look ahead, what follows. The lower bounds by induction over the two families of patterns; the exact numbers for words, sets and c* by running the matcher over the table that represents them |
| C84 | `GetoptSay`: `GetoptModel` and the parser again with the list of messages passed to `warnx`, and the entry point `getopt`; that the results are the same is a theorem (`C84_same_results`, `C84_parse_says_nothing`) | `arguments` is a one-pass reading of the arguments by POSIX's rules; one call of getopt in the middle of an argument makes one event of it, and the loop follows by induction on the number of calls. Arguments with a name behind one or two dashes: the search is compared with `find_long`, a filter over the list, for each of the ways in which the two functions search, `-W name` included. One line for each `?`: an invariant (no argument ends in a dash, nor does what is left of one) over all branches of the scanner. Refuted for arguments ending in a dash and for the letter 255 |
| C85 | `FilesModel`: the tables, defaults, usage texts and work of `ls.c` and `mv.c`, in the frame of `ProgramModel` | From C79's frame (C59, C61, C43, C39, C41, C45). Tables of options that may be given once, one entry for the operands and remarks are satisfied by just the flawless command lines (`shared_flawless`); what each field holds then is read off C59. Options are named in the statements by their letters and names, and found in the table. Five refutations |
| C86 | `UtilModel`: table and `main` of the program in `docs/source/arg_getting_started.md` and of `testargtable3.c` | `plain_same`: such a program equals C79's frame with the branch for the version made dead, as the check for null entries always succeeds; then as C85, with `right_shared` saying in terms of `reading` alone when all entries are satisfied. Four refutations |
| C87 | `MgsortTrace`: `merge` and `arg_mgsort` with a log of comparisons, blocks and calls; the comparison function is handed the log, so that it may answer anything | the program follows two relations on lists (`merges`, `sorts`), which are total; totals and peaks over the log by induction on `sorts`, the closed form of the recurrence by log2_up of the halves. For the worst case a sorted list is dealt out to the halves in turn, so that every merge but for one element is decided by comparisons. With a function of the two elements alone the result is that of C37 |
| C88 | `DstrFail`, `HelpFail`, `CmdFail`: the functions of `DstrModel`, `HelpModel`, `HashModel` and `CmdModel` that allocate, with an oracle that grants or refuses each request; a refused request ends the call with memory and string as they are at that point (what a panic function that jumps out leaves) | each call either does what the model without refusals does or keeps the invariant of the string with one more block of nobody; induction over the calls of a client that sees what was refused. Setting name or version again is refuted: in general (the variable points to freed memory) and for the shown version by a witness. For the registry the representation of C31 is weakened (the number of buckets may lag behind the index of its size, and keys and values may be lost); that it does not lag when nothing is refused is a separate invariant (`HashTight`), which C36 needs |
| C89 | `RoamSpec`: the loop of a client over `CmdModel`'s iterator, with calls in its body that depend on what was shown; the expectation (`tour`) knows nothing of the order in which commands are shown | the exact effect of a removal and of an insertion without growth on the chains (conjuncts of `remove_ok`, `insert_ok`, `cop_ok`); a call about another command leaves the cell of the iterator in its chain, its successors only lose cells and insertions go to the head of a chain; names shown hash to this bucket or an earlier one; induction on buckets left and cells left in the chain. 35 is the load limit of the smallest table. Unregistering the current command is refuted in general, growth by a witness of 35 commands |
| C90 | `ShareModel`: `ParseModel`'s loops with functions that are handed and return a state of any type which all entries share | `turn` says which events of `ParseSpec` one turn of the loop around getopt_long amounts to, so the loop is a list of events that does not depend on the functions. That this list is the one of the command line follows from `GetoptProofs` for one particular table: entries that refuse everything record every event as an error, in order. The rest is simulated as in `ParseProofs`. For the order of calls (`C90_calls`) the state is extended by a log. `C90_own`: with the table itself as the state this is `ParseModel`'s `arg_parse` |
| C91 | `NestModel`: `ShareModel` with functions that are handed the variables of the option scanner and may change them; `arg_parse_untagged` works on `optind` itself. The memory for the copy of `argv` is left out (C05 and C90 have it) | `quiet` (inductive) says which functions are meant and what they do for the program; by induction over it a quiet function does the same to the program from every state of the scanner, since `arg_parse_tagged` starts by resetting it and nothing reads it after `arg_parse_untagged`; then the lemmas of C90. Refuted for scan functions by four witnesses, one of them a loop that every fuel runs out of |
| C92 | `SubModel`: a procedure in the pattern for which `arg_make_syntax_err_help_msg` is made, a command line answered by greeting or dispatch, a session of registrations and command lines that share the registry and the variables of the scanner. The pattern is the client's, no file of the repository has it in full. The vector of a procedure starts at the command's name; constructors succeed, as in C79 | `answers` (in `SubSpec`) says what is printed in terms of the registry of C31, `reading`, `report`, `spells`, `shared`, `valued` and the texts of C55. One line: C47's look-up, C61 for the errors, `switch_count` of C79 for the help switch, C55 for the texts, C59 for the values, C45 for the release. Sessions by induction over the items, with the history of registrations so far as invariant. Same words, same answer: the outcome of a parse is that of the ideal parse, and the error report reads recorded errors only. Three refutations |
| C93 | `arg_parse`, `arg_print_syntaxv` | `VerboseSpec`: parts of a command line (an alternative of C67 with its value in one of three forms, or a word), what is meant by them, and when the entries are used as the line says; induction over the parts shows that they spell what is meant, so C59 applies. That the line shows these alternatives and counts is C40 and C67. Refuted for an equals sign behind a letter and for an optional value as the next argument |
| C94 | `getopt_long`, `getopt_long_only` (argument `idx`) | `GetoptIdx`: the scanner of `GetoptModel` with the list of the values stored through `idx`; erasing them gives `GetoptModel` back. `IndexSpec`: which place in the list a name means, without reference to the search. An invariant of the search loop gives that the place found is meant; then by cases over the scanner for any state, and, for an argument at hand, the answer of C84. Refuted: that the variable tells anything after a letter, and for the value -1 |
| C95 | `warnx` for Windows, `opterrmsg` | `WarnModel`: the array byte by byte, with out-of-bounds writes and an unterminated read as faults; `_vsnprintf` from its documentation (no terminator if the text does not fit). `WarnSpec`: the text in an array, and a message of which n bytes are kept. Induction over the bytes and over the messages; which messages there are is C84. Refuted: the comment that the array is set whatever `opterr` is, and that different complaints differ |
| C96 | `arg_parse` | The parts of C93: an accepted line and the line with one part less or more. C59 in both directions: what is meant by the two lines differs only in the list given to one entry, so acceptance of one line gives the conditions for the other. Values stay good if one is taken out, except for dates, whose meaning depends on the slot. Refuted for words |

## 5. What was found (statements that are false of the code, with witnesses)

Every item is a theorem `Cnn_…_refuted` (or `…_never_returns`), except where a theorem's hypothesis excludes it.

* **Parser**: `-a-`-style clusters loop forever (C12), with `getopt_long` without a message, and end the scan of `getopt` (C84); arg_parse leaves `opterr` 0 for
  the rest of the program (C84); `?` as option character depends on history (C01); `arg_end(0)` writes outside
  (C04); negative maximum counts (C02); an empty second block in `permute_args` divides by zero (C13); option strings that begin with
  a comma or empty long options (C15); `ARG_HASOPTVALUE` without `ARG_HASVALUE` (C16); parsing again differs after `%p` dates and for
  defaults (C51); in the long-only build `-vname` may mean something else and `--ver` may be ambiguous (C78).
* **Syntax line against parser** (C66, theorem and examples): optional positional occurrences before required ones; a switch required
  twice is shown once; an optional value of a short option is shown behind a blank but must be attached; a remark with a left
  column is shown as if it were required, one without as a stray blank in the verbose line (C62).
* **Numbers and dates**: integer range with 32-bit `long` (C17), undefined inputs of suffixes (C18), `%C` forgets 1900 (C23), the date quoted as
  correct in an error message is refused (C77), `%e` and `%c` do not read what strftime writes (C77), the empty
  string is the number 0.0 (C27), on Windows the base name of a path with a slash after a backslash contains the slash (C20), `INT_MAX` values overflow the size computation (C27).
* **Layout**: `arg_end` with an odd count misaligns its pointers on LP64, size wraps on ILP32, negative counts (C57).
* **Strings and registry**: setting/appending a dstr from itself, use after free (C28, C29); registering a command with its own text,
  duplicate keys, use after `arg_cmd_uninit`, double init leaks (C31, C35).
* **Printing**: the 199th character (C39); width 0 never returns (C41); lines that are not indented, newlines lost (C42); error message quirks (C43);
  entries without glossary (C53); help without `arg_cmd_init` (C55).
* **Tables**: `arg_free` leaks, entries that occur twice are freed twice (C45).
* **Regular expressions**: word boundaries (C24), ranges with ICASE (C24), counts modulo 2^16 (C24, C26), an earlier alternative that is a
  beginning of a later one hides it (C25), the empty pattern writes outside, a lone backslash reads outside, invalid patterns and
  valid ones of 36 or more characters with a range dereference NULL, `.`, negated sets and `\b` read behind the text (C26), `a*a` and `b*(a?)`
  reject texts of their language (C58). A star over something that can be empty goes round 65536 times, so that nested ones
  (`((((a?)*)*)*)*`) never end in practice (C83).
* **Examples**: `uname` without options prints the node name instead of doing the same as `uname -s`, `uname --` prints nothing; `myprog`
  has a branch for a run without arguments that is never reached (C79). `multisyntax` means to take its command
  words in either case, but its constant `REG_ICASE` is 2 and the library's `ARG_REX_ICASE` is 1, so `INSERT` is refused; it returns 0
  after errors (C80). `mv -v` hands a null pointer to `printf` if there is no `--target-directory`, `mv --backup a b` takes `a` as the
  value, `mv a` is accepted without destination; `ls` prints how often `--block-size` was given instead of its value, and refuses the
  sizes such as `2K` that its help offers (C85). The page Getting Started shows another help text than its program prints, and
  `--version` of that program does nothing; `testargtable3` says that the current directory is the default, but refuses to run without files (C86).
* **Memory**: after a panic function that returns, the library uses a null pointer (C82); the checks of the examples for "insufficient memory"
  can only find a pattern of NULL, and the comment that failed allocations are reported in the table (argtable3.c line 242) is not true,
  nor is the promise of the header that constructors return NULL if memory is insufficient (argtable3.h lines 269, 335, 385).
  `arg_set_module_name` and `arg_set_module_version` free the old text before they ask for memory, so that a program that leaves the panic function by
  `longjmp` is left with pointers to freed memory; a formatted append that is broken off loses its buffer (C88).
  `arg_cmd_register` removes the old command before it asks for memory; a refused growth of the table breaks the registration off, although
  the comment in `arg_hashtable_insert` (arg_hashtable.c lines 183-188) says that the old table is used then, and the next try asks for the size after the next (C88).
* **Iterating** over the commands is not guarded against changes: a registration that makes the table grow (the 36th command first of all) sends the
  iterator on through a table in which all commands stand elsewhere, and unregistering the current command leaves it on freed memory (C89).
* **Nested parses**: a scan function that calls `arg_parse` makes the outer parse go on at the wrong argument: it may never return, skip options, offer
  arguments twice, and forget the refused text (C91). Reset and check functions may do so.
* **Sub-commands**: the usage line in a command's help and error texts names the program but not the command, so typing what it shows gets the greeting;
  the greeting refers to `<program> help`, which gets the greeting again unless the program registers a command of that name;
  `arg_cmd_dispatch` follows a null pointer for a name that is not registered (C92).
* **Verbose usage line**: for `-o|--out=<f>` someone may type `-o=x`, and a text entry silently stores `=x`; a value shown as optional, `--color=[<c>]`, typed as
  the next argument is taken as a positional argument (C93).
* **Index of getopt_long**: it is not reset, so after an option letter it is that of an earlier long option; for a long option with value -1 it is stored, but
  the argument is then scanned again as option letters, so `--verbose` reports `v` (C94).
* **opterrmsg** (Windows) is not set if `opterr` is 0, although the comment in front of `warnx` says that it always is; `arg_parse` sets `opterr` to 0, so after it
  the array tells nothing (C95, C84).
* **Sorting** is not stable (C38); byte offsets overflow for arrays of more than INT_MAX bytes (C37).

## 6. Testing the theorems

`seeded/LOG.jsonl` has one line per wrong program tried (definition edited, edit, claim broken, theorems that failed).
`tools/mutate.py` applies an edit to a scratch copy, rebuilds and reports the theorems that fail.
