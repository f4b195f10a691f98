#!/usr/bin/env python3
"""Writes /verif/properties.jsonl (one JSON object per line)."""
import json, os
P = []
def p(id, title, statement, quantifier, why, *anchors):
    P.append(dict(id=id, title=title, statement=statement, quantifier=quantifier,
                  why_tests_cant=why, anchors=list(anchors)))

p("C01", "Parsing is independent of history",
  "arg_parse gives the same error count, the same recorded errors and the same counts/values whatever earlier getopt or arg_parse calls left in the process-wide getopt variables (optind, optopt, optreset, scan pointer, permutation bounds, ...).",
  "every argument table, argv, and every pair of values of the process-wide getopt state left by any history of earlier calls",
  "the set of earlier histories is unbounded; a test fixes one history",
  "src/argtable3.c:arg_parse", "src/argtable3.c:arg_parse_tagged", "src/arg_getopt_long.c:getopt_internal")
p("C02", "No occurrence count ever exceeds maxcount and no value store is out of bounds",
  "Parsing any command line performs no undefined behaviour (other than the signed overflow described by C18): each entry's count stays between 0 and its maxcount and every write to ival/dval/sval/filename/basename/extension/tmval is inside the array the constructor allocated.",
  "every table built by the constructors with maximum counts that are not negative, and every argv",
  "memory safety must hold for every argv length and every order of options",
  "src/arg_int.c:arg_int_scanfn", "src/arg_str.c:arg_str_scanfn", "src/arg_lit.c:arg_lit_scanfn", "src/arg_file.c:arg_file_scanfn", "src/arg_date.c:arg_date_scanfn", "src/arg_dbl.c:arg_dbl_scanfn", "src/arg_rex.c:arg_rex_scanfn")
p("C03", "A zero return value means every occurrence constraint is met",
  "If arg_parse returns 0 then every entry in the table was matched at least mincount and at most maxcount times, and nothing was recorded in the arg_end entry.",
  "every table with an error capacity of at least one, and every argv",
  "ranges over all argv; tests check a handful of rejected/accepted lines",
  "src/argtable3.c:arg_parse", "src/argtable3.c:arg_parse_check")
p("C04", "Bounded error table",
  "arg_parse returns min(capacity, number of errors found); the recorded errors are the first ones in order of discovery, except that once more errors are found than the capacity the last slot becomes a too-many-errors entry. With capacity 0 the first error is an out-of-bounds write.",
  "every capacity, and every sequence of errors",
  "sequence of errors is unbounded; overflow behaviour depends on all of them",
  "src/argtable3.c:arg_register_error", "src/arg_end.c:arg_end")
p("C05", "The caller's argv array is not modified and temporary storage is released",
  "After arg_parse returns, the caller's argv array has the same pointers in the same order as before (although the option scanner permutes), and every temporary block allocated by arg_parse has been freed.",
  "every argv and table",
  "permutation patterns are unbounded",
  "src/argtable3.c:arg_parse", "src/arg_getopt_long.c:permute_args")
p("C06", "Positional arguments are matched in order or reported",
  "Every positional argument left by option scanning is either stored, in command-line order, by one of the positional table entries (entries used left to right, never going back), or is reported: the first argument rejected by all remaining entries is reported with the last entry's error and each argument after it is reported as unexpected.",
  "every list of positional arguments and every table",
  "unbounded list of arguments and table entries",
  "src/argtable3.c:arg_parse_untagged")
p("C07", "Everything after -- is positional",
  "All arguments after the first -- that is not consumed as an option value are treated as positional, in order, even when they look like options; the -- itself is dropped.",
  "every table and argv", "unbounded argv",
  "src/arg_getopt_long.c:getopt_internal")
p("C08", "Options may be interleaved with positionals",
  "Without POSIXLY_CORRECT, moving positional arguments before or after options does not change what is parsed: the options are processed in their relative order and the positionals are processed in their relative order; the result is the one of a simple one-pass reading of argv. With POSIXLY_CORRECT scanning stops at the first non-option.",
  "every table and every argv (without a malformed cluster, see C12)",
  "all interleavings of any number of arguments",
  "src/arg_getopt_long.c:getopt_internal", "src/argtable3.c:arg_parse_tagged")
p("C09", "Long option lookup",
  "A long option name equal to a table name selects the first table entry having that name; otherwise a prefix selects an entry when all names it is a prefix of belong to that one entry; otherwise it is reported as an invalid option.",
  "every list of long option names, every argument text",
  "all sets of names and all prefixes",
  "src/arg_getopt_long.c:parse_long_options", "src/argtable3.c:alloc_longoptions")
p("C10", "Clustered short options mean the same as separate ones",
  "-ab is parsed as -a -b when a takes no value (same table contents, return value and errors, except that an error about the rest of the cluster cites the argument it stands in; the rest must not be a single dash), and -oVALUE exactly as -o VALUE when o takes a required value and VALUE is not empty, also at the end of a cluster.",
  "every table, every surrounding argv, every value",
  "unbounded contexts",
  "src/arg_getopt_long.c:getopt_internal")
p("C11", "--name=value means the same as --name value",
  "For a long option with a required value, --name=value is parsed exactly as the two arguments --name value, for every non-empty value.",
  "every table, surrounding argv, and value",
  "unbounded contexts",
  "src/arg_getopt_long.c:parse_long_options")
p("C12", "Parsing terminates",
  "arg_parse terminates on every argv in which no short-option cluster runs into a final '-' character (such as -x-). On a command line with such a cluster it never returns.",
  "every table and argv",
  "termination over all inputs; a test that hangs proves nothing about others",
  "src/arg_getopt_long.c:getopt_internal", "src/argtable3.c:arg_parse_tagged")
p("C13", "Block exchange keeps the order in each block",
  "The argv permutation step exchanges two adjacent blocks of any non-zero lengths, keeping the order inside each block and leaving everything else alone, with no division by zero and no access outside the two blocks.",
  "all block lengths and positions",
  "cycle structure depends on gcd of arbitrary lengths",
  "src/arg_getopt_long.c:permute_args", "src/arg_getopt_long.c:gcd")
p("C14", "Bad options are always reported",
  "If the command line contains an unknown short option, an unknown or ambiguous long option, a value given to an option that takes none, or an option lacking its required value, arg_parse returns a positive count.",
  "every table with capacity at least one, every argv",
  "all positions and contexts of the bad option",
  "src/argtable3.c:arg_parse_tagged", "src/arg_getopt_long.c:getopt_internal")
p("C15", "Option tables handed to the scanner are built inside their buffers",
  "Building the internal long and short option tables writes inside the allocated blocks for every table whose long option strings are NULL or neither empty nor beginning with a comma. A long option string beginning with a comma overruns the block and an empty one reads past the string.",
  "every table", "heap overflow is not observable in a functional test",
  "src/argtable3.c:alloc_longoptions", "src/argtable3.c:alloc_shortoptions")
p("C16", "Entries with optional values",
  "For an entry whose flags allow an optional value, the option given without a value counts one occurrence and leaves the entry's value slot as it was; a value is only taken when attached.",
  "every entry kind, state and argv",
  "every prior content of the value slot",
  "src/arg_int.c:arg_int_scanfn", "src/arg_getopt_long.c:parse_long_options", "src/arg_getopt_long.c:getopt_internal")
p("C17", "Integer arguments: accepted exactly when well-formed and in range",
  "An integer argument is stored iff its text is a well-formed literal (decimal, 0x, 0o or 0b, optional sign and surrounding white space, optional KB/MB/GB suffix in any case; after a base prefix the digits may again be preceded by white space and a sign) whose mathematical value fits in int; the stored value is that mathematical value; otherwise the count does not change and the error tells bad syntax from overflow.",
  "every byte string, for a 64 bit long (with a 32 bit long the claim is refuted)",
  "infinitely many strings; overflow boundaries in every base and suffix",
  "src/arg_int.c:arg_int_scanfn", "src/arg_int.c:strtol0X", "src/arg_int.c:detectsuffix")
p("C18", "Integer parsing has no undefined behaviour except on doubly negated minimum values",
  "Scanning an integer argument performs no signed overflow for any text, except when a negative prefixed literal contains a second minus sign and saturates (for example -0x-8000000000000000).",
  "every byte string", "undefined behaviour is not observable by a test",
  "src/arg_int.c:strtol0X")
p("C19", "Integer round trip",
  "For every int n, parsing the decimal text of n, and for every sign the 0x, 0o and 0b texts of n, stores exactly n.",
  "every int value", "2^32 values in four notations",
  "src/arg_int.c:arg_int_scanfn")
p("C20", "File names are decomposed correctly",
  "For every file argument the stored file name is the argument itself, the base name is the part after the last separator (a slash; on Windows also a backslash, unless it comes before the last slash; empty for . and ..), and the extension is the suffix of the base name starting at its last dot when that dot is neither the first nor the last character, else empty; all three are suffixes of the same string.",
  "every string", "all placements of separators and dots",
  "src/arg_file.c:arg_basename", "src/arg_file.c:arg_extension")
p("C21", "Date arguments: fields in range, all input consumed, failure leaves the value alone",
  "If a date argument is accepted, the whole text was consumed, every field set by the format is in its documented range and other fields keep their previous values; if rejected, count and stored values do not change.",
  "every format, text and previous tm value",
  "formats and texts are unbounded",
  "src/arg_date.c:arg_strptime", "src/arg_date.c:conv_num", "src/arg_date.c:arg_date_scanfn")
p("C22", "Date round trip",
  "Printing any valid date/time as YYYY-MM-DD HH:MM:SS and parsing it with %Y-%m-%d %H:%M:%S (or %F-free equivalents such as %T) stores exactly the same fields.",
  "every valid combination of year 0-9999, month, day, hour, minute, second",
  "billions of values",
  "src/arg_date.c:arg_strptime")
p("C23", "Century conversion is 1900 years off",
  "Reading a four digit year with the format %C%y succeeds and gives a year exactly 1900 later than reading it with %Y (which gives the right one): the century conversion forgets the base year. In particular %C%y and %Y disagree.",
  "every year 0000-9999 and every previous tm value",
  "ten thousand years times all previous values; tests never use %C",
  "src/arg_date.c:arg_strptime")
p("C24", "Regex arguments: what is accepted is in the language of the pattern",
  "If a text is accepted by an arg_rex entry then it belongs to the language that the pattern denotes (sequence, alternation, groups, classes, ranges, repetition, anchors). Excluded: repetition counts that do not fit 15 or 16 bits, and, with ARG_REX_ICASE, ranges that mix letters with other characters. Word boundaries (\\b, \\B) are the exception: the boundaries that count are not the real ones but lie one place earlier inside the text; only those at the two ends are right.",
  "every pattern of the supported syntax and every text",
  "infinitely many patterns and texts",
  "src/arg_rex.c:trex_compile", "src/arg_rex.c:trex_matchnode", "src/arg_rex.c:trex_match")
p("C25", "Regex arguments: literal patterns",
  "A pattern made of ordinary characters accepts exactly its own text (up to ASCII case with ARG_REX_ICASE), and an alternation of such patterns accepts exactly their texts provided that none is a proper beginning of a later one.",
  "every literal pattern and text", "infinitely many patterns and texts",
  "src/arg_rex.c:trex_compile", "src/arg_rex.c:trex_match")
p("C26", "Regex matching stays inside the text and the node table",
  "Compiling any non-empty pattern that does not end in a lone backslash ends and only touches allocated nodes and the pattern; matching ends and, if no element of the pattern matches a NUL character (and the text does not end in white space if there is a \\b or \\B), never reads beyond the terminator of the text.",
  "every pattern and text",
  "out-of-bounds reads are invisible to tests",
  "src/arg_rex.c:trex_newnode", "src/arg_rex.c:trex_charnode", "src/arg_rex.c:trex_matchnode")
p("C27", "Floating point arguments consume the whole text",
  "A floating point argument is stored iff the system's strtod consumes the argument up to its end (so also for the empty string), and the stored value is strtod's value; the value array is correctly aligned and inside the allocated block wherever the allocator placed it.",
  "every text, every behaviour of strtod within its contract, every block address",
  "all addresses and texts",
  "src/arg_dbl.c:arg_dbl_scanfn", "src/arg_dbl.c:arg_dbln")
p("C28", "Dynamic strings behave like strings",
  "For every sequence of create/set/cat/catc/catf/reset operations, the text returned by arg_dstr_cstr is the one given by plain string concatenation. Setting the string to the part of itself from byte j on works exactly if that part is shorter than what stands before it; else the two overlap in a strcpy, which is undefined.",
  "every operation sequence (total length at most 2^29); for setting a text to a part of itself every text that fits in the fixed buffer",
  "unbounded sequences crossing every buffer growth boundary",
  "src/arg_dstr.c:arg_dstr_set", "src/arg_dstr.c:arg_dstr_cat", "src/arg_dstr.c:setup_append_buf", "src/arg_dstr.c:arg_dstr_reset")
p("C29", "Dynamic strings are memory safe and leak free",
  "For every such sequence there is no out-of-bounds access, no use after free, no double free, and after arg_dstr_destroy every block allocated by the module has been freed; a dynamic string handed over with a release procedure is released exactly once.",
  "every operation sequence", "heap errors are invisible to functional tests",
  "src/arg_dstr.c:arg_dstr_set", "src/arg_dstr.c:setup_append_buf", "src/arg_dstr.c:arg_dstr_free", "src/arg_dstr.c:arg_dstr_destroy")
p("C30", "Formatted append never truncates and terminates",
  "arg_dstr_catf appends exactly the text that vsnprintf would produce, of whatever length, after finitely many attempts, with no write outside its buffer.",
  "every format length and output text",
  "all lengths around the growth boundaries",
  "src/arg_dstr.c:arg_dstr_catf")
p("C31", "The command registry is a map",
  "After any sequence of arg_cmd_register/arg_cmd_unregister, arg_cmd_info(name) returns the data of the last registration of name not followed by its unregistration, NULL if there is none; other names are unaffected.",
  "every operation sequence, names, and hash function",
  "unbounded histories crossing every table expansion and every collision pattern",
  "src/arg_cmd.c:arg_cmd_register", "src/arg_hashtable.c:arg_hashtable_insert", "src/arg_hashtable.c:arg_hashtable_search", "src/arg_hashtable.c:arg_hashtable_remove", "src/arg_hashtable.c:arg_hashtable_expand")
p("C32", "The command count is exact",
  "arg_cmd_count is the number of distinct names currently registered.",
  "every operation sequence", "unbounded histories",
  "src/arg_cmd.c:arg_cmd_count", "src/arg_hashtable.c:arg_hashtable_count")
p("C33", "Iteration visits every command exactly once",
  "Creating an iterator and advancing it until it reports the end visits each registered command exactly once.",
  "every reachable table", "all chain shapes",
  "src/arg_hashtable.c:arg_hashtable_itr_create", "src/arg_hashtable.c:arg_hashtable_itr_advance")
p("C34", "Removing through the iterator",
  "Removing the element under the iterator removes exactly that element, leaves the others, and the iterator then continues over exactly the elements not yet visited.",
  "every reachable table and iterator position", "all chain shapes and positions",
  "src/arg_hashtable.c:arg_hashtable_itr_remove")
p("C35", "Keys and values owned by the hash table are released exactly once",
  "Every key and value block handed to the table is freed exactly once: at its removal, replacement or at destruction (values only when asked).",
  "every operation sequence ending in destruction",
  "heap errors are invisible to functional tests",
  "src/arg_hashtable.c:arg_hashtable_remove", "src/arg_hashtable.c:arg_hashtable_destroy", "src/arg_hashtable.c:arg_hashtable_change")
p("C36", "Expansion keeps the load bounded and all buckets right",
  "In every reachable table each entry sits in the bucket given by its hash, the number of buckets is a table prime larger than the requested size, and the number of entries does not exceed the load limit unless the largest size is reached.",
  "every operation sequence", "needs up to 10^9 entries to reach all sizes",
  "src/arg_hashtable.c:arg_hashtable_expand", "src/arg_hashtable.c:arg_hashtable_create")
p("C37", "arg_mgsort sorts",
  "For any total-preorder comparison, arg_mgsort rearranges exactly the elements between the two indices into ascending order and leaves all others in place, with no access outside of the array or its scratch block and no overflow in its byte offsets. Two elements of a gigabyte each are too much for its int offsets.",
  "every array of at most INT_MAX bytes and less than 2^30 elements up to the second index, every element size, index pair and comparison", "unbounded arrays",
  "src/arg_utils.c:arg_mgsort", "src/arg_utils.c:merge")
p("C38", "arg_mgsort does not keep the order of equal elements",
  "arg_mgsort is not stable: there is an array with two elements that compare equal whose order is exchanged.",
  "refutation: the claim of stability for all arrays fails on the witness given",
  "the documentation does not say; tests only sort distinct keys",
  "src/arg_utils.c:merge")
p("C39", "Option syntax strings never overflow their buffer",
  "Formatting an option's tags and datatype never writes outside the 200 byte buffer; the text is exactly the ideal text when that has at most 198 characters, and otherwise agrees with it on the first 198 characters and is at most 199 long.",
  "all option strings, datatypes, separators", "arbitrary lengths and boundary positions",
  "src/argtable3.c:arg_cat", "src/argtable3.c:arg_cat_option", "src/argtable3.c:arg_cat_optionv", "src/argtable3.c:arg_print_option_ds")
p("C40", "Syntax lines list every option the right number of times",
  "arg_print_syntaxv prints, for each entry in order, mincount plain occurrences then the optional ones in brackets (one, two, or one followed by dots); arg_print_syntax prints value-less short options as a cluster first and the others likewise.",
  "every table", "all counts and table shapes",
  "src/argtable3.c:arg_print_syntax_ds", "src/argtable3.c:arg_print_syntaxv_ds", "src/argtable3.c:arg_print_gnuswitch_ds")
p("C41", "Text wrapping loses no word and respects the right margin",
  "Unless rmargin - lmargin + 1 is 0 (as an unsigned number), arg_print_formatted terminates, prints the non-white characters of the text in order and nothing else but white space, no output line has more text than the column width, a line ends only at a newline of the text, at its end, where the next word does not fit, or inside a word longer than the column, and this determines the output. With a width of 0 it never returns.",
  "every text and margins", "all texts and widths",
  "src/argtable3.c:arg_print_formatted_ds")
p("C42", "Which wrapped lines are indented",
  "arg_print_formatted indents a line after the first by the left margin exactly if the text left at the beginning of the line before did not fit into the column (except for a newline followed by a full column that ends with white space). So every line but the first is indented when the text has no newline, but not always after a newline in the text.",
  "every text and margins", "all texts and widths; the natural claim that all lines are indented is false of the code",
  "src/argtable3.c:arg_print_formatted_ds")
p("C43", "Error reports name every recorded error once",
  "With a program name, arg_print_errors writes one message per recorded error, in order: the program name, a colon, text that names the argument or option at fault (or says that there were too many errors or too little memory), and a line end. After a parse these are the messages of exactly the errors the parse reported. A message may contain further line ends.",
  "every content of the error table", "all combinations of entries and errors",
  "src/arg_end.c:arg_print_errors_ds", "src/arg_end.c:arg_end_errorfn", "src/arg_int.c:arg_int_errorfn")
p("C44", "arg_nullcheck finds missing entries",
  "arg_nullcheck returns 1 iff the table pointer is NULL or some entry up to and including the terminator is NULL.",
  "every table", "all positions", "src/argtable3.c:arg_nullcheck")
p("C45", "arg_freetable frees each entry exactly once",
  "arg_freetable frees every non-NULL entry of the array exactly once and sets it to NULL, so a second call does nothing; arg_free does so only up to the first NULL entry.",
  "every array of distinct entries", "all patterns of NULL entries",
  "src/argtable3.c:arg_freetable", "src/argtable3.c:arg_free")
p("C46", "Help has precedence over errors",
  "arg_make_syntax_err_help_msg returns 1 with a success exit code when help was requested even if there are errors, 1 with a failure code when there are errors, and 0 leaving the exit code alone otherwise.",
  "all counts", "all combinations", "src/arg_cmd.c:arg_make_syntax_err_help_msg")
p("C47", "Dispatch runs the registered procedure",
  "arg_cmd_dispatch(name) calls the procedure of the last registration of that name with the given arguments and its own context, and returns its result.",
  "every registry history", "unbounded histories", "src/arg_cmd.c:arg_cmd_dispatch")
p("C48", "Constructors normalise counts",
  "Every constructor yields an entry with maxcount >= mincount whose value array has exactly maxcount slots; string slots are initialised to the empty string. The constructors ending in 0 and 1 ask for zero or one and for exactly one occurrence. Options and texts are as given, with the documented default for a missing data type; a date entry without a format reads MM/DD/YY.",
  "all requested counts", "all integers",
  "src/arg_int.c:arg_intn", "src/arg_str.c:arg_strn", "src/arg_file.c:arg_filen", "src/arg_lit.c:arg_litn")
p("C49", "A short option always reaches the entry that declares it",
  "Each short option character declared in the table (other than the characters the scanner reserves, including '?' and ':') is dispatched to the first entry declaring it, with a value taken iff that entry takes one.",
  "every table and option character", "all tables with duplicate declarations",
  "src/argtable3.c:find_shortoption", "src/argtable3.c:alloc_shortoptions", "src/arg_getopt_long.c:getopt_internal")
p("C50", "Values are stored in the order of the command line",
  "After a parse that returns 0, every entry has counted exactly its occurrences on the command line, and the k-th occurrence's value, converted as the entry's kind prescribes, is in slot k; an occurrence without value leaves its slot alone, and so do the slots beyond the count (a string entry first clears the slots of the previous parse).",
  "every table of library kinds reached by construction, presets and earlier parses, and every argv", "unbounded tables, histories and command lines, all kinds",
  "src/argtable3.c:arg_parse_tagged", "src/argtable3.c:arg_parse_untagged", "src/arg_int.c:arg_int_scanfn", "src/arg_str.c:arg_str_scanfn", "src/arg_date.c:arg_date_scanfn")
p("C51", "Parsing the same command line again gives the same result",
  "Calling arg_parse a second time with the same argv leaves the table exactly as after the first call, with the same return value and the same recorded errors, whatever happened in between to the getopt variables; exceptions are date formats that mention AM/PM before the hour, and string entries with an optional value whose default the second call clears.",
  "every table of library kinds reached by construction, presets and earlier parses, and every argv", "unbounded histories; all combinations of kinds, errors and values",
  "src/argtable3.c:arg_parse", "src/argtable3.c:arg_reset", "src/arg_str.c:arg_str_resetfn", "src/arg_date.c:arg_strptime")
p("C52", "Scan functions get a value exactly when the flags say so",
  "A user-defined scan function of an option with ARG_HASVALUE but not ARG_HASOPTVALUE is never called with a NULL value, one of an option without these flags never with a value, and one of an entry without option strings never with NULL: what the function does in the excluded cases does not influence any parse.",
  "every table of entries with arbitrary scan functions, and every argv", "quantifies over functions supplied by the user",
  "src/argtable3.c:arg_parse_tagged", "src/argtable3.c:arg_parse_untagged", "src/arg_getopt_long.c:getopt_internal")
p("C53", "The glossary has one row for each described entry",
  "arg_print_glossary writes, for each entry that has a glossary text and in table order, one row made of the option's tags (separated by a comma and a blank) and that text, in the given format or by default as two blanks, a column of 20, the text and a newline; entries without glossary text are left out.",
  "every table and every row format", "all tables, texts and lengths",
  "src/argtable3.c:arg_print_glossary_ds", "src/argtable3.c:arg_cat_optionv")
p("C54", "The GNU glossary has one row for each described entry",
  "arg_print_glossary_gnu writes, for each entry with a glossary text and in table order, the option's tags in a column of 25 (on their own line if longer; four blanks further in if there is no short option) and the text wrapped in columns 29 to 80, and finally an empty line.",
  "every table", "all tables, texts and lengths",
  "src/argtable3.c:arg_print_glossary_gnu_ds", "src/argtable3.c:arg_print_formatted_ds")
p("C55", "Texts of the help, error and greeting messages",
  "For every registry history, module name, command and table, arg_make_help_msg appends the command's registered description (if it is registered), the usage line, and one row per entry that has a glossary text; arg_make_syntax_err_msg appends the messages of all recorded errors and then the usage line; arg_make_get_help_msg appends the name, version and hint. Nothing else is appended. Without arg_cmd_init the help text cannot be made: it follows a NULL pointer.",
  "every registry history, table, error record and name", "all combinations of registry, table and errors",
  "src/arg_cmd.c:arg_make_help_msg", "src/arg_cmd.c:arg_make_syntax_err_msg", "src/arg_cmd.c:arg_make_get_help_msg")
p("C56", "Module name and version are those set last",
  "After any sequence of arg_set_module_name and arg_set_module_version the messages show the name and the version set last (major.minor.patch.tag in decimal), or <name> and 0.0.0.0 if there is none; the caller's strings may be reused after each call, replaced texts are released, and no other memory changes.",
  "every sequence of calls, every text and number", "unbounded histories and texts",
  "src/arg_cmd.c:arg_set_module_name", "src/arg_cmd.c:arg_set_module_version")
p("C57", "Constructors place the arrays of an entry inside its block",
  "For every entry made by a constructor (integers, strings, files, dates, regular expressions, end marker), the value arrays, each for as many elements as the effective maximum count, lie behind the structure inside the allocated block, without overlap and suitably aligned. For the end marker on a 64-bit machine this holds exactly for even maximum counts; negative counts and, on 32-bit machines, counts whose size does not fit size_t are excluded.",
  "every address of the block, every minimum and maximum count, 32 and 64-bit pointers", "all counts and addresses; misalignment and overlap are invisible on common machines",
  "src/arg_int.c:arg_intn", "src/arg_str.c:arg_strn", "src/arg_file.c:arg_filen", "src/arg_date.c:arg_daten", "src/arg_rex.c:arg_rexn", "src/arg_end.c:arg_end")
p("C58", "Orderly regex patterns accept exactly their language",
  "For a pattern in which taking as much text as possible never stands in the way of what follows (in every repetition, sequence and alternation), whose elements do not match NUL, a text is accepted by an arg_rex entry if and only if it belongs to the language of the pattern. For other patterns texts of the language can be rejected (a*a rejects aaa, b*(a?) rejects bbb). With \\b and \\B the same holds for texts that do not end in white space, if the boundaries are taken where C24 says.",
  "every orderly pattern and every text of at most 65535 characters", "infinitely many patterns and texts",
  "src/arg_rex.c:trex_compile", "src/arg_rex.c:trex_matchnode", "src/arg_rex.c:trex_match")
p("C59", "Exactly the well-formed command lines are accepted",
  "For every table of the library's own kinds, arg_parse returns 0 if and only if the arguments can be read as occurrences of declared options (alone, in clusters, abbreviated, with the value attached or in the next argument) and positional arguments, such that every entry gets between mincount and maxcount values, all of its kind, when the positional arguments go to the entries without options in table order, each taking as many as it can. Then every entry has counted what it was given and holds the values in order. There is at most one such reading.",
  "every table, every command line", "both directions range over infinitely many command lines: that nothing well-formed is refused and nothing ill-formed is accepted",
  "src/argtable3.c:arg_parse", "src/argtable3.c:arg_parse_tagged", "src/argtable3.c:arg_parse_untagged", "src/argtable3.c:arg_parse_check", "src/arg_getopt_long.c:getopt_internal")
p("C60", "Values of regex entries belong to the language",
  "In a table with arg_rex entries, matched by the library's own matcher: if the patterns compile and match no NUL, parsing does nothing undefined. After a parse that returns 0 every value held by an arg_rex entry that requires values belongs to the language of its pattern, and there are between mincount and maxcount of them. If the pattern is orderly (C58), the entry accepts exactly those lists of at most maxcount and at least mincount texts that all belong to the language.",
  "every table, every command line, every pattern of the supported syntax", "the patterns, tables and command lines are unbounded, and so are the languages",
  "src/argtable3.c:arg_parse", "src/arg_rex.c:arg_rex_scanfn", "src/arg_rex.c:trex_match")
p("C61", "The whole report: every error real, none missing",
  "For every command line on which the parse returns, right or wrong, the errors recorded are exactly these, in this order: for each option in turn, an unknown short option (its character), a long option that selects nothing or is given a value it does not take, a missing or empty required value, and every occurrence its entry refuses (full, or the text is not of its kind: no integer, integer out of range, no number, no date, no match), owned by that entry and with the text; then, about the positional arguments nobody takes, the first as refused by the last positional entry and the others as unexpected; and only if there is nothing else, one shortage per entry that has less than its minimum. A refused value changes nothing: every entry holds exactly the values it accepted, in order. If there are more errors than arg_end has room for, the first ones are recorded and a mark that there were more. The report is determined by the command line and the table.",
  "every table of the library's kinds, every command line, every size of arg_end", "tables, command lines and their mistakes are unbounded; tests cannot show that no other error appears",
  "src/argtable3.c:arg_parse", "src/argtable3.c:arg_parse_tagged", "src/argtable3.c:arg_parse_untagged", "src/argtable3.c:arg_parse_check", "src/argtable3.c:arg_register_error")
p("C62", "Remarks have no effect on parsing",
  "An arg_rem entry may stand anywhere in the table: with it the same command lines are parsed, with the same return value; every other entry comes out the same, the remark is unchanged, and the same errors are recorded of the same entries. It never takes an argument and is never missing, although its header says mincount = maxcount = 1. The syntax lines show its left text as if it had to be typed, and the verbose line a stray blank if it has none.",
  "every table, every position of the remark, every command line", "unbounded tables and command lines",
  "src/arg_rem.c:arg_rem", "src/argtable3.c:arg_parse_untagged", "src/argtable3.c:arg_parse_check")
p("C63", "The order of options of different entries is irrelevant",
  "Two command lines that give every entry the same values in the same order, have the same positional arguments and the same mistakes in some order, are parsed with the same return value and leave the same table; the errors are the same up to order. In particular two neighbouring groups of options that have no entry in common can be exchanged anywhere in a command line, right or wrong.",
  "every table with any kinds of entries, all command lines", "unbounded command lines, all orders",
  "src/argtable3.c:arg_parse_tagged", "src/argtable3.c:arg_parse", "src/arg_getopt_long.c:getopt_internal")
p("C64", "All spellings of a command line are parsed alike",
  "Short or long, abbreviated or in full, in a cluster or one by one, with the value attached, after an equals sign or in the next argument, options before, between or behind the positional arguments: command lines that spell the same occurrences and the same positional arguments are parsed alike. The canonical spelling --name=value ... -- positional ... is one of them, with or without POSIXLY_CORRECT, so any non-empty values and any positional arguments can be passed by it.",
  "every table, every two spellings", "unbounded; the number of spellings of one command line grows exponentially",
  "src/argtable3.c:arg_parse", "src/arg_getopt_long.c:getopt_internal", "src/arg_getopt_long.c:parse_long_options")
p("C65", "A new optional option does not disturb the command lines of old",
  "If a program adds to its table, anywhere, an entry made with mincount 0 whose option letters and long names are all new, then every command line made of options of the old table and of positional arguments is parsed as before: the same return value, the old entries come out the same, the new entry comes out with nothing in it, and the same errors are recorded of the same entries. The one condition: no long name on the command line is abbreviated to the beginning of a name of the new entry (a full name always stays what it was).",
  "every table, every new entry of every kind, every position, every such command line", "unbounded tables and command lines; concerns pairs of programs",
  "src/argtable3.c:arg_parse", "src/argtable3.c:arg_parse_tagged", "src/arg_getopt_long.c:parse_long_options")
p("C66", "The syntax line can be followed",
  "Whoever types the required parts of the line that arg_print_syntax writes, and any of the optional ones, with a good word in the place of each data type, is understood by arg_parse: it returns 0 and every entry has the values typed for it. The tags shown must not be shadowed by earlier entries. Optional occurrences of an entry without options may be left out only if no later such entry is used: ' <src> [<src>] <dst>' is not satisfied by two arguments.",
  "every table of the library's kinds, every choice of optional parts, all values", "unbounded; relates two independent halves of the library, the printer and the parser",
  "src/argtable3.c:arg_print_syntax_ds", "src/argtable3.c:arg_cat_option", "src/argtable3.c:arg_print_gnuswitch_ds", "src/argtable3.c:arg_parse")
p("C67", "The alternatives shown for an option are those that work",
  "Every tag that arg_print_syntaxv and the glossaries show for an entry selects this entry in arg_parse, with the next argument as its value if the entry takes one, unless the tag is shown for an earlier entry too; so one tag may be typed in place of another in any command line, with the same result. Conversely every option that selects the entry is shown, or abbreviates a name that is. A name with an equals sign is the exception: it is shown but can not be typed.",
  "every argument table, every tag shown, every command line around it, right or wrong", "unbounded; relates two independent halves of the library, the printer and the parser",
  "src/argtable3.c:arg_cat_optionv", "src/argtable3.c:arg_print_syntaxv_ds", "src/argtable3.c:arg_print_glossary_ds", "src/argtable3.c:arg_parse")
p("C68", "Command lines can be put together",
  "A program may put arguments of its own (say, from a configuration file or an environment variable) in front of what the user typed. If the first part consists of words and complete options, arg_parse reads the whole as the options and positional arguments of the first part followed by those of the second, whatever the second part is; the values and errors follow from that. It is not true of every first part: one that contains -- or ends in an option that lacks its value changes the meaning of the second.",
  "every argument table, every first part of words and complete options, every second part, right or wrong", "unbounded; a statement about all pairs of command lines",
  "src/argtable3.c:arg_parse", "src/argtable3.c:arg_parse_tagged", "src/arg_getopt_long.c:getopt_internal")
p("C69", "What POSIXLY_CORRECT changes",
  "If the environment variable POSIXLY_CORRECT is set, arg_parse reads a command line as it would if -- stood in front of the first positional argument. It makes no difference at all exactly for the command lines in which every option stands before the first positional argument.",
  "every argument table and every command line, right or wrong", "the test programs do not set the variable; all command lines are meant",
  "src/arg_getopt_long.c:getopt_internal", "src/argtable3.c:arg_parse")
p("C70", "No text can be mistaken for an option where it is put as a value",
  "A program that builds a command line for another one may put any text as the value of an option, in an argument of its own or behind the equals sign or behind a letter, and any texts as positional arguments behind --: whatever characters they consist of, and whether or not they look like options, they arrive as exactly these values. An empty text is the exception: directly behind a letter it makes the option take the next argument, and behind a long name it is reported as missing. Nor may a text be put in an argument of its own where the value is optional, or as a positional argument without --.",
  "every argument table, every list of texts and places, every text", "unbounded texts; the dangerous ones (empty, beginning with a dash, containing =) are found by proof, not by trial",
  "src/argtable3.c:arg_parse", "src/arg_getopt_long.c:getopt_internal", "src/arg_getopt_long.c:parse_long_options")
p("C71", "An entry's result depends only on its own occurrences",
  "What arg_parse leaves in an entry that has options, and the errors recorded about it, depend only on the entry and on the values its own options were given, in their order: not on the other entries of the table, on the other arguments, nor on errors in them (except that the check of its minimum is left out if there are such errors). An entry whose options are not used keeps the default values the program has set, with count 0.",
  "every two tables that share an entry (of any kind, user-written kinds too), every two command lines, right or wrong, in which its options are given the same values", "a statement about all pairs of tables and command lines",
  "src/argtable3.c:arg_parse", "src/argtable3.c:arg_parse_tagged", "src/argtable3.c:arg_parse_untagged", "src/argtable3.c:arg_parse_check")
p("C72", "Loosening the counts of a table keeps old command lines valid",
  "If the minimum counts of entries are lowered, and the maximum counts of entries with options are raised, arg_parse accepts every command line it accepted before, with the same counts, and with every text stored as the same value in the same slot. It is not true of raising the maximum of an entry without options: that one may take arguments that a later entry needs.",
  "every two tables that differ in this way, made by the constructors, parsed with before or not, every command line accepted by the first", "unbounded; a statement about all pairs of tables",
  "src/argtable3.c:arg_parse", "src/arg_int.c:arg_int_scanfn", "src/arg_int.c:arg_int_checkfn")
p("C73", "The order of the options in a table is irrelevant",
  "Putting the entries of a table in another order changes nothing in what arg_parse leaves in each entry, nor the number of errors, and, while the table of errors is not full, nor the errors themselves but for their order - as long as the entries without options keep their order among themselves, and entries that share an option keep theirs. In these two cases the order does matter.",
  "every table (of any kinds of entries, user-written ones too), every such reordering of it, every command line, right or wrong", "a statement about all pairs of tables, and all command lines",
  "src/argtable3.c:arg_parse", "src/argtable3.c:arg_parse_tagged", "src/argtable3.c:arg_parse_untagged", "src/argtable3.c:arg_parse_check", "src/argtable3.c:find_shortoption", "src/arg_getopt_long.c:parse_long_options")
p("C74", "Every combination of values can be written on a command line",
  "For a table of entries with short options: whatever numbers of switches, ints (INT_MIN and INT_MAX too), texts (empty ones, and ones that look like options, too), file names and valid doubles, dates and matches of regular expressions are wanted, within the counts of the entries, the command line that puts each value in an argument of its own after its option, numbers in decimal, is accepted, and leaves just these values, in their order, in the entries. The same for every table and every command line that says the values by short or long options, attached or in an argument of their own, the options in any order, and the values of entries without options behind --, in table order, provided that such an entry has no room left, or cannot take what follows, where the next one begins, and that empty texts are put behind short options or are positional. There is no way around the condition on room: whatever the command line, a positional text or file entry with room left means that all later entries without options got nothing.",
  "every table made by the constructors, parsed with before or not, every choice of values for each entry, every choice of places for them", "unbounded in the number of entries, values and lengths of texts",
  "src/argtable3.c:arg_parse", "src/arg_int.c:arg_int_scanfn", "src/arg_str.c:arg_str_scanfn", "src/arg_file.c:arg_file_scanfn", "src/arg_lit.c:arg_lit_scanfn")
p("C75", "Several tables parsed one after another do not disturb one another",
  "A program with several syntaxes can parse the same command line with one table after the other: every call of arg_parse gives, in its table and in its arg_end, just what it would give if it were the only call, whatever state the earlier calls left behind. With the entries of the library it returns 0 exactly for those tables for which the command line is well-formed (C59).",
  "every list of tables, each with its own command line, all command lines on which arg_parse comes back (C12)", "unbounded in the number of calls; a test sees a few orders of a few tables",
  "src/argtable3.c:arg_parse", "src/argtable3.c:arg_parse_tagged", "src/arg_getopt_long.c:getopt_internal")
p("C76", "All texts in the table come from the arguments",
  "After arg_parse, right or wrong command line, every slot of every entry is either what it was after the reset at the start of the parse, or, if it holds a text, that text is an argument or the end of one; of a file, the base name is an end of the name, and the extension an end of the base name. The same holds for the text of every error in arg_end. No text is put together from pieces, and argv[0] is never used.",
  "every table made by the constructors, parsed with before or not, every command line on which arg_parse comes back", "a statement about every slot after every command line",
  "src/argtable3.c:arg_parse", "src/arg_str.c:arg_str_scanfn", "src/arg_file.c:arg_file_scanfn", "src/arg_rex.c:arg_rex_scanfn", "src/arg_end.c:arg_register_error")
p("C77", "Dates written by strftime are read back",
  "Whatever strftime writes, in the C locale, for a time with a format made of the conversions a A b B d D h H j m M n R S t T U w W x X y Y and %, and any other characters, an arg_date entry with the same format accepts, and the time it stores agrees with the one written in every field the format mentions; the other fields stay as they were. On the other hand the example that the message about a wrong date gives as correct is the all-zero time in the entry's format, so it is refused itself whenever the format mentions the day of the month (as the default format does), and accepted otherwise. Not read back are what strftime pads with a space (%e), %c, and an abbreviated name completed by the text that follows.",
  "every format of these conversions in which no abbreviated name is directly followed by a letter, every time with its fields in their ranges, a year of four digits for %Y and of 1969 to 2068 where only two digits are written", "unbounded in the length of the format; tests know a few formats and dates",
  "src/arg_date.c:arg_strptime", "src/arg_date.c:arg_date_scanfn", "src/arg_date.c:arg_date_errorfn")
p("C78", "Long options behind one dash",
  "In a library built with ARGTABLE3_LONG_ONLY, a command line that arg_parse accepts is accepted by the default library with the same values once a dash is written in front of every long option that has only one (so -name is --name, and -vname is -v-name when v is a switch). A long name (or an abbreviation of one, if it is longer than one character or does not begin like a short option), with or without a value, may be written behind one dash or two with the same outcome. If no long name begins like a short option, = is no short option and no entry has two long names, this build accepts every command line the default one accepts, with the same values. Without these conditions a command line may be accepted by both and mean different things, or be refused by this build. As in the default build the outcome depends on the table and the arguments only, the caller's argv and memory are left alone, nothing undefined happens, and parsing ends unless an option argument ends in a dash.",
  "every argument table, every command line, any earlier state of the parser; for safety all tables of the library's kinds of entries", "unbounded in the arguments and the names; the option is off in the builds that are tested",
  "src/argtable3.c:parse_tagged", "src/arg_getopt_long.c:getopt_long_only", "src/arg_getopt_long.c:parse_long_options", "CMakeLists.txt:ARGTABLE3_LONG_ONLY")
p("C79", "Whole programs",
  "A program written like the examples (build the table, arg_nullcheck, arg_parse, then help, version, errors or the work, then arg_freetable), for every command line, does nothing undefined, leaves nothing allocated, and prints: with its help option anywhere among the options, and whatever else is wrong, the usage, and returns 0; else with its version option the version, and returns 0; else if something is wrong, one message for every error (the first 19 and a remark if there are more than 20) and a hint, and returns 1; else what its work prints from the values that the command line gives. In particular: echo prints which of -n, -e, -E were given and the strings in order; uname the fields asked for, or all with -a; myprog the values given, and its defaults 3 and - for those not given. uname without options does not do the same as uname -s, though its help says so, and uname -- prints an empty line; myprog without arguments is an error, its branch for this case is never reached. myprog_C89 does what myprog does, but for its name and a shorter usage.",
  "every program of this frame with any table of the library's kinds, any work that is defined after a successful parse, every command line of arguments up to 20000000 bytes on which arg_parse comes back (C12), none of whose ends is a text of C18 if there are integer entries, any earlier state of the parser", "unbounded in the command line; the examples are not run by the tests",
  "examples/echo.c:main", "examples/uname.c:main", "examples/myprog.c:main", "examples/myprog_C89.c:main", "src/argtable3.c:arg_parse", "src/argtable3.c:arg_print_errors", "src/argtable3.c:arg_freetable")
p("C80", "Several syntaxes",
  "A program may try the same command line on several tables in turn. If no option takes a value in one table and none (or an optional one) in the other, two tables that both find the options spelt correctly see the same positional arguments; so if the tables require different first words, or one a first word and the other has no positional arguments, no command line is accepted by both. Without that condition one command line may be accepted by both. The example multisyntax (insert, remove, search, or only options), for every command line, does nothing undefined, leaves nothing allocated, is right for at most one of its four syntaxes and prints what that one says; with none right it prints the messages and the syntax of the table whose command word comes first among the positional arguments as that table sees them, and all four syntaxes if there is none; it returns 0 in every case. It asks for its command words in either case but accepts them in lower case only.",
  "every two tables of the library's kinds, every command line; for multisyntax every command line of arguments up to 20000000 bytes on which the four parses come back (C12), any earlier state of the parser", "unbounded in the command line and the tables; the example is not run by the tests",
  "examples/multisyntax.c:main", "examples/multisyntax.c:mymain1", "examples/multisyntax.c:mymain2", "examples/multisyntax.c:mymain3", "examples/multisyntax.c:mymain4", "src/argtable3.c:arg_parse")
p("C81", "Patterns that can be checked beforehand",
  "A pattern is a way to write at most one expression, found by reading it from left to right. If it passes a check of the pattern alone (it is written correctly and short enough, has no dot, negated set or word boundary in it, and wherever there is a choice, to go on with a repetition or which alternative to take, the next character decides, or the alternatives are words of which none is the beginning of a later one), then an arg_rex entry with this pattern accepts exactly the texts of its language, and tables of such entries are within reach of all the claims about tables. [+\\-]?\\d+(\\.\\d+)?([eE][+\\-]?\\d+)? passes the check, [ab]*ab does not.",
  "every pattern that passes the check, every text of at most 65535 characters, with and without regard to case", "infinitely many patterns and texts",
  "src/arg_rex.c:trex_compile", "src/arg_rex.c:trex_matchnode", "src/arg_rex.c:trex_match", "src/arg_rex.c:arg_rexn")
p("C82", "Running out of memory",
  "As long as the panic function does not return, a constructor either returns a new block of its own (NULL only if arg_rexn is given NULL for a pattern), having released everything else it allocated, or the first request for memory that is refused calls the panic function, once, with nothing released that existed before. The library's own panic function writes exactly 'Out of memory!' and a newline to stderr and ends the program with status 1, or with abort if EF_DUMPCORE is set and not empty. So a table that was built needs no check: arg_nullcheck finds 1 in it if a pattern was NULL and otherwise 0. arg_parse and the matching of values with patterns release all that they allocate. If there is enough memory, everything returns. (With a panic function that returns, the library uses a null pointer.)",
  "every constructor with all counts (less than INT_MAX for arg_dbln) and all patterns that are read without undefined behaviour, every table, every number of values matched with patterns that compile, every sequence of granted and refused requests, every panic function that does not return", "the requests that fail can be any",
  "src/arg_utils.c:panic", "src/arg_utils.c:xmalloc", "src/arg_utils.c:xcalloc", "src/arg_utils.c:xrealloc", "src/arg_utils.c:xfree", "src/arg_rex.c:trex_compile", "src/arg_rex.c:trex_free", "src/arg_rex.c:arg_rexn", "src/argtable3.c:arg_parse", "src/argtable3.c:arg_nullcheck")
p("C83", "How long the matching of an argument with a pattern takes",
  "Let m be the length of an arg_rex pattern with R repetitions (*, +, ?, {...}). Matching an argument with it takes at most (m+1)*(1+N*(m+2))^R steps (a step: a visit of a part of the pattern, or a member of a set looked at), where N is 65536 for every pattern, the length n of the argument if all that is repeated takes at least a character, and the largest upper limit if all repetitions have one below 65535. So matching always ends after a number of steps that the pattern alone determines; without repetitions that is m+1, exactly reached by every word (one step and one for each character up to the first that differs); a set takes two steps and one for each member up to the first that has the character, and c* takes n+2 steps for n characters c. The exponent cannot be improved: for every k there is a pattern of 4k+1 characters with k repetitions that takes (n/k)^k steps for arguments of a's (n at most 65535 and a multiple of k). Where what is repeated can be empty the length of the argument is no bound: there are patterns of 3k+4 characters that take at least 65536^k steps for any argument whose first character is not an a (nor, without regard to case, an A), 2^64 for 16 characters.",
  "every pattern of at most INT_MAX/2 characters, every argument of any length, every flags, every number k of repetitions", "a bound for all patterns and arguments; the bad cases would not end",
  "src/arg_rex.c:trex_matchnode", "src/arg_rex.c:trex_matchclass", "src/arg_rex.c:trex_match", "src/arg_rex.c:arg_rex_scanfn")
p("C84", "getopt, and what the option scanner prints",
  "A program that calls getopt until it returns -1 sees what POSIX says, for every option string of letters (each without value, with one, or, as c::, with an optional one) and every argv: one result for each option letter in the order of the arguments, with optarg the rest of the argument or the next argument; '?' with optopt for a letter that is not an option; '?' (or ':' if the option string begins with a colon) for a missing value; the scan ends before the first argument that is no option (or only a dash) or behind --; argv is unchanged and optind is the index of the first operand. If opterr is not 0 and the option string has no colon in front, exactly one line is printed for each letter that is no option and for each missing value, with the text for it, and nothing else; otherwise nothing. getopt_long and getopt_long_only too print exactly one line for each '?' (if no option returns '?' itself), nothing if opterr is 0 or the colon is there; for an argument --name[=value] both give the option named or abbreviated, its value and the index, or the right one of four messages (getopt_long_only takes an abbreviation only if one name begins with it). For -name[=value] getopt_long_only does the same, with one dash in the messages, if the first character is no option letter; if it is one, a single letter is no abbreviation and an argument that is no long option is read just as getopt_long reads it. If the option string has W; then getopt_long reads -Wname and -W name like --name, with -W in the messages, and -W at the end as an option without its value. arg_parse never prints anything, whatever opterr was, and leaves opterr 0 (unless argc is 0). Exceptions: an argument of several letters that ends in a dash stops the scan of getopt, and getopt_long returns '?' without a message and reads it again for ever; the character 255 ends the scan.",
  "every option string and list of long options, every argv of any length, POSIXLY_CORRECT set or not, opterr set or not, every state at the start of a scan", "unboundedly many argument vectors; effects on global state across calls",
  "src/arg_getopt_long.c:getopt", "src/arg_getopt_long.c:getopt_internal", "src/arg_getopt_long.c:parse_long_options", "src/argtable3.c:arg_parse_tagged")
p("C85", "The programs ls and mv, for every command line",
  "The example programs ls (79 entries: switches, integers, texts, one option whose value may be left out, remarks, files) and mv do for every command line what their source and their usage say. With --help in it (and nothing that hangs) they print exactly the usage text and return 0, mistakes or not; else with --version the version text and 0; else, if an option is mistyped, given twice or has a value that is not an integer in range where one is needed (mv: or there is no operand), one or more messages beginning with the program's name and a hint, and 1; else one line for each option given, in the fixed order of the source, with its value (for --color without value, always; for mv the defaults existing, query and ~), then the files numbered in order, and 0. Nothing stays allocated. Exceptions: ls shows 1 for every --block-size, and refuses sizes ending in K, M, G, T, P, Z or Y which its help offers; mv --verbose without --target-directory passes a null pointer to printf for every right command line; mv --backup a b takes a for the CONTROL that the usage shows as optional; mv a is accepted although the usage asks for a destination.",
  "every command line that arg_parse finishes (C12) and without the texts that C17 excludes (all arguments up to 20 MB, POSIXLY_CORRECT set or not)", "unboundedly many command lines and combinations of eighty entries",
  "examples/ls.c:main", "examples/ls.c:mymain", "examples/mv.c:main", "examples/mv.c:mymain", "src/argtable3.c:arg_parse")
p("C86", "The program of the Getting Started page and testargtable3, for every command line",
  "The program that the documentation shows first does the following for every command line. With --help (or an abbreviation) in it, it prints exactly its usage text and returns 0, mistakes or not. Else, if an option is mistyped or given twice, --level has no integer in range, or there are not one to a hundred files, it prints one or more messages beginning with its name and a hint, and returns 1. Else it prints nothing and returns 0. In every case nothing stays allocated, though the table is not checked for null entries. Exceptions: the text shown on the page is not the one printed (the row for --version differs); --version is an error without files and has no effect with them, though the usage says that it displays version information; more than a hundred files are refused though the usage sets no limit. The example testargtable3 behaves in the same way, with --scalar for --level, three more flags and its own usage text; that text says that without files the current directory is listed, but it is an error to give none.",
  "every command line (all arguments up to 20 MB, POSIXLY_CORRECT set or not)", "unboundedly many command lines",
  "docs/source/arg_getting_started.md:main", "examples/testargtable3.c:main", "src/argtable3.c:arg_parse", "src/argtable3.c:arg_print_syntax", "src/arg_end.c:arg_print_errors")
p("C87", "What arg_mgsort needs, whatever the comparison function answers",
  "arg_mgsort on n elements comes to an end and only rearranges them, even if the comparison function is inconsistent or answers differently each time. It calls it only with elements of the range that is sorted, at least n - 1 times and at most n L - 2^L + 1 times, where L is the base 2 logarithm of n rounded up; for every n there are elements for which it takes that many. It allocates n - 1 blocks, one after another: at most one exists at a time, with room for at most n elements, and none is left. Its calls are nested L + 1 deep.",
  "every array with indices up to 2^30 - 1, every range in it, every comparison function (also one with a memory), every n for the worst case", "unbounded in the array and in the behaviour of the comparison function",
  "src/arg_utils.c:merge", "src/arg_utils.c:arg_mgsort")
p("C88", "Going on after memory ran out",
  "A program may set a panic function that does not return but jumps back into the program. A dynamic string on which a call was broken off in this way keeps its text, and all further calls behave as if the broken-off ones had not been made; only appending text or copying a text of more than 200 bytes can be broken off, releasing the string releases everything but at most one block for each formatted append that was broken off, and the client's release function is called for exactly the texts handed over by completed calls. Setting the module's name or version for the first time may be broken off without harm. In the command registry only a registration can be broken off; it then leaves its name without a command, every other command as it was, and later calls work as usual; releasing the registry releases everything but at most one key and one command block for each registration that was broken off. (Setting them again may not: a broken-off call leaves a pointer to freed memory, which the next help text reads and the next setting frees once more. Nor does a registration that is broken off keep the old command of that name, and a full registry for which a larger table is refused does not fall back on the old table, as a comment says, but asks for a still larger one the next time.)",
  "every client that keeps the rules of the string and registry functions and decides each call by what was refused before, every sequence of granted and refused requests", "unbounded in the history and in which of the requests are refused; depends on the order of requests and assignments inside each call",
  "src/arg_dstr.c:arg_dstr_catf", "src/arg_dstr.c:setup_append_buf", "src/arg_dstr.c:arg_dstr_set", "src/arg_cmd.c:arg_set_module_name", "src/arg_cmd.c:arg_set_module_version", "src/arg_cmd.c:arg_cmd_register", "src/arg_hashtable.c:arg_hashtable_insert", "src/arg_hashtable.c:arg_hashtable_expand", "src/arg_utils.c:panic")
p("C89", "Changing the registry while iterating over it",
  "A program that iterates over the registered commands may, while a command is shown, register and unregister other commands, as long as no more than 35 commands (or no more than at the start, if that is more) are registered at any time. The iteration then comes to an end, shows no name twice (not even one that is unregistered and registered again), shows nothing but commands registered at that moment, with their data, and shows every command that was registered at the start and that none of the calls was about; afterwards the registry is what the calls made of it. Unregistering other commands needs no limit. (The command that is being shown must be left alone: to unregister it and then advance reads freed memory, for every registry; and a registration that brings the number to 36 can make the iteration show commands twice and leave out others.)",
  "every history of the registry, every client that decides its calls by what it has been shown so far", "unbounded in the history, the number of commands and the calls made during the iteration; depends on where in its hash chain a command is inserted and on which registrations move all commands to a larger table",
  "src/arg_cmd.c:arg_cmd_itr_create", "src/arg_cmd.c:arg_cmd_itr_advance", "src/arg_cmd.c:arg_cmd_register", "src/arg_cmd.c:arg_cmd_unregister", "src/arg_hashtable.c:arg_hashtable_insert", "src/arg_hashtable.c:arg_hashtable_remove", "src/arg_hashtable.c:arg_hashtable_expand", "src/arg_hashtable.c:arg_hashtable_itr_advance")
p("C90", "Entries with functions of the program's own",
  "A program may put entries of its own into the table whose reset, scan and check functions share its variables. arg_parse then calls, one after the other: every reset function, in the order of the table; the scan function of the entry for every option of the command line, in the order of the command line, whatever its errors (so of options that undo each other the last one counts); then, for the other arguments, the scan functions of the entries without options, each offered argument after argument until it refuses one, which goes to the next entry; and, if no argument was at fault, every check function in the order of the table. No other function is called, and none with other arguments. Every answer other than 0 is recorded as an error of its entry, except for a refusal after which another entry tried the same argument. If these functions return, arg_parse returns and has released what it allocated (unless an argument ends in a dash, as in C12). The entries of the library are the case in which each function works on its own entry.",
  "every table, every command line, any reset, scan and check functions over any shared state", "unbounded in tables, command lines and in what the functions do; about the order of calls, which tests with entries of the library cannot see",
  "src/argtable3.c:arg_parse", "src/argtable3.c:arg_parse_tagged", "src/argtable3.c:arg_parse_untagged", "src/argtable3.c:arg_parse_check", "src/argtable3.c:arg_reset", "src/argtable3.h:arg_hdr")
p("C91", "Parsing inside a parse",
  "The functions of a program's own entries may call arg_parse themselves, for other tables. If reset and check functions do so, to any depth (a check function parses another command line, whose table has reset functions that parse again, and so on), the outer parse has the outcome of C90: variables of the program, return value and recorded errors are as if each of these functions had been called on its own, and do not depend on what the option scanner was used for before. For scan functions this is false: the inner parse leaves the scanner where it stopped, and the outer one goes on from there in its own arguments. The outer parse may then never return, may skip options without an error, may offer a positional argument twice, and may record the error of a refused option without its text.",
  "every table, every command line, reset and check functions composed in any way of functions that leave the scanner alone and of parses that finish (C12), to any depth; any state of the scanner before", "unbounded in tables, command lines and depth of nesting, and about hidden state shared by all parses; tests call arg_parse only from the outside",
  "src/argtable3.c:arg_parse", "src/argtable3.c:arg_parse_tagged", "src/argtable3.c:arg_parse_untagged", "src/argtable3.c:arg_parse_check", "src/argtable3.c:arg_reset", "src/arg_getopt_long.c:getopt_internal")
p("C92", "Programs with sub-commands",
  "A program registers and unregisters commands and answers command lines with arg_cmd_dispatch, in any order; its procedures build a table, parse it, call arg_make_syntax_err_help_msg with the count of their help switch, do their work only if that returned 0, and release the table. Then every command line is answered according to the registrations in force and its own words alone: by the greeting and code 1 if it is empty or its first word is not a registered command; by the help of that command with its registered description, and code 0, if the help switch is among the arguments, whatever else is wrong; else, if there are errors, by a message for each, the usage and code 1; else by the work of the procedure registered last under that name, with the context registered with it and with the values that were given. The same words get the same text and code whatever was answered before and whatever was in fresh memory. Nothing stays allocated. Without the look-up before it, arg_cmd_dispatch follows a null pointer for an unregistered name. The texts mislead: the usage line of a command does not name the command, and the greeting refers to a command help that the library does not register.",
  "every sequence of registrations, unregistrations and command lines, every procedure of this pattern with any table of the library's kinds and any work, any earlier use of the scanner; command lines as in C79, every registered command has a procedure; texts of the commands fit 2^29 bytes, module name and version 1000 bytes each", "unbounded in the length of the session, in commands, tables and command lines; about the whole chain from the registry to the text, of which tests exercise single links",
  "src/arg_cmd.c:arg_cmd_dispatch", "src/arg_cmd.c:arg_cmd_register", "src/arg_cmd.c:arg_cmd_unregister", "src/arg_cmd.c:arg_make_syntax_err_help_msg", "src/arg_cmd.c:arg_make_help_msg", "src/arg_cmd.c:arg_make_syntax_err_msg", "src/arg_cmd.c:arg_make_get_help_msg", "src/argtable3.c:arg_parse")
p("C93", "The verbose usage line can be followed",
  "Someone who reads the line of arg_print_syntaxv types, for each occurrence of an option, any one of the alternatives shown of it, with its value attached to the letter, behind the long name and an equals sign, or (unless the value is optional) as the next argument, and words for the entries without options; options in any order and between the words. If each entry is used as often as the line says and with good values, arg_parse returns 0, and each entry has exactly the values typed for it, in the order typed. Neither the choice of alternatives nor the order of options of different entries changes what an entry gets. Of the entries without options only the last that is used may be used less often than the line allows. The line misleads in two ways: the equals sign shown behind the alternatives does not go with a letter (typed -o=x, a text entry silently stores =x), and an optional value typed as the next argument is taken as a positional argument.",
  "every table, every number of parts and every choice of alternatives, values and order (with POSIXLY_CORRECT: options before words), any earlier use of the table and of the scanner; alternatives shown of an earlier entry too, a bare -- and names with an equals sign are left out (C67)", "all combinations of alternatives, forms of values and orders for all tables; a test can try a few for one table",
  "src/argtable3.c:arg_print_syntaxv_ds", "src/argtable3.c:arg_cat_optionv", "src/argtable3.c:arg_parse", "src/arg_getopt_long.c:getopt_long")
p("C94", "The index of the long option found",
  "If the last argument of getopt_long or getopt_long_only is not null, the call stores in that variable the place in the list of long options of the option that it reports, and of no other: the first one of this name, or, if there is none, the first whose name begins so. A call that stores nothing (a letter, a word, a complaint, the end) neither returns 0 nor sets the variable of a flag, so a program whose options all have flags always finds the right index after 0; a call that stores the index returns the value of that option, or 0 after storing its value in the flag. For --name, --name=value and, with getopt_long_only, -name, the index is stored exactly if the option is reported, and it is the one that the name means. Asking for the index changes nothing else. The index is not reset: after a letter it is the one of an earlier long option. For an option whose value is -1 the index is stored but the argument is then taken as option letters.",
  "every list of long options, option string, argument vector and state of the scanner, with and without POSIXLY_CORRECT; values other than -1 for options without flag", "all lists of names that begin alike, and all earlier calls; a test can try a few names",
  "src/arg_getopt_long.c:parse_long_options", "src/arg_getopt_long.c:getopt_internal", "src/arg_getopt_long.c:getopt_long", "src/arg_getopt_long.c:getopt_long_only")
p("C95", "The last message of the option scanner on Windows",
  "On Windows, whatever getopt, getopt_long and getopt_long_only complain about and however long the names in it are, the array opterrmsg of 128 bytes is never overrun and always holds a terminated text: the last message, of which the first 127 bytes are kept, with nothing left of an earlier and longer one; and each message is printed as a line, cut likewise. With opterr set and an option string that does not begin with a colon, after a call that returned a question mark the array holds the message of this call, and every other call leaves it alone. Otherwise nothing is printed and the array keeps what it held: the comment in the source that opterrmsg is set whatever opterr is does not hold. Two different complaints about options with very long names can have the same text.",
  "every number of messages and every length, every previous contents of the array, every option string, list of long options and argument vector; for the second part arguments that do not end in a dash, and a question mark neither an option letter nor the value of a long option, as in C84", "messages of every length and every sequence of complaints; the test programs run on other systems",
  "src/arg_getopt_long.c:warnx", "src/arg_getopt_long.c:getopt_internal", "src/arg_getopt_long.c:parse_long_options", "src/arg_getopt_long.c:getopt", "src/arg_getopt_long.c:getopt_long")
p("C96", "An option more or less",
  "If a command line was accepted, any one occurrence of an option (with its value) may be left out as long as its entry was given more often than its minimum: the shorter line is accepted too, the entry has its other values in their order, and every other entry has exactly the count and values it had. The other way round, one more occurrence may be typed at any place if the entry then has at most its maximum and its values are good: the line is still accepted, the entry has the new value at its place between the others, and no other entry changes. For a date entry only the last occurrence may be left out, as a date fills in what the text does not say from the slot it is stored in. This does not hold for words: with two text entries without options of which the second is optional, leaving out the first of two words is accepted silently and the second word goes to the first entry.",
  "every table, every accepted command line, every occurrence in it and every place (with POSIXLY_CORRECT: options before words), any earlier use of the table and of the scanner; options typed in the ways of C93, long of 64 bits", "all pairs of command lines that differ in one option, for all tables; a test can try a few pairs",
  "src/argtable3.c:arg_parse", "src/argtable3.c:arg_parse_tagged", "src/argtable3.c:arg_parse_untagged", "src/argtable3.c:arg_parse_check", "src/arg_getopt_long.c:getopt_long")
# What "every table" means for the parser (good_hdr, call in ParseSpec.v and ParseObserve.v).
WELL = "; option strings as in C15 (long options neither empty nor beginning with a comma), option letters other than : ; ? and byte 255, an arg_end with room for at least one error"
for x in P:
    n = int(x["id"][1:])
    if n in (1, 2, 3, 5, 6, 7, 8, 9, 10, 11, 12, 14, 16, 43, 46, 49, 50, 51, 52) or 59 <= n and n not in (77, 81, 82, 83, 84, 87, 88, 89, 94, 95):
        x["quantifier"] += WELL
with open(os.path.join(os.path.dirname(__file__), "..", "properties.jsonl"), "w") as f:
    for x in P:
        f.write(json.dumps(x) + "\n")
print(len(P))
