{"id": "C01", "title": "Parsing is independent of history", "statement": "arg_parse gives the same error count, the same recorded errors and the same counts/values whatever earlier getopt or arg_parse calls left in the process-wide getopt variables (optind, optopt, optreset, scan pointer, permutation bounds, ...).", "quantifier": "every argument table, argv, and every pair of values of the process-wide getopt state left by any history of earlier calls; option strings as in C15 (long options neither empty nor beginning with a comma), option letters other than : ; ? and byte 255, an arg_end with room for at least one error", "why_tests_cant": "the set of earlier histories is unbounded; a test fixes one history", "anchors": ["src/argtable3.c:arg_parse", "src/argtable3.c:arg_parse_tagged", "src/arg_getopt_long.c:getopt_internal"]}
{"id": "C02", "title": "No occurrence count ever exceeds maxcount and no value store is out of bounds", "statement": "Parsing any command line performs no undefined behaviour (other than the signed overflow described by C18): each entry's count stays between 0 and its maxcount and every write to ival/dval/sval/filename/basename/extension/tmval is inside the array the constructor allocated.", "quantifier": "every table built by the constructors with maximum counts that are not negative, and every argv; option strings as in C15 (long options neither empty nor beginning with a comma), option letters other than : ; ? and byte 255, an arg_end with room for at least one error", "why_tests_cant": "memory safety must hold for every argv length and every order of options", "anchors": ["src/arg_int.c:arg_int_scanfn", "src/arg_str.c:arg_str_scanfn", "src/arg_lit.c:arg_lit_scanfn", "src/arg_file.c:arg_file_scanfn", "src/arg_date.c:arg_date_scanfn", "src/arg_dbl.c:arg_dbl_scanfn", "src/arg_rex.c:arg_rex_scanfn"]}
{"id": "C03", "title": "A zero return value means every occurrence constraint is met", "statement": "If arg_parse returns 0 then every entry in the table was matched at least mincount and at most maxcount times, and nothing was recorded in the arg_end entry.", "quantifier": "every table with an error capacity of at least one, and every argv; option strings as in C15 (long options neither empty nor beginning with a comma), option letters other than : ; ? and byte 255, an arg_end with room for at least one error", "why_tests_cant": "ranges over all argv; tests check a handful of rejected/accepted lines", "anchors": ["src/argtable3.c:arg_parse", "src/argtable3.c:arg_parse_check"]}
{"id": "C04", "title": "Bounded error table", "statement": "arg_parse returns min(capacity, number of errors found); the recorded errors are the first ones in order of discovery, except that once more errors are found than the capacity the last slot becomes a too-many-errors entry. With capacity 0 the first error is an out-of-bounds write.", "quantifier": "every capacity, and every sequence of errors", "why_tests_cant": "sequence of errors is unbounded; overflow behaviour depends on all of them", "anchors": ["src/argtable3.c:arg_register_error", "src/arg_end.c:arg_end"]}
{"id": "C05", "title": "The caller's argv array is not modified and temporary storage is released", "statement": "After arg_parse returns, the caller's argv array has the same pointers in the same order as before (although the option scanner permutes), and every temporary block allocated by arg_parse has been freed.", "quantifier": "every argv and table; option strings as in C15 (long options neither empty nor beginning with a comma), option letters other than : ; ? and byte 255, an arg_end with room for at least one error", "why_tests_cant": "permutation patterns are unbounded", "anchors": ["src/argtable3.c:arg_parse", "src/arg_getopt_long.c:permute_args"]}
{"id": "C06", "title": "Positional arguments are matched in order or reported", "statement": "Every positional argument left by option scanning is either stored, in command-line order, by one of the positional table entries (entries used left to right, never going back), or is reported: the first argument rejected by all remaining entries is reported with the last entry's error and each argument after it is reported as unexpected.", "quantifier": "every list of positional arguments and every table; option strings as in C15 (long options neither empty nor beginning with a comma), option letters other than : ; ? and byte 255, an arg_end with room for at least one error", "why_tests_cant": "unbounded list of arguments and table entries", "anchors": ["src/argtable3.c:arg_parse_untagged"]}
{"id": "C07", "title": "Everything after -- is positional", "statement": "All arguments after the first -- that is not consumed as an option value are treated as positional, in order, even when they look like options; the -- itself is dropped.", "quantifier": "every table and argv; option strings as in C15 (long options neither empty nor beginning with a comma), option letters other than : ; ? and byte 255, an arg_end with room for at least one error", "why_tests_cant": "unbounded argv", "anchors": ["src/arg_getopt_long.c:getopt_internal"]}
{"id": "C08", "title": "Options may be interleaved with positionals", "statement": "Without POSIXLY_CORRECT, moving positional arguments before or after options does not change what is parsed: the options are processed in their relative order and the positionals are processed in their relative order; the result is the one of a simple one-pass reading of argv. With POSIXLY_CORRECT scanning stops at the first non-option.", "quantifier": "every table and every argv (without a malformed cluster, see C12); option strings as in C15 (long options neither empty nor beginning with a comma), option letters other than : ; ? and byte 255, an arg_end with room for at least one error", "why_tests_cant": "all interleavings of any number of arguments", "anchors": ["src/arg_getopt_long.c:getopt_internal", "src/argtable3.c:arg_parse_tagged"]}
{"id": "C09", "title": "Long option lookup", "statement": "A long option name equal to a table name selects the first table entry having that name; otherwise a prefix selects an entry when all names it is a prefix of belong to that one entry; otherwise it is reported as an invalid option.", "quantifier": "every list of long option names, every argument text; option strings as in C15 (long options neither empty nor beginning with a comma), option letters other than : ; ? and byte 255, an arg_end with room for at least one error", "why_tests_cant": "all sets of names and all prefixes", "anchors": ["src/arg_getopt_long.c:parse_long_options", "src/argtable3.c:alloc_longoptions"]}
{"id": "C10", "title": "Clustered short options mean the same as separate ones", "statement": "-ab is parsed as -a -b when a takes no value (same table contents, return value and errors, except that an error about the rest of the cluster cites the argument it stands in; the rest must not be a single dash), and -oVALUE exactly as -o VALUE when o takes a required value and VALUE is not empty, also at the end of a cluster.", "quantifier": "every table, every surrounding argv, every value; option strings as in C15 (long options neither empty nor beginning with a comma), option letters other than : ; ? and byte 255, an arg_end with room for at least one error", "why_tests_cant": "unbounded contexts", "anchors": ["src/arg_getopt_long.c:getopt_internal"]}
{"id": "C11", "title": "--name=value means the same as --name value", "statement": "For a long option with a required value, --name=value is parsed exactly as the two arguments --name value, for every non-empty value.", "quantifier": "every table, surrounding argv, and value; option strings as in C15 (long options neither empty nor beginning with a comma), option letters other than : ; ? and byte 255, an arg_end with room for at least one error", "why_tests_cant": "unbounded contexts", "anchors": ["src/arg_getopt_long.c:parse_long_options"]}
{"id": "C12", "title": "Parsing terminates", "statement": "arg_parse terminates on every argv in which no short-option cluster runs into a final '-' character (such as -x-). On a command line with such a cluster it never returns.", "quantifier": "every table and argv; option strings as in C15 (long options neither empty nor beginning with a comma), option letters other than : ; ? and byte 255, an arg_end with room for at least one error", "why_tests_cant": "termination over all inputs; a test that hangs proves nothing about others", "anchors": ["src/arg_getopt_long.c:getopt_internal", "src/argtable3.c:arg_parse_tagged"]}
{"id": "C13", "title": "Block exchange keeps the order in each block", "statement": "The argv permutation step exchanges two adjacent blocks of any non-zero lengths, keeping the order inside each block and leaving everything else alone, with no division by zero and no access outside the two blocks.", "quantifier": "all block lengths and positions", "why_tests_cant": "cycle structure depends on gcd of arbitrary lengths", "anchors": ["src/arg_getopt_long.c:permute_args", "src/arg_getopt_long.c:gcd"]}
{"id": "C14", "title": "Bad options are always reported", "statement": "If the command line contains an unknown short option, an unknown or ambiguous long option, a value given to an option that takes none, or an option lacking its required value, arg_parse returns a positive count.", "quantifier": "every table with capacity at least one, every argv; option strings as in C15 (long options neither empty nor beginning with a comma), option letters other than : ; ? and byte 255, an arg_end with room for at least one error", "why_tests_cant": "all positions and contexts of the bad option", "anchors": ["src/argtable3.c:arg_parse_tagged", "src/arg_getopt_long.c:getopt_internal"]}
{"id": "C15", "title": "Option tables handed to the scanner are built inside their buffers", "statement": "Building the internal long and short option tables writes inside the allocated blocks for every table whose long option strings are NULL or neither empty nor beginning with a comma. A long option string beginning with a comma overruns the block and an empty one reads past the string.", "quantifier": "every table", "why_tests_cant": "heap overflow is not observable in a functional test", "anchors": ["src/argtable3.c:alloc_longoptions", "src/argtable3.c:alloc_shortoptions"]}
{"id": "C16", "title": "Entries with optional values", "statement": "For an entry whose flags allow an optional value, the option given without a value counts one occurrence and leaves the entry's value slot as it was; a value is only taken when attached.", "quantifier": "every entry kind, state and argv; option strings as in C15 (long options neither empty nor beginning with a comma), option letters other than : ; ? and byte 255, an arg_end with room for at least one error", "why_tests_cant": "every prior content of the value slot", "anchors": ["src/arg_int.c:arg_int_scanfn", "src/arg_getopt_long.c:parse_long_options", "src/arg_getopt_long.c:getopt_internal"]}
{"id": "C17", "title": "Integer arguments: accepted exactly when well-formed and in range", "statement": "An integer argument is stored iff its text is a well-formed literal (decimal, 0x, 0o or 0b, optional sign and surrounding white space, optional KB/MB/GB suffix in any case; after a base prefix the digits may again be preceded by white space and a sign) whose mathematical value fits in int; the stored value is that mathematical value; otherwise the count does not change and the error tells bad syntax from overflow.", "quantifier": "every byte string, for a 64 bit long (with a 32 bit long the claim is refuted)", "why_tests_cant": "infinitely many strings; overflow boundaries in every base and suffix", "anchors": ["src/arg_int.c:arg_int_scanfn", "src/arg_int.c:strtol0X", "src/arg_int.c:detectsuffix"]}
{"id": "C18", "title": "Integer parsing has no undefined behaviour except on doubly negated minimum values", "statement": "Scanning an integer argument performs no signed overflow for any text, except when a negative prefixed literal contains a second minus sign and saturates (for example -0x-8000000000000000).", "quantifier": "every byte string", "why_tests_cant": "undefined behaviour is not observable by a test", "anchors": ["src/arg_int.c:strtol0X"]}
{"id": "C19", "title": "Integer round trip", "statement": "For every int n, parsing the decimal text of n, and for every sign the 0x, 0o and 0b texts of n, stores exactly n.", "quantifier": "every int value", "why_tests_cant": "2^32 values in four notations", "anchors": ["src/arg_int.c:arg_int_scanfn"]}
{"id": "C20", "title": "File names are decomposed correctly", "statement": "For every file argument the stored file name is the argument itself, the base name is the part after the last separator (a slash; on Windows also a backslash, unless it comes before the last slash; empty for . and ..), and the extension is the suffix of the base name starting at its last dot when that dot is neither the first nor the last character, else empty; all three are suffixes of the same string.", "quantifier": "every string", "why_tests_cant": "all placements of separators and dots", "anchors": ["src/arg_file.c:arg_basename", "src/arg_file.c:arg_extension"]}
{"id": "C21", "title": "Date arguments: fields in range, all input consumed, failure leaves the value alone", "statement": "If a date argument is accepted, the whole text was consumed, every field set by the format is in its documented range and other fields keep their previous values; if rejected, count and stored values do not change.", "quantifier": "every format, text and previous tm value", "why_tests_cant": "formats and texts are unbounded", "anchors": ["src/arg_date.c:arg_strptime", "src/arg_date.c:conv_num", "src/arg_date.c:arg_date_scanfn"]}
{"id": "C22", "title": "Date round trip", "statement": "Printing any valid date/time as YYYY-MM-DD HH:MM:SS and parsing it with %Y-%m-%d %H:%M:%S (or %F-free equivalents such as %T) stores exactly the same fields.", "quantifier": "every valid combination of year 0-9999, month, day, hour, minute, second", "why_tests_cant": "billions of values", "anchors": ["src/arg_date.c:arg_strptime"]}
{"id": "C23", "title": "Century conversion is 1900 years off", "statement": "Reading a four digit year with the format %C%y succeeds and gives a year exactly 1900 later than reading it with %Y (which gives the right one): the century conversion forgets the base year. In particular %C%y and %Y disagree.", "quantifier": "every year 0000-9999 and every previous tm value", "why_tests_cant": "ten thousand years times all previous values; tests never use %C", "anchors": ["src/arg_date.c:arg_strptime"]}
{"id": "C24", "title": "Regex arguments: what is accepted is in the language of the pattern", "statement": "If a text is accepted by an arg_rex entry then it belongs to the language that the pattern denotes (sequence, alternation, groups, classes, ranges, repetition, anchors). Excluded: repetition counts that do not fit 15 or 16 bits, and, with ARG_REX_ICASE, ranges that mix letters with other characters. Word boundaries (\\b, \\B) are the exception: the boundaries that count are not the real ones but lie one place earlier inside the text; only those at the two ends are right.", "quantifier": "every pattern of the supported syntax and every text", "why_tests_cant": "infinitely many patterns and texts", "anchors": ["src/arg_rex.c:trex_compile", "src/arg_rex.c:trex_matchnode", "src/arg_rex.c:trex_match"]}
{"id": "C25", "title": "Regex arguments: literal patterns", "statement": "A pattern made of ordinary characters accepts exactly its own text (up to ASCII case with ARG_REX_ICASE), and an alternation of such patterns accepts exactly their texts provided that none is a proper beginning of a later one.", "quantifier": "every literal pattern and text", "why_tests_cant": "infinitely many patterns and texts", "anchors": ["src/arg_rex.c:trex_compile", "src/arg_rex.c:trex_match"]}
{"id": "C26", "title": "Regex matching stays inside the text and the node table", "statement": "Compiling any non-empty pattern that does not end in a lone backslash ends and only touches allocated nodes and the pattern; matching ends and, if no element of the pattern matches a NUL character (and the text does not end in white space if there is a \\b or \\B), never reads beyond the terminator of the text.", "quantifier": "every pattern and text", "why_tests_cant": "out-of-bounds reads are invisible to tests", "anchors": ["src/arg_rex.c:trex_newnode", "src/arg_rex.c:trex_charnode", "src/arg_rex.c:trex_matchnode"]}
{"id": "C27", "title": "Floating point arguments consume the whole text", "statement": "A floating point argument is stored iff the system's strtod consumes the argument up to its end (so also for the empty string), and the stored value is strtod's value; the value array is correctly aligned and inside the allocated block wherever the allocator placed it.", "quantifier": "every text, every behaviour of strtod within its contract, every block address", "why_tests_cant": "all addresses and texts", "anchors": ["src/arg_dbl.c:arg_dbl_scanfn", "src/arg_dbl.c:arg_dbln"]}
{"id": "C28", "title": "Dynamic strings behave like strings", "statement": "For every sequence of create/set/cat/catc/catf/reset operations, the text returned by arg_dstr_cstr is the one given by plain string concatenation. Setting the string to the part of itself from byte j on works exactly if that part is shorter than what stands before it; else the two overlap in a strcpy, which is undefined.", "quantifier": "every operation sequence (total length at most 2^29); for setting a text to a part of itself every text that fits in the fixed buffer", "why_tests_cant": "unbounded sequences crossing every buffer growth boundary", "anchors": ["src/arg_dstr.c:arg_dstr_set", "src/arg_dstr.c:arg_dstr_cat", "src/arg_dstr.c:setup_append_buf", "src/arg_dstr.c:arg_dstr_reset"]}
{"id": "C29", "title": "Dynamic strings are memory safe and leak free", "statement": "For every such sequence there is no out-of-bounds access, no use after free, no double free, and after arg_dstr_destroy every block allocated by the module has been freed; a dynamic string handed over with a release procedure is released exactly once.", "quantifier": "every operation sequence", "why_tests_cant": "heap errors are invisible to functional tests", "anchors": ["src/arg_dstr.c:arg_dstr_set", "src/arg_dstr.c:setup_append_buf", "src/arg_dstr.c:arg_dstr_free", "src/arg_dstr.c:arg_dstr_destroy"]}
{"id": "C30", "title": "Formatted append never truncates and terminates", "statement": "arg_dstr_catf appends exactly the text that vsnprintf would produce, of whatever length, after finitely many attempts, with no write outside its buffer.", "quantifier": "every format length and output text", "why_tests_cant": "all lengths around the growth boundaries", "anchors": ["src/arg_dstr.c:arg_dstr_catf"]}
{"id": "C31", "title": "The command registry is a map", "statement": "After any sequence of arg_cmd_register/arg_cmd_unregister, arg_cmd_info(name) returns the data of the last registration of name not followed by its unregistration, NULL if there is none; other names are unaffected.", "quantifier": "every operation sequence, names, and hash function", "why_tests_cant": "unbounded histories crossing every table expansion and every collision pattern", "anchors": ["src/arg_cmd.c:arg_cmd_register", "src/arg_hashtable.c:arg_hashtable_insert", "src/arg_hashtable.c:arg_hashtable_search", "src/arg_hashtable.c:arg_hashtable_remove", "src/arg_hashtable.c:arg_hashtable_expand"]}
{"id": "C32", "title": "The command count is exact", "statement": "arg_cmd_count is the number of distinct names currently registered.", "quantifier": "every operation sequence", "why_tests_cant": "unbounded histories", "anchors": ["src/arg_cmd.c:arg_cmd_count", "src/arg_hashtable.c:arg_hashtable_count"]}
{"id": "C33", "title": "Iteration visits every command exactly once", "statement": "Creating an iterator and advancing it until it reports the end visits each registered command exactly once.", "quantifier": "every reachable table", "why_tests_cant": "all chain shapes", "anchors": ["src/arg_hashtable.c:arg_hashtable_itr_create", "src/arg_hashtable.c:arg_hashtable_itr_advance"]}
{"id": "C34", "title": "Removing through the iterator", "statement": "Removing the element under the iterator removes exactly that element, leaves the others, and the iterator then continues over exactly the elements not yet visited.", "quantifier": "every reachable table and iterator position", "why_tests_cant": "all chain shapes and positions", "anchors": ["src/arg_hashtable.c:arg_hashtable_itr_remove"]}
{"id": "C35", "title": "Keys and values owned by the hash table are released exactly once", "statement": "Every key and value block handed to the table is freed exactly once: at its removal, replacement or at destruction (values only when asked).", "quantifier": "every operation sequence ending in destruction", "why_tests_cant": "heap errors are invisible to functional tests", "anchors": ["src/arg_hashtable.c:arg_hashtable_remove", "src/arg_hashtable.c:arg_hashtable_destroy", "src/arg_hashtable.c:arg_hashtable_change"]}
{"id": "C36", "title": "Expansion keeps the load bounded and all buckets right", "statement": "In every reachable table each entry sits in the bucket given by its hash, the number of buckets is a table prime larger than the requested size, and the number of entries does not exceed the load limit unless the largest size is reached.", "quantifier": "every operation sequence", "why_tests_cant": "needs up to 10^9 entries to reach all sizes", "anchors": ["src/arg_hashtable.c:arg_hashtable_expand", "src/arg_hashtable.c:arg_hashtable_create"]}
{"id": "C37", "title": "arg_mgsort sorts", "statement": "For any total-preorder comparison, arg_mgsort rearranges exactly the elements between the two indices into ascending order and leaves all others in place, with no access outside of the array or its scratch block and no overflow in its byte offsets. Two elements of a gigabyte each are too much for its int offsets.", "quantifier": "every array of at most INT_MAX bytes and less than 2^30 elements up to the second index, every element size, index pair and comparison", "why_tests_cant": "unbounded arrays", "anchors": ["src/arg_utils.c:arg_mgsort", "src/arg_utils.c:merge"]}
{"id": "C38", "title": "arg_mgsort does not keep the order of equal elements", "statement": "arg_mgsort is not stable: there is an array with two elements that compare equal whose order is exchanged.", "quantifier": "refutation: the claim of stability for all arrays fails on the witness given", "why_tests_cant": "the documentation does not say; tests only sort distinct keys", "anchors": ["src/arg_utils.c:merge"]}
{"id": "C39", "title": "Option syntax strings never overflow their buffer", "statement": "Formatting an option's tags and datatype never writes outside the 200 byte buffer; the text is exactly the ideal text when that has at most 198 characters, and otherwise agrees with it on the first 198 characters and is at most 199 long.", "quantifier": "all option strings, datatypes, separators", "why_tests_cant": "arbitrary lengths and boundary positions", "anchors": ["src/argtable3.c:arg_cat", "src/argtable3.c:arg_cat_option", "src/argtable3.c:arg_cat_optionv", "src/argtable3.c:arg_print_option_ds"]}
{"id": "C40", "title": "Syntax lines list every option the right number of times", "statement": "arg_print_syntaxv prints, for each entry in order, mincount plain occurrences then the optional ones in brackets (one, two, or one followed by dots); arg_print_syntax prints value-less short options as a cluster first and the others likewise.", "quantifier": "every table", "why_tests_cant": "all counts and table shapes", "anchors": ["src/argtable3.c:arg_print_syntax_ds", "src/argtable3.c:arg_print_syntaxv_ds", "src/argtable3.c:arg_print_gnuswitch_ds"]}
{"id": "C41", "title": "Text wrapping loses no word and respects the right margin", "statement": "Unless rmargin - lmargin + 1 is 0 (as an unsigned number), arg_print_formatted terminates, prints the non-white characters of the text in order and nothing else but white space, no output line has more text than the column width, a line ends only at a newline of the text, at its end, where the next word does not fit, or inside a word longer than the column, and this determines the output. With a width of 0 it never returns.", "quantifier": "every text and margins", "why_tests_cant": "all texts and widths", "anchors": ["src/argtable3.c:arg_print_formatted_ds"]}
{"id": "C42", "title": "Which wrapped lines are indented", "statement": "arg_print_formatted indents a line after the first by the left margin exactly if the text left at the beginning of the line before did not fit into the column (except for a newline followed by a full column that ends with white space). So every line but the first is indented when the text has no newline, but not always after a newline in the text.", "quantifier": "every text and margins", "why_tests_cant": "all texts and widths; the natural claim that all lines are indented is false of the code", "anchors": ["src/argtable3.c:arg_print_formatted_ds"]}
{"id": "C43", "title": "Error reports name every recorded error once", "statement": "With a program name, arg_print_errors writes one message per recorded error, in order: the program name, a colon, text that names the argument or option at fault (or says that there were too many errors or too little memory), and a line end. After a parse these are the messages of exactly the errors the parse reported. A message may contain further line ends.", "quantifier": "every content of the error table; option strings as in C15 (long options neither empty nor beginning with a comma), option letters other than : ; ? and byte 255, an arg_end with room for at least one error", "why_tests_cant": "all combinations of entries and errors", "anchors": ["src/arg_end.c:arg_print_errors_ds", "src/arg_end.c:arg_end_errorfn", "src/arg_int.c:arg_int_errorfn"]}
{"id": "C44", "title": "arg_nullcheck finds missing entries", "statement": "arg_nullcheck returns 1 iff the table pointer is NULL or some entry up to and including the terminator is NULL.", "quantifier": "every table", "why_tests_cant": "all positions", "anchors": ["src/argtable3.c:arg_nullcheck"]}
{"id": "C45", "title": "arg_freetable frees each entry exactly once", "statement": "arg_freetable frees every non-NULL entry of the array exactly once and sets it to NULL, so a second call does nothing; arg_free does so only up to the first NULL entry.", "quantifier": "every array of distinct entries", "why_tests_cant": "all patterns of NULL entries", "anchors": ["src/argtable3.c:arg_freetable", "src/argtable3.c:arg_free"]}
{"id": "C46", "title": "Help has precedence over errors", "statement": "arg_make_syntax_err_help_msg returns 1 with a success exit code when help was requested even if there are errors, 1 with a failure code when there are errors, and 0 leaving the exit code alone otherwise.", "quantifier": "all counts; option strings as in C15 (long options neither empty nor beginning with a comma), option letters other than : ; ? and byte 255, an arg_end with room for at least one error", "why_tests_cant": "all combinations", "anchors": ["src/arg_cmd.c:arg_make_syntax_err_help_msg"]}
{"id": "C47", "title": "Dispatch runs the registered procedure", "statement": "arg_cmd_dispatch(name) calls the procedure of the last registration of that name with the given arguments and its own context, and returns its result.", "quantifier": "every registry history", "why_tests_cant": "unbounded histories", "anchors": ["src/arg_cmd.c:arg_cmd_dispatch"]}
{"id": "C48", "title": "Constructors normalise counts", "statement": "Every constructor yields an entry with maxcount >= mincount whose value array has exactly maxcount slots; string slots are initialised to the empty string. The constructors ending in 0 and 1 ask for zero or one and for exactly one occurrence. Options and texts are as given, with the documented default for a missing data type; a date entry without a format reads MM/DD/YY.", "quantifier": "all requested counts", "why_tests_cant": "all integers", "anchors": ["src/arg_int.c:arg_intn", "src/arg_str.c:arg_strn", "src/arg_file.c:arg_filen", "src/arg_lit.c:arg_litn"]}
{"id": "C49", "title": "A short option always reaches the entry that declares it", "statement": "Each short option character declared in the table (other than the characters the scanner reserves, including '?' and ':') is dispatched to the first entry declaring it, with a value taken iff that entry takes one.", "quantifier": "every table and option character; option strings as in C15 (long options neither empty nor beginning with a comma), option letters other than : ; ? and byte 255, an arg_end with room for at least one error", "why_tests_cant": "all tables with duplicate declarations", "anchors": ["src/argtable3.c:find_shortoption", "src/argtable3.c:alloc_shortoptions", "src/arg_getopt_long.c:getopt_internal"]}
{"id": "C50", "title": "Values are stored in the order of the command line", "statement": "After a parse that returns 0, every entry has counted exactly its occurrences on the command line, and the k-th occurrence's value, converted as the entry's kind prescribes, is in slot k; an occurrence without value leaves its slot alone, and so do the slots beyond the count (a string entry first clears the slots of the previous parse).", "quantifier": "every table of library kinds reached by construction, presets and earlier parses, and every argv; option strings as in C15 (long options neither empty nor beginning with a comma), option letters other than : ; ? and byte 255, an arg_end with room for at least one error", "why_tests_cant": "unbounded tables, histories and command lines, all kinds", "anchors": ["src/argtable3.c:arg_parse_tagged", "src/argtable3.c:arg_parse_untagged", "src/arg_int.c:arg_int_scanfn", "src/arg_str.c:arg_str_scanfn", "src/arg_date.c:arg_date_scanfn"]}
{"id": "C51", "title": "Parsing the same command line again gives the same result", "statement": "Calling arg_parse a second time with the same argv leaves the table exactly as after the first call, with the same return value and the same recorded errors, whatever happened in between to the getopt variables; exceptions are date formats that mention AM/PM before the hour, and string entries with an optional value whose default the second call clears.", "quantifier": "every table of library kinds reached by construction, presets and earlier parses, and every argv; option strings as in C15 (long options neither empty nor beginning with a comma), option letters other than : ; ? and byte 255, an arg_end with room for at least one error", "why_tests_cant": "unbounded histories; all combinations of kinds, errors and values", "anchors": ["src/argtable3.c:arg_parse", "src/argtable3.c:arg_reset", "src/arg_str.c:arg_str_resetfn", "src/arg_date.c:arg_strptime"]}
{"id": "C52", "title": "Scan functions get a value exactly when the flags say so", "statement": "A user-defined scan function of an option with ARG_HASVALUE but not ARG_HASOPTVALUE is never called with a NULL value, one of an option without these flags never with a value, and one of an entry without option strings never with NULL: what the function does in the excluded cases does not influence any parse.", "quantifier": "every table of entries with arbitrary scan functions, and every argv; option strings as in C15 (long options neither empty nor beginning with a comma), option letters other than : ; ? and byte 255, an arg_end with room for at least one error", "why_tests_cant": "quantifies over functions supplied by the user", "anchors": ["src/argtable3.c:arg_parse_tagged", "src/argtable3.c:arg_parse_untagged", "src/arg_getopt_long.c:getopt_internal"]}
{"id": "C53", "title": "The glossary has one row for each described entry", "statement": "arg_print_glossary writes, for each entry that has a glossary text and in table order, one row made of the option's tags (separated by a comma and a blank) and that text, in the given format or by default as two blanks, a column of 20, the text and a newline; entries without glossary text are left out.", "quantifier": "every table and every row format", "why_tests_cant": "all tables, texts and lengths", "anchors": ["src/argtable3.c:arg_print_glossary_ds", "src/argtable3.c:arg_cat_optionv"]}
{"id": "C54", "title": "The GNU glossary has one row for each described entry", "statement": "arg_print_glossary_gnu writes, for each entry with a glossary text and in table order, the option's tags in a column of 25 (on their own line if longer; four blanks further in if there is no short option) and the text wrapped in columns 29 to 80, and finally an empty line.", "quantifier": "every table", "why_tests_cant": "all tables, texts and lengths", "anchors": ["src/argtable3.c:arg_print_glossary_gnu_ds", "src/argtable3.c:arg_print_formatted_ds"]}
{"id": "C55", "title": "Texts of the help, error and greeting messages", "statement": "For every registry history, module name, command and table, arg_make_help_msg appends the command's registered description (if it is registered), the usage line, and one row per entry that has a glossary text; arg_make_syntax_err_msg appends the messages of all recorded errors and then the usage line; arg_make_get_help_msg appends the name, version and hint. Nothing else is appended. Without arg_cmd_init the help text cannot be made: it follows a NULL pointer.", "quantifier": "every registry history, table, error record and name", "why_tests_cant": "all combinations of registry, table and errors", "anchors": ["src/arg_cmd.c:arg_make_help_msg", "src/arg_cmd.c:arg_make_syntax_err_msg", "src/arg_cmd.c:arg_make_get_help_msg"]}
{"id": "C56", "title": "Module name and version are those set last", "statement": "After any sequence of arg_set_module_name and arg_set_module_version the messages show the name and the version set last (major.minor.patch.tag in decimal), or <name> and 0.0.0.0 if there is none; the caller's strings may be reused after each call, replaced texts are released, and no other memory changes.", "quantifier": "every sequence of calls, every text and number", "why_tests_cant": "unbounded histories and texts", "anchors": ["src/arg_cmd.c:arg_set_module_name", "src/arg_cmd.c:arg_set_module_version"]}
{"id": "C57", "title": "Constructors place the arrays of an entry inside its block", "statement": "For every entry made by a constructor (integers, strings, files, dates, regular expressions, end marker), the value arrays, each for as many elements as the effective maximum count, lie behind the structure inside the allocated block, without overlap and suitably aligned. For the end marker on a 64-bit machine this holds exactly for even maximum counts; negative counts and, on 32-bit machines, counts whose size does not fit size_t are excluded.", "quantifier": "every address of the block, every minimum and maximum count, 32 and 64-bit pointers", "why_tests_cant": "all counts and addresses; misalignment and overlap are invisible on common machines", "anchors": ["src/arg_int.c:arg_intn", "src/arg_str.c:arg_strn", "src/arg_file.c:arg_filen", "src/arg_date.c:arg_daten", "src/arg_rex.c:arg_rexn", "src/arg_end.c:arg_end"]}
{"id": "C58", "title": "Orderly regex patterns accept exactly their language", "statement": "For a pattern in which taking as much text as possible never stands in the way of what follows (in every repetition, sequence and alternation), whose elements do not match NUL, a text is accepted by an arg_rex entry if and only if it belongs to the language of the pattern. For other patterns texts of the language can be rejected (a*a rejects aaa, b*(a?) rejects bbb). With \\b and \\B the same holds for texts that do not end in white space, if the boundaries are taken where C24 says.", "quantifier": "every orderly pattern and every text of at most 65535 characters", "why_tests_cant": "infinitely many patterns and texts", "anchors": ["src/arg_rex.c:trex_compile", "src/arg_rex.c:trex_matchnode", "src/arg_rex.c:trex_match"]}
{"id": "C59", "title": "Exactly the well-formed command lines are accepted", "statement": "For every table of the library's own kinds, arg_parse returns 0 if and only if the arguments can be read as occurrences of declared options (alone, in clusters, abbreviated, with the value attached or in the next argument) and positional arguments, such that every entry gets between mincount and maxcount values, all of its kind, when the positional arguments go to the entries without options in table order, each taking as many as it can. Then every entry has counted what it was given and holds the values in order. There is at most one such reading.", "quantifier": "every table, every command line; option strings as in C15 (long options neither empty nor beginning with a comma), option letters other than : ; ? and byte 255, an arg_end with room for at least one error", "why_tests_cant": "both directions range over infinitely many command lines: that nothing well-formed is refused and nothing ill-formed is accepted", "anchors": ["src/argtable3.c:arg_parse", "src/argtable3.c:arg_parse_tagged", "src/argtable3.c:arg_parse_untagged", "src/argtable3.c:arg_parse_check", "src/arg_getopt_long.c:getopt_internal"]}
{"id": "C60", "title": "Values of regex entries belong to the language", "statement": "In a table with arg_rex entries, matched by the library's own matcher: if the patterns compile and match no NUL, parsing does nothing undefined. After a parse that returns 0 every value held by an arg_rex entry that requires values belongs to the language of its pattern, and there are between mincount and maxcount of them. If the pattern is orderly (C58), the entry accepts exactly those lists of at most maxcount and at least mincount texts that all belong to the language.", "quantifier": "every table, every command line, every pattern of the supported syntax; option strings as in C15 (long options neither empty nor beginning with a comma), option letters other than : ; ? and byte 255, an arg_end with room for at least one error", "why_tests_cant": "the patterns, tables and command lines are unbounded, and so are the languages", "anchors": ["src/argtable3.c:arg_parse", "src/arg_rex.c:arg_rex_scanfn", "src/arg_rex.c:trex_match"]}
{"id": "C61", "title": "The whole report: every error real, none missing", "statement": "For every command line on which the parse returns, right or wrong, the errors recorded are exactly these, in this order: for each option in turn, an unknown short option (its character), a long option that selects nothing or is given a value it does not take, a missing or empty required value, and every occurrence its entry refuses (full, or the text is not of its kind: no integer, integer out of range, no number, no date, no match), owned by that entry and with the text; then, about the positional arguments nobody takes, the first as refused by the last positional entry and the others as unexpected; and only if there is nothing else, one shortage per entry that has less than its minimum. A refused value changes nothing: every entry holds exactly the values it accepted, in order. If there are more errors than arg_end has room for, the first ones are recorded and a mark that there were more. The report is determined by the command line and the table.", "quantifier": "every table of the library's kinds, every command line, every size of arg_end; option strings as in C15 (long options neither empty nor beginning with a comma), option letters other than : ; ? and byte 255, an arg_end with room for at least one error", "why_tests_cant": "tables, command lines and their mistakes are unbounded; tests cannot show that no other error appears", "anchors": ["src/argtable3.c:arg_parse", "src/argtable3.c:arg_parse_tagged", "src/argtable3.c:arg_parse_untagged", "src/argtable3.c:arg_parse_check", "src/argtable3.c:arg_register_error"]}
{"id": "C62", "title": "Remarks have no effect on parsing", "statement": "An arg_rem entry may stand anywhere in the table: with it the same command lines are parsed, with the same return value; every other entry comes out the same, the remark is unchanged, and the same errors are recorded of the same entries. It never takes an argument and is never missing, although its header says mincount = maxcount = 1. The syntax lines show its left text as if it had to be typed, and the verbose line a stray blank if it has none.", "quantifier": "every table, every position of the remark, every command line; option strings as in C15 (long options neither empty nor beginning with a comma), option letters other than : ; ? and byte 255, an arg_end with room for at least one error", "why_tests_cant": "unbounded tables and command lines", "anchors": ["src/arg_rem.c:arg_rem", "src/argtable3.c:arg_parse_untagged", "src/argtable3.c:arg_parse_check"]}
{"id": "C63", "title": "The order of options of different entries is irrelevant", "statement": "Two command lines that give every entry the same values in the same order, have the same positional arguments and the same mistakes in some order, are parsed with the same return value and leave the same table; the errors are the same up to order. In particular two neighbouring groups of options that have no entry in common can be exchanged anywhere in a command line, right or wrong.", "quantifier": "every table with any kinds of entries, all command lines; option strings as in C15 (long options neither empty nor beginning with a comma), option letters other than : ; ? and byte 255, an arg_end with room for at least one error", "why_tests_cant": "unbounded command lines, all orders", "anchors": ["src/argtable3.c:arg_parse_tagged", "src/argtable3.c:arg_parse", "src/arg_getopt_long.c:getopt_internal"]}
{"id": "C64", "title": "All spellings of a command line are parsed alike", "statement": "Short or long, abbreviated or in full, in a cluster or one by one, with the value attached, after an equals sign or in the next argument, options before, between or behind the positional arguments: command lines that spell the same occurrences and the same positional arguments are parsed alike. The canonical spelling --name=value ... -- positional ... is one of them, with or without POSIXLY_CORRECT, so any non-empty values and any positional arguments can be passed by it.", "quantifier": "every table, every two spellings; option strings as in C15 (long options neither empty nor beginning with a comma), option letters other than : ; ? and byte 255, an arg_end with room for at least one error", "why_tests_cant": "unbounded; the number of spellings of one command line grows exponentially", "anchors": ["src/argtable3.c:arg_parse", "src/arg_getopt_long.c:getopt_internal", "src/arg_getopt_long.c:parse_long_options"]}
{"id": "C65", "title": "A new optional option does not disturb the command lines of old", "statement": "If a program adds to its table, anywhere, an entry made with mincount 0 whose option letters and long names are all new, then every command line made of options of the old table and of positional arguments is parsed as before: the same return value, the old entries come out the same, the new entry comes out with nothing in it, and the same errors are recorded of the same entries. The one condition: no long name on the command line is abbreviated to the beginning of a name of the new entry (a full name always stays what it was).", "quantifier": "every table, every new entry of every kind, every position, every such command line; option strings as in C15 (long options neither empty nor beginning with a comma), option letters other than : ; ? and byte 255, an arg_end with room for at least one error", "why_tests_cant": "unbounded tables and command lines; concerns pairs of programs", "anchors": ["src/argtable3.c:arg_parse", "src/argtable3.c:arg_parse_tagged", "src/arg_getopt_long.c:parse_long_options"]}
{"id": "C66", "title": "The syntax line can be followed", "statement": "Whoever types the required parts of the line that arg_print_syntax writes, and any of the optional ones, with a good word in the place of each data type, is understood by arg_parse: it returns 0 and every entry has the values typed for it. The tags shown must not be shadowed by earlier entries. Optional occurrences of an entry without options may be left out only if no later such entry is used: ' <src> [<src>] <dst>' is not satisfied by two arguments.", "quantifier": "every table of the library's kinds, every choice of optional parts, all values; option strings as in C15 (long options neither empty nor beginning with a comma), option letters other than : ; ? and byte 255, an arg_end with room for at least one error", "why_tests_cant": "unbounded; relates two independent halves of the library, the printer and the parser", "anchors": ["src/argtable3.c:arg_print_syntax_ds", "src/argtable3.c:arg_cat_option", "src/argtable3.c:arg_print_gnuswitch_ds", "src/argtable3.c:arg_parse"]}
{"id": "C67", "title": "The alternatives shown for an option are those that work", "statement": "Every tag that arg_print_syntaxv and the glossaries show for an entry selects this entry in arg_parse, with the next argument as its value if the entry takes one, unless the tag is shown for an earlier entry too; so one tag may be typed in place of another in any command line, with the same result. Conversely every option that selects the entry is shown, or abbreviates a name that is. A name with an equals sign is the exception: it is shown but can not be typed.", "quantifier": "every argument table, every tag shown, every command line around it, right or wrong; option strings as in C15 (long options neither empty nor beginning with a comma), option letters other than : ; ? and byte 255, an arg_end with room for at least one error", "why_tests_cant": "unbounded; relates two independent halves of the library, the printer and the parser", "anchors": ["src/argtable3.c:arg_cat_optionv", "src/argtable3.c:arg_print_syntaxv_ds", "src/argtable3.c:arg_print_glossary_ds", "src/argtable3.c:arg_parse"]}
{"id": "C68", "title": "Command lines can be put together", "statement": "A program may put arguments of its own (say, from a configuration file or an environment variable) in front of what the user typed. If the first part consists of words and complete options, arg_parse reads the whole as the options and positional arguments of the first part followed by those of the second, whatever the second part is; the values and errors follow from that. It is not true of every first part: one that contains -- or ends in an option that lacks its value changes the meaning of the second.", "quantifier": "every argument table, every first part of words and complete options, every second part, right or wrong; option strings as in C15 (long options neither empty nor beginning with a comma), option letters other than : ; ? and byte 255, an arg_end with room for at least one error", "why_tests_cant": "unbounded; a statement about all pairs of command lines", "anchors": ["src/argtable3.c:arg_parse", "src/argtable3.c:arg_parse_tagged", "src/arg_getopt_long.c:getopt_internal"]}
{"id": "C69", "title": "What POSIXLY_CORRECT changes", "statement": "If the environment variable POSIXLY_CORRECT is set, arg_parse reads a command line as it would if -- stood in front of the first positional argument. It makes no difference at all exactly for the command lines in which every option stands before the first positional argument.", "quantifier": "every argument table and every command line, right or wrong; option strings as in C15 (long options neither empty nor beginning with a comma), option letters other than : ; ? and byte 255, an arg_end with room for at least one error", "why_tests_cant": "the test programs do not set the variable; all command lines are meant", "anchors": ["src/arg_getopt_long.c:getopt_internal", "src/argtable3.c:arg_parse"]}
{"id": "C70", "title": "No text can be mistaken for an option where it is put as a value", "statement": "A program that builds a command line for another one may put any text as the value of an option, in an argument of its own or behind the equals sign or behind a letter, and any texts as positional arguments behind --: whatever characters they consist of, and whether or not they look like options, they arrive as exactly these values. An empty text is the exception: directly behind a letter it makes the option take the next argument, and behind a long name it is reported as missing. Nor may a text be put in an argument of its own where the value is optional, or as a positional argument without --.", "quantifier": "every argument table, every list of texts and places, every text; option strings as in C15 (long options neither empty nor beginning with a comma), option letters other than : ; ? and byte 255, an arg_end with room for at least one error", "why_tests_cant": "unbounded texts; the dangerous ones (empty, beginning with a dash, containing =) are found by proof, not by trial", "anchors": ["src/argtable3.c:arg_parse", "src/arg_getopt_long.c:getopt_internal", "src/arg_getopt_long.c:parse_long_options"]}
{"id": "C71", "title": "An entry's result depends only on its own occurrences", "statement": "What arg_parse leaves in an entry that has options, and the errors recorded about it, depend only on the entry and on the values its own options were given, in their order: not on the other entries of the table, on the other arguments, nor on errors in them (except that the check of its minimum is left out if there are such errors). An entry whose options are not used keeps the default values the program has set, with count 0.", "quantifier": "every two tables that share an entry (of any kind, user-written kinds too), every two command lines, right or wrong, in which its options are given the same values; option strings as in C15 (long options neither empty nor beginning with a comma), option letters other than : ; ? and byte 255, an arg_end with room for at least one error", "why_tests_cant": "a statement about all pairs of tables and command lines", "anchors": ["src/argtable3.c:arg_parse", "src/argtable3.c:arg_parse_tagged", "src/argtable3.c:arg_parse_untagged", "src/argtable3.c:arg_parse_check"]}
{"id": "C72", "title": "Loosening the counts of a table keeps old command lines valid", "statement": "If the minimum counts of entries are lowered, and the maximum counts of entries with options are raised, arg_parse accepts every command line it accepted before, with the same counts, and with every text stored as the same value in the same slot. It is not true of raising the maximum of an entry without options: that one may take arguments that a later entry needs.", "quantifier": "every two tables that differ in this way, made by the constructors, parsed with before or not, every command line accepted by the first; option strings as in C15 (long options neither empty nor beginning with a comma), option letters other than : ; ? and byte 255, an arg_end with room for at least one error", "why_tests_cant": "unbounded; a statement about all pairs of tables", "anchors": ["src/argtable3.c:arg_parse", "src/arg_int.c:arg_int_scanfn", "src/arg_int.c:arg_int_checkfn"]}
{"id": "C73", "title": "The order of the options in a table is irrelevant", "statement": "Putting the entries of a table in another order changes nothing in what arg_parse leaves in each entry, nor the number of errors, and, while the table of errors is not full, nor the errors themselves but for their order - as long as the entries without options keep their order among themselves, and entries that share an option keep theirs. In these two cases the order does matter.", "quantifier": "every table (of any kinds of entries, user-written ones too), every such reordering of it, every command line, right or wrong; option strings as in C15 (long options neither empty nor beginning with a comma), option letters other than : ; ? and byte 255, an arg_end with room for at least one error", "why_tests_cant": "a statement about all pairs of tables, and all command lines", "anchors": ["src/argtable3.c:arg_parse", "src/argtable3.c:arg_parse_tagged", "src/argtable3.c:arg_parse_untagged", "src/argtable3.c:arg_parse_check", "src/argtable3.c:find_shortoption", "src/arg_getopt_long.c:parse_long_options"]}
{"id": "C74", "title": "Every combination of values can be written on a command line", "statement": "For a table of entries with short options: whatever numbers of switches, ints (INT_MIN and INT_MAX too), texts (empty ones, and ones that look like options, too), file names and valid doubles, dates and matches of regular expressions are wanted, within the counts of the entries, the command line that puts each value in an argument of its own after its option, numbers in decimal, is accepted, and leaves just these values, in their order, in the entries. The same for every table and every command line that says the values by short or long options, attached or in an argument of their own, the options in any order, and the values of entries without options behind --, in table order, provided that such an entry has no room left, or cannot take what follows, where the next one begins, and that empty texts are put behind short options or are positional. There is no way around the condition on room: whatever the command line, a positional text or file entry with room left means that all later entries without options got nothing.", "quantifier": "every table made by the constructors, parsed with before or not, every choice of values for each entry, every choice of places for them; option strings as in C15 (long options neither empty nor beginning with a comma), option letters other than : ; ? and byte 255, an arg_end with room for at least one error", "why_tests_cant": "unbounded in the number of entries, values and lengths of texts", "anchors": ["src/argtable3.c:arg_parse", "src/arg_int.c:arg_int_scanfn", "src/arg_str.c:arg_str_scanfn", "src/arg_file.c:arg_file_scanfn", "src/arg_lit.c:arg_lit_scanfn"]}
{"id": "C75", "title": "Several tables parsed one after another do not disturb one another", "statement": "A program with several syntaxes can parse the same command line with one table after the other: every call of arg_parse gives, in its table and in its arg_end, just what it would give if it were the only call, whatever state the earlier calls left behind. With the entries of the library it returns 0 exactly for those tables for which the command line is well-formed (C59).", "quantifier": "every list of tables, each with its own command line, all command lines on which arg_parse comes back (C12); option strings as in C15 (long options neither empty nor beginning with a comma), option letters other than : ; ? and byte 255, an arg_end with room for at least one error", "why_tests_cant": "unbounded in the number of calls; a test sees a few orders of a few tables", "anchors": ["src/argtable3.c:arg_parse", "src/argtable3.c:arg_parse_tagged", "src/arg_getopt_long.c:getopt_internal"]}
{"id": "C76", "title": "All texts in the table come from the arguments", "statement": "After arg_parse, right or wrong command line, every slot of every entry is either what it was after the reset at the start of the parse, or, if it holds a text, that text is an argument or the end of one; of a file, the base name is an end of the name, and the extension an end of the base name. The same holds for the text of every error in arg_end. No text is put together from pieces, and argv[0] is never used.", "quantifier": "every table made by the constructors, parsed with before or not, every command line on which arg_parse comes back; option strings as in C15 (long options neither empty nor beginning with a comma), option letters other than : ; ? and byte 255, an arg_end with room for at least one error", "why_tests_cant": "a statement about every slot after every command line", "anchors": ["src/argtable3.c:arg_parse", "src/arg_str.c:arg_str_scanfn", "src/arg_file.c:arg_file_scanfn", "src/arg_rex.c:arg_rex_scanfn", "src/arg_end.c:arg_register_error"]}
{"id": "C77", "title": "Dates written by strftime are read back", "statement": "Whatever strftime writes, in the C locale, for a time with a format made of the conversions a A b B d D h H j m M n R S t T U w W x X y Y and %, and any other characters, an arg_date entry with the same format accepts, and the time it stores agrees with the one written in every field the format mentions; the other fields stay as they were. On the other hand the example that the message about a wrong date gives as correct is the all-zero time in the entry's format, so it is refused itself whenever the format mentions the day of the month (as the default format does), and accepted otherwise. Not read back are what strftime pads with a space (%e), %c, and an abbreviated name completed by the text that follows.", "quantifier": "every format of these conversions in which no abbreviated name is directly followed by a letter, every time with its fields in their ranges, a year of four digits for %Y and of 1969 to 2068 where only two digits are written", "why_tests_cant": "unbounded in the length of the format; tests know a few formats and dates", "anchors": ["src/arg_date.c:arg_strptime", "src/arg_date.c:arg_date_scanfn", "src/arg_date.c:arg_date_errorfn"]}
{"id": "C78", "title": "Long options behind one dash", "statement": "In a library built with ARGTABLE3_LONG_ONLY, a command line that arg_parse accepts is accepted by the default library with the same values once a dash is written in front of every long option that has only one (so -name is --name, and -vname is -v-name when v is a switch). A long name (or an abbreviation of one, if it is longer than one character or does not begin like a short option), with or without a value, may be written behind one dash or two with the same outcome. If no long name begins like a short option, = is no short option and no entry has two long names, this build accepts every command line the default one accepts, with the same values. Without these conditions a command line may be accepted by both and mean different things, or be refused by this build. As in the default build the outcome depends on the table and the arguments only, the caller's argv and memory are left alone, nothing undefined happens, and parsing ends unless an option argument ends in a dash.", "quantifier": "every argument table, every command line, any earlier state of the parser; for safety all tables of the library's kinds of entries; option strings as in C15 (long options neither empty nor beginning with a comma), option letters other than : ; ? and byte 255, an arg_end with room for at least one error", "why_tests_cant": "unbounded in the arguments and the names; the option is off in the builds that are tested", "anchors": ["src/argtable3.c:parse_tagged", "src/arg_getopt_long.c:getopt_long_only", "src/arg_getopt_long.c:parse_long_options", "CMakeLists.txt:ARGTABLE3_LONG_ONLY"]}
{"id": "C79", "title": "Whole programs", "statement": "A program written like the examples (build the table, arg_nullcheck, arg_parse, then help, version, errors or the work, then arg_freetable), for every command line, does nothing undefined, leaves nothing allocated, and prints: with its help option anywhere among the options, and whatever else is wrong, the usage, and returns 0; else with its version option the version, and returns 0; else if something is wrong, one message for every error (the first 19 and a remark if there are more than 20) and a hint, and returns 1; else what its work prints from the values that the command line gives. In particular: echo prints which of -n, -e, -E were given and the strings in order; uname the fields asked for, or all with -a; myprog the values given, and its defaults 3 and - for those not given. uname without options does not do the same as uname -s, though its help says so, and uname -- prints an empty line; myprog without arguments is an error, its branch for this case is never reached. myprog_C89 does what myprog does, but for its name and a shorter usage.", "quantifier": "every program of this frame with any table of the library's kinds, any work that is defined after a successful parse, every command line of arguments up to 20000000 bytes on which arg_parse comes back (C12), none of whose ends is a text of C18 if there are integer entries, any earlier state of the parser; option strings as in C15 (long options neither empty nor beginning with a comma), option letters other than : ; ? and byte 255, an arg_end with room for at least one error", "why_tests_cant": "unbounded in the command line; the examples are not run by the tests", "anchors": ["examples/echo.c:main", "examples/uname.c:main", "examples/myprog.c:main", "examples/myprog_C89.c:main", "src/argtable3.c:arg_parse", "src/argtable3.c:arg_print_errors", "src/argtable3.c:arg_freetable"]}
{"id": "C80", "title": "Several syntaxes", "statement": "A program may try the same command line on several tables in turn. If no option takes a value in one table and none (or an optional one) in the other, two tables that both find the options spelt correctly see the same positional arguments; so if the tables require different first words, or one a first word and the other has no positional arguments, no command line is accepted by both. Without that condition one command line may be accepted by both. The example multisyntax (insert, remove, search, or only options), for every command line, does nothing undefined, leaves nothing allocated, is right for at most one of its four syntaxes and prints what that one says; with none right it prints the messages and the syntax of the table whose command word comes first among the positional arguments as that table sees them, and all four syntaxes if there is none; it returns 0 in every case. It asks for its command words in either case but accepts them in lower case only.", "quantifier": "every two tables of the library's kinds, every command line; for multisyntax every command line of arguments up to 20000000 bytes on which the four parses come back (C12), any earlier state of the parser; option strings as in C15 (long options neither empty nor beginning with a comma), option letters other than : ; ? and byte 255, an arg_end with room for at least one error", "why_tests_cant": "unbounded in the command line and the tables; the example is not run by the tests", "anchors": ["examples/multisyntax.c:main", "examples/multisyntax.c:mymain1", "examples/multisyntax.c:mymain2", "examples/multisyntax.c:mymain3", "examples/multisyntax.c:mymain4", "src/argtable3.c:arg_parse"]}
{"id": "C81", "title": "Patterns that can be checked beforehand", "statement": "A pattern is a way to write at most one expression, found by reading it from left to right. If it passes a check of the pattern alone (it is written correctly and short enough, has no dot, negated set or word boundary in it, and wherever there is a choice, to go on with a repetition or which alternative to take, the next character decides, or the alternatives are words of which none is the beginning of a later one), then an arg_rex entry with this pattern accepts exactly the texts of its language, and tables of such entries are within reach of all the claims about tables. [+\\-]?\\d+(\\.\\d+)?([eE][+\\-]?\\d+)? passes the check, [ab]*ab does not.", "quantifier": "every pattern that passes the check, every text of at most 65535 characters, with and without regard to case", "why_tests_cant": "infinitely many patterns and texts", "anchors": ["src/arg_rex.c:trex_compile", "src/arg_rex.c:trex_matchnode", "src/arg_rex.c:trex_match", "src/arg_rex.c:arg_rexn"]}
{"id": "C82", "title": "Running out of memory", "statement": "As long as the panic function does not return, a constructor either returns a new block of its own (NULL only if arg_rexn is given NULL for a pattern), having released everything else it allocated, or the first request for memory that is refused calls the panic function, once, with nothing released that existed before. The library's own panic function writes exactly 'Out of memory!' and a newline to stderr and ends the program with status 1, or with abort if EF_DUMPCORE is set and not empty. So a table that was built needs no check: arg_nullcheck finds 1 in it if a pattern was NULL and otherwise 0. arg_parse and the matching of values with patterns release all that they allocate. If there is enough memory, everything returns. (With a panic function that returns, the library uses a null pointer.)", "quantifier": "every constructor with all counts (less than INT_MAX for arg_dbln) and all patterns that are read without undefined behaviour, every table, every number of values matched with patterns that compile, every sequence of granted and refused requests, every panic function that does not return", "why_tests_cant": "the requests that fail can be any", "anchors": ["src/arg_utils.c:panic", "src/arg_utils.c:xmalloc", "src/arg_utils.c:xcalloc", "src/arg_utils.c:xrealloc", "src/arg_utils.c:xfree", "src/arg_rex.c:trex_compile", "src/arg_rex.c:trex_free", "src/arg_rex.c:arg_rexn", "src/argtable3.c:arg_parse", "src/argtable3.c:arg_nullcheck"]}
{"id": "C83", "title": "How long the matching of an argument with a pattern takes", "statement": "Let m be the length of an arg_rex pattern with R repetitions (*, +, ?, {...}). Matching an argument with it takes at most (m+1)*(1+N*(m+2))^R steps (a step: a visit of a part of the pattern, or a member of a set looked at), where N is 65536 for every pattern, the length n of the argument if all that is repeated takes at least a character, and the largest upper limit if all repetitions have one below 65535. So matching always ends after a number of steps that the pattern alone determines; without repetitions that is m+1, exactly reached by every word (one step and one for each character up to the first that differs); a set takes two steps and one for each member up to the first that has the character, and c* takes n+2 steps for n characters c. The exponent cannot be improved: for every k there is a pattern of 4k+1 characters with k repetitions that takes (n/k)^k steps for arguments of a's (n at most 65535 and a multiple of k). Where what is repeated can be empty the length of the argument is no bound: there are patterns of 3k+4 characters that take at least 65536^k steps for any argument whose first character is not an a (nor, without regard to case, an A), 2^64 for 16 characters.", "quantifier": "every pattern of at most INT_MAX/2 characters, every argument of any length, every flags, every number k of repetitions", "why_tests_cant": "a bound for all patterns and arguments; the bad cases would not end", "anchors": ["src/arg_rex.c:trex_matchnode", "src/arg_rex.c:trex_matchclass", "src/arg_rex.c:trex_match", "src/arg_rex.c:arg_rex_scanfn"]}
{"id": "C84", "title": "getopt, and what the option scanner prints", "statement": "A program that calls getopt until it returns -1 sees what POSIX says, for every option string of letters (each without value, with one, or, as c::, with an optional one) and every argv: one result for each option letter in the order of the arguments, with optarg the rest of the argument or the next argument; '?' with optopt for a letter that is not an option; '?' (or ':' if the option string begins with a colon) for a missing value; the scan ends before the first argument that is no option (or only a dash) or behind --; argv is unchanged and optind is the index of the first operand. If opterr is not 0 and the option string has no colon in front, exactly one line is printed for each letter that is no option and for each missing value, with the text for it, and nothing else; otherwise nothing. getopt_long and getopt_long_only too print exactly one line for each '?' (if no option returns '?' itself), nothing if opterr is 0 or the colon is there; for an argument --name[=value] both give the option named or abbreviated, its value and the index, or the right one of four messages (getopt_long_only takes an abbreviation only if one name begins with it). For -name[=value] getopt_long_only does the same, with one dash in the messages, if the first character is no option letter; if it is one, a single letter is no abbreviation and an argument that is no long option is read just as getopt_long reads it. If the option string has W; then getopt_long reads -Wname and -W name like --name, with -W in the messages, and -W at the end as an option without its value. arg_parse never prints anything, whatever opterr was, and leaves opterr 0 (unless argc is 0). Exceptions: an argument of several letters that ends in a dash stops the scan of getopt, and getopt_long returns '?' without a message and reads it again for ever; the character 255 ends the scan.", "quantifier": "every option string and list of long options, every argv of any length, POSIXLY_CORRECT set or not, opterr set or not, every state at the start of a scan", "why_tests_cant": "unboundedly many argument vectors; effects on global state across calls", "anchors": ["src/arg_getopt_long.c:getopt", "src/arg_getopt_long.c:getopt_internal", "src/arg_getopt_long.c:parse_long_options", "src/argtable3.c:arg_parse_tagged"]}
{"id": "C85", "title": "The programs ls and mv, for every command line", "statement": "The example programs ls (79 entries: switches, integers, texts, one option whose value may be left out, remarks, files) and mv do for every command line what their source and their usage say. With --help in it (and nothing that hangs) they print exactly the usage text and return 0, mistakes or not; else with --version the version text and 0; else, if an option is mistyped, given twice or has a value that is not an integer in range where one is needed (mv: or there is no operand), one or more messages beginning with the program's name and a hint, and 1; else one line for each option given, in the fixed order of the source, with its value (for --color without value, always; for mv the defaults existing, query and ~), then the files numbered in order, and 0. Nothing stays allocated. Exceptions: ls shows 1 for every --block-size, and refuses sizes ending in K, M, G, T, P, Z or Y which its help offers; mv --verbose without --target-directory passes a null pointer to printf for every right command line; mv --backup a b takes a for the CONTROL that the usage shows as optional; mv a is accepted although the usage asks for a destination.", "quantifier": "every command line that arg_parse finishes (C12) and without the texts that C17 excludes (all arguments up to 20 MB, POSIXLY_CORRECT set or not); option strings as in C15 (long options neither empty nor beginning with a comma), option letters other than : ; ? and byte 255, an arg_end with room for at least one error", "why_tests_cant": "unboundedly many command lines and combinations of eighty entries", "anchors": ["examples/ls.c:main", "examples/ls.c:mymain", "examples/mv.c:main", "examples/mv.c:mymain", "src/argtable3.c:arg_parse"]}
{"id": "C86", "title": "The program of the Getting Started page and testargtable3, for every command line", "statement": "The program that the documentation shows first does the following for every command line. With --help (or an abbreviation) in it, it prints exactly its usage text and returns 0, mistakes or not. Else, if an option is mistyped or given twice, --level has no integer in range, or there are not one to a hundred files, it prints one or more messages beginning with its name and a hint, and returns 1. Else it prints nothing and returns 0. In every case nothing stays allocated, though the table is not checked for null entries. Exceptions: the text shown on the page is not the one printed (the row for --version differs); --version is an error without files and has no effect with them, though the usage says that it displays version information; more than a hundred files are refused though the usage sets no limit. The example testargtable3 behaves in the same way, with --scalar for --level, three more flags and its own usage text; that text says that without files the current directory is listed, but it is an error to give none.", "quantifier": "every command line (all arguments up to 20 MB, POSIXLY_CORRECT set or not); option strings as in C15 (long options neither empty nor beginning with a comma), option letters other than : ; ? and byte 255, an arg_end with room for at least one error", "why_tests_cant": "unboundedly many command lines", "anchors": ["docs/source/arg_getting_started.md:main", "examples/testargtable3.c:main", "src/argtable3.c:arg_parse", "src/argtable3.c:arg_print_syntax", "src/arg_end.c:arg_print_errors"]}
{"id": "C87", "title": "What arg_mgsort needs, whatever the comparison function answers", "statement": "arg_mgsort on n elements comes to an end and only rearranges them, even if the comparison function is inconsistent or answers differently each time. It calls it only with elements of the range that is sorted, at least n - 1 times and at most n L - 2^L + 1 times, where L is the base 2 logarithm of n rounded up; for every n there are elements for which it takes that many. It allocates n - 1 blocks, one after another: at most one exists at a time, with room for at most n elements, and none is left. Its calls are nested L + 1 deep.", "quantifier": "every array with indices up to 2^30 - 1, every range in it, every comparison function (also one with a memory), every n for the worst case", "why_tests_cant": "unbounded in the array and in the behaviour of the comparison function", "anchors": ["src/arg_utils.c:merge", "src/arg_utils.c:arg_mgsort"]}
{"id": "C88", "title": "Going on after memory ran out", "statement": "A program may set a panic function that does not return but jumps back into the program. A dynamic string on which a call was broken off in this way keeps its text, and all further calls behave as if the broken-off ones had not been made; only appending text or copying a text of more than 200 bytes can be broken off, releasing the string releases everything but at most one block for each formatted append that was broken off, and the client's release function is called for exactly the texts handed over by completed calls. Setting the module's name or version for the first time may be broken off without harm. In the command registry only a registration can be broken off; it then leaves its name without a command, every other command as it was, and later calls work as usual; releasing the registry releases everything but at most one key and one command block for each registration that was broken off. (Setting them again may not: a broken-off call leaves a pointer to freed memory, which the next help text reads and the next setting frees once more. Nor does a registration that is broken off keep the old command of that name, and a full registry for which a larger table is refused does not fall back on the old table, as a comment says, but asks for a still larger one the next time.)", "quantifier": "every client that keeps the rules of the string and registry functions and decides each call by what was refused before, every sequence of granted and refused requests", "why_tests_cant": "unbounded in the history and in which of the requests are refused; depends on the order of requests and assignments inside each call", "anchors": ["src/arg_dstr.c:arg_dstr_catf", "src/arg_dstr.c:setup_append_buf", "src/arg_dstr.c:arg_dstr_set", "src/arg_cmd.c:arg_set_module_name", "src/arg_cmd.c:arg_set_module_version", "src/arg_cmd.c:arg_cmd_register", "src/arg_hashtable.c:arg_hashtable_insert", "src/arg_hashtable.c:arg_hashtable_expand", "src/arg_utils.c:panic"]}
{"id": "C89", "title": "Changing the registry while iterating over it", "statement": "A program that iterates over the registered commands may, while a command is shown, register and unregister other commands, as long as no more than 35 commands (or no more than at the start, if that is more) are registered at any time. The iteration then comes to an end, shows no name twice (not even one that is unregistered and registered again), shows nothing but commands registered at that moment, with their data, and shows every command that was registered at the start and that none of the calls was about; afterwards the registry is what the calls made of it. Unregistering other commands needs no limit. (The command that is being shown must be left alone: to unregister it and then advance reads freed memory, for every registry; and a registration that brings the number to 36 can make the iteration show commands twice and leave out others.)", "quantifier": "every history of the registry, every client that decides its calls by what it has been shown so far", "why_tests_cant": "unbounded in the history, the number of commands and the calls made during the iteration; depends on where in its hash chain a command is inserted and on which registrations move all commands to a larger table", "anchors": ["src/arg_cmd.c:arg_cmd_itr_create", "src/arg_cmd.c:arg_cmd_itr_advance", "src/arg_cmd.c:arg_cmd_register", "src/arg_cmd.c:arg_cmd_unregister", "src/arg_hashtable.c:arg_hashtable_insert", "src/arg_hashtable.c:arg_hashtable_remove", "src/arg_hashtable.c:arg_hashtable_expand", "src/arg_hashtable.c:arg_hashtable_itr_advance"]}
{"id": "C90", "title": "Entries with functions of the program's own", "statement": "A program may put entries of its own into the table whose reset, scan and check functions share its variables. arg_parse then calls, one after the other: every reset function, in the order of the table; the scan function of the entry for every option of the command line, in the order of the command line, whatever its errors (so of options that undo each other the last one counts); then, for the other arguments, the scan functions of the entries without options, each offered argument after argument until it refuses one, which goes to the next entry; and, if no argument was at fault, every check function in the order of the table. No other function is called, and none with other arguments. Every answer other than 0 is recorded as an error of its entry, except for a refusal after which another entry tried the same argument. If these functions return, arg_parse returns and has released what it allocated (unless an argument ends in a dash, as in C12). The entries of the library are the case in which each function works on its own entry.", "quantifier": "every table, every command line, any reset, scan and check functions over any shared state; option strings as in C15 (long options neither empty nor beginning with a comma), option letters other than : ; ? and byte 255, an arg_end with room for at least one error", "why_tests_cant": "unbounded in tables, command lines and in what the functions do; about the order of calls, which tests with entries of the library cannot see", "anchors": ["src/argtable3.c:arg_parse", "src/argtable3.c:arg_parse_tagged", "src/argtable3.c:arg_parse_untagged", "src/argtable3.c:arg_parse_check", "src/argtable3.c:arg_reset", "src/argtable3.h:arg_hdr"]}
{"id": "C91", "title": "Parsing inside a parse", "statement": "The functions of a program's own entries may call arg_parse themselves, for other tables. If reset and check functions do so, to any depth (a check function parses another command line, whose table has reset functions that parse again, and so on), the outer parse has the outcome of C90: variables of the program, return value and recorded errors are as if each of these functions had been called on its own, and do not depend on what the option scanner was used for before. For scan functions this is false: the inner parse leaves the scanner where it stopped, and the outer one goes on from there in its own arguments. The outer parse may then never return, may skip options without an error, may offer a positional argument twice, and may record the error of a refused option without its text.", "quantifier": "every table, every command line, reset and check functions composed in any way of functions that leave the scanner alone and of parses that finish (C12), to any depth; any state of the scanner before; option strings as in C15 (long options neither empty nor beginning with a comma), option letters other than : ; ? and byte 255, an arg_end with room for at least one error", "why_tests_cant": "unbounded in tables, command lines and depth of nesting, and about hidden state shared by all parses; tests call arg_parse only from the outside", "anchors": ["src/argtable3.c:arg_parse", "src/argtable3.c:arg_parse_tagged", "src/argtable3.c:arg_parse_untagged", "src/argtable3.c:arg_parse_check", "src/argtable3.c:arg_reset", "src/arg_getopt_long.c:getopt_internal"]}
{"id": "C92", "title": "Programs with sub-commands", "statement": "A program registers and unregisters commands and answers command lines with arg_cmd_dispatch, in any order; its procedures build a table, parse it, call arg_make_syntax_err_help_msg with the count of their help switch, do their work only if that returned 0, and release the table. Then every command line is answered according to the registrations in force and its own words alone: by the greeting and code 1 if it is empty or its first word is not a registered command; by the help of that command with its registered description, and code 0, if the help switch is among the arguments, whatever else is wrong; else, if there are errors, by a message for each, the usage and code 1; else by the work of the procedure registered last under that name, with the context registered with it and with the values that were given. The same words get the same text and code whatever was answered before and whatever was in fresh memory. Nothing stays allocated. Without the look-up before it, arg_cmd_dispatch follows a null pointer for an unregistered name. The texts mislead: the usage line of a command does not name the command, and the greeting refers to a command help that the library does not register.", "quantifier": "every sequence of registrations, unregistrations and command lines, every procedure of this pattern with any table of the library's kinds and any work, any earlier use of the scanner; command lines as in C79, every registered command has a procedure; texts of the commands fit 2^29 bytes, module name and version 1000 bytes each; option strings as in C15 (long options neither empty nor beginning with a comma), option letters other than : ; ? and byte 255, an arg_end with room for at least one error", "why_tests_cant": "unbounded in the length of the session, in commands, tables and command lines; about the whole chain from the registry to the text, of which tests exercise single links", "anchors": ["src/arg_cmd.c:arg_cmd_dispatch", "src/arg_cmd.c:arg_cmd_register", "src/arg_cmd.c:arg_cmd_unregister", "src/arg_cmd.c:arg_make_syntax_err_help_msg", "src/arg_cmd.c:arg_make_help_msg", "src/arg_cmd.c:arg_make_syntax_err_msg", "src/arg_cmd.c:arg_make_get_help_msg", "src/argtable3.c:arg_parse"]}
{"id": "C93", "title": "The verbose usage line can be followed", "statement": "Someone who reads the line of arg_print_syntaxv types, for each occurrence of an option, any one of the alternatives shown of it, with its value attached to the letter, behind the long name and an equals sign, or (unless the value is optional) as the next argument, and words for the entries without options; options in any order and between the words. If each entry is used as often as the line says and with good values, arg_parse returns 0, and each entry has exactly the values typed for it, in the order typed. Neither the choice of alternatives nor the order of options of different entries changes what an entry gets. Of the entries without options only the last that is used may be used less often than the line allows. The line misleads in two ways: the equals sign shown behind the alternatives does not go with a letter (typed -o=x, a text entry silently stores =x), and an optional value typed as the next argument is taken as a positional argument.", "quantifier": "every table, every number of parts and every choice of alternatives, values and order (with POSIXLY_CORRECT: options before words), any earlier use of the table and of the scanner; alternatives shown of an earlier entry too, a bare -- and names with an equals sign are left out (C67); option strings as in C15 (long options neither empty nor beginning with a comma), option letters other than : ; ? and byte 255, an arg_end with room for at least one error", "why_tests_cant": "all combinations of alternatives, forms of values and orders for all tables; a test can try a few for one table", "anchors": ["src/argtable3.c:arg_print_syntaxv_ds", "src/argtable3.c:arg_cat_optionv", "src/argtable3.c:arg_parse", "src/arg_getopt_long.c:getopt_long"]}
{"id": "C94", "title": "The index of the long option found", "statement": "If the last argument of getopt_long or getopt_long_only is not null, the call stores in that variable the place in the list of long options of the option that it reports, and of no other: the first one of this name, or, if there is none, the first whose name begins so. A call that stores nothing (a letter, a word, a complaint, the end) neither returns 0 nor sets the variable of a flag, so a program whose options all have flags always finds the right index after 0; a call that stores the index returns the value of that option, or 0 after storing its value in the flag. For --name, --name=value and, with getopt_long_only, -name, the index is stored exactly if the option is reported, and it is the one that the name means. Asking for the index changes nothing else. The index is not reset: after a letter it is the one of an earlier long option. For an option whose value is -1 the index is stored but the argument is then taken as option letters.", "quantifier": "every list of long options, option string, argument vector and state of the scanner, with and without POSIXLY_CORRECT; values other than -1 for options without flag", "why_tests_cant": "all lists of names that begin alike, and all earlier calls; a test can try a few names", "anchors": ["src/arg_getopt_long.c:parse_long_options", "src/arg_getopt_long.c:getopt_internal", "src/arg_getopt_long.c:getopt_long", "src/arg_getopt_long.c:getopt_long_only"]}
{"id": "C95", "title": "The last message of the option scanner on Windows", "statement": "On Windows, whatever getopt, getopt_long and getopt_long_only complain about and however long the names in it are, the array opterrmsg of 128 bytes is never overrun and always holds a terminated text: the last message, of which the first 127 bytes are kept, with nothing left of an earlier and longer one; and each message is printed as a line, cut likewise. With opterr set and an option string that does not begin with a colon, after a call that returned a question mark the array holds the message of this call, and every other call leaves it alone. Otherwise nothing is printed and the array keeps what it held: the comment in the source that opterrmsg is set whatever opterr is does not hold. Two different complaints about options with very long names can have the same text.", "quantifier": "every number of messages and every length, every previous contents of the array, every option string, list of long options and argument vector; for the second part arguments that do not end in a dash, and a question mark neither an option letter nor the value of a long option, as in C84", "why_tests_cant": "messages of every length and every sequence of complaints; the test programs run on other systems", "anchors": ["src/arg_getopt_long.c:warnx", "src/arg_getopt_long.c:getopt_internal", "src/arg_getopt_long.c:parse_long_options", "src/arg_getopt_long.c:getopt", "src/arg_getopt_long.c:getopt_long"]}
{"id": "C96", "title": "An option more or less", "statement": "If a command line was accepted, any one occurrence of an option (with its value) may be left out as long as its entry was given more often than its minimum: the shorter line is accepted too, the entry has its other values in their order, and every other entry has exactly the count and values it had. The other way round, one more occurrence may be typed at any place if the entry then has at most its maximum and its values are good: the line is still accepted, the entry has the new value at its place between the others, and no other entry changes. For a date entry only the last occurrence may be left out, as a date fills in what the text does not say from the slot it is stored in. This does not hold for words: with two text entries without options of which the second is optional, leaving out the first of two words is accepted silently and the second word goes to the first entry.", "quantifier": "every table, every accepted command line, every occurrence in it and every place (with POSIXLY_CORRECT: options before words), any earlier use of the table and of the scanner; options typed in the ways of C93, long of 64 bits; option strings as in C15 (long options neither empty nor beginning with a comma), option letters other than : ; ? and byte 255, an arg_end with room for at least one error", "why_tests_cant": "all pairs of command lines that differ in one option, for all tables; a test can try a few pairs", "anchors": ["src/argtable3.c:arg_parse", "src/argtable3.c:arg_parse_tagged", "src/argtable3.c:arg_parse_untagged", "src/argtable3.c:arg_parse_check", "src/arg_getopt_long.c:getopt_long"]}
