{
 "C17": {
  "note": "LP64. With a 32-bit long the claim is false (C17_int_long32_refuted)."
 },
 "C18": {
  "note": "exact characterisation of the undefined inputs, both widths of long"
 },
 "C38": {
  "note": "the property as stated is false; C38_mgsort_stable_refuted gives the witness"
 },
 "C02": {
  "note": "maximum counts >= 0 (C02_negative_maxcount_refuted shows the need); integer texts of C18 excluded; strtod and the regular expression matcher enter with their contracts"
 },
 "C16": {
  "note": "the flag for an optional value together with the one for a value; alone it makes the short option require a value (C16_flag_without_value_refuted)"
 },
 "C31": {
  "note": "registry and generic table (every key type, hash and equality function meeting their contract). Names/descriptions fit the arrays; registering a command with a pointer into its own information block is a use after free (C31_register_own_text_refuted); with duplicate keys inserted directly the last insertion may lose (C31_duplicate_keys_refuted)"
 },
 "C33": {
  "note": "the iterator's own memory block is not modelled"
 },
 "C35": {
  "note": "single table; after arg_cmd_uninit the registry dangles and two arg_cmd_init leak (refutations)"
 },
 "C36": {
  "note": "counters are unbounded integers (fewer than 2^32 entries); (float)0.65 is the rational 5452595/2^23"
 },
 "C43": {
  "note": "program name not NULL (C43_null_progname_refuted: undefined for errors of entries). Some messages contain an extra line end (C43_one_line_refuted); the sample in a date error is always that of an all-zero date (C43_date_sample_refuted); an unknown option with a character code 1 to 5 is reported as another kind of error (C43_control_character_refuted)"
 },
 "C45": {
  "note": "distinct entries; an entry in two places is freed twice (C45_shared_entry_refuted); arg_free leaks entries behind a NULL (C45_free_leaks_refuted)"
 },
 "C27": {
  "note": "strtod enters with its contract; a maximum count of INT_MAX overflows (C27_intmax_refuted)"
 },
 "C57": {
  "note": "struct layout computed from the member lists for 4 and 8 byte pointers; maximum counts >= 0 and sizes within size_t (C57_negative_refuted, C57_wrap_refuted); odd counts misalign the pointers of arg_end on 64-bit machines (C57_end_odd_refuted)"
 },
 "C55": {
  "note": "registry initialised and a command given (two refutations); texts as set by the name and version functions of C56"
 },
 "C24": {
  "status": "proved",
  "note": "Soundness for every way to spell every expression of the grammar in RexSpec, and every text. The exclusions are necessary: C24_boundary_refuted, C24_icase_range_refuted, C24_count_refuted. C24_sound_boundaries includes word boundaries, for the boundaries that the program sees; C24_boundaries_early and C24_boundaries_at_ends compare these with the real ones. Patterns of up to 2^30 characters."
 },
 "C25": {
  "status": "proved",
  "note": "Patterns and words are given as texts. The condition on beginnings is necessary: C25_prefix_refuted."
 },
 "C26": {
  "status": "proved",
  "note": "Accesses to nodes, pattern and text have distinct faults in the model; C26_ends allows only OutsideText (and the NULL dereference after a failed compilation, and int overflow of counts). The conditions are necessary: C26_empty_refuted, C26_backslash_refuted, C26_syntax_refuted, C26_range_refuted, C26_count_refuted, C26_dot_refuted."
 },
 "C58": {
  "status": "proved",
  "note": "Orderliness is a condition on languages (RexSpec), not on the code. C58_ex shows it for a pattern and all texts; C25 is a consequence. C58_exact_boundaries includes word boundaries as the program sees them."
 },
 "C59": {
  "status": "proved",
  "note": "For 64 bit long and values other than the texts of C18 (where the conversion overflows). Command lines with a cluster that ends in a dash never return (C12); they have no reading either. The regular expression matcher is a parameter that must give an answer (C26)."
 },
 "C60": {
  "status": "proved",
  "note": "Composition of the table theorems (C02, C59) with the matcher (C24, C26, C58). The width of long is 64 bits for the theorems that use C59. Counts that fit, no word boundaries and case-insensitive ranges as in C24."
 },
 "C61": {
  "status": "proved",
  "note": "For 64 bit long and values other than the texts of C18. Generalises C59 to command lines with mistakes. Command lines without a reading are those on which the parse does not return (C12); C61_no_reading. An unknown short option is recorded with its character as the code, as the code does (see C43 for control characters)."
 },
 "C62": {
  "note": "observation: return value, table and recorded errors, with the entries behind the remark renumbered"
 },
 "C63": {
  "note": "of more errors than arg_end has room for, different ones may be recorded"
 },
 "C64": {
  "note": "an empty value can only be passed by the short option (C16, C61); names containing an equals sign cannot be used"
 },
 "C65": {
  "note": "old command lines may have wrong values, missing or surplus arguments, but no unknown options"
 },
 "C66": {
  "note": "values without blanks; without POSIXLY_CORRECT; entries whose flag ARG_HASOPTVALUE was set by hand are left out (shown by example)"
 },
 "C67": {
  "note": "entries whose flag ARG_HASOPTVALUE was set by hand are left out"
 },
 "C68": {
  "note": "the first part must consist of words and complete options; refuted otherwise"
 },
 "C69": {
  "note": "the environment is a parameter of the model, as in C11"
 },
 "C70": {
  "note": "three places where a text may be misread are given as refutations"
 },
 "C71": {
  "note": "about entries with options; positional arguments of an entry without options depend on the entries before it (C14, C59)"
 },
 "C72": {
  "note": "for platforms with 64 bit long, like C59"
 },
 "C73": {
  "note": "the errors are compared as (entry, code, text); with a full table of errors only their number is"
 },
 "C74": {
  "note": "for platforms with 64 bit long, like C59; texts for int entries that exist in the table must avoid the double negation of C18 (safe_value), which decimal numbers do"
 },
 "C75": {
  "note": "each call has its own arguments and arg_end, all of which exist before the first call; the calls in between free what they allocate"
 },
 "C76": {
  "note": "about the texts; that the pointers point into the argument strings (so that nothing is copied) is how the model reads the C code, not a theorem"
 },
 "C77": {
  "note": "strftime is specified, not modelled from source: the C library is outside the repository"
 },
 "C78": {
  "note": "Whether an argument ending in a dash is an option argument is judged by its form (dash_tailed), as in C12"
 },
 "C79": {
  "note": "Constructors are taken to succeed; printf is taken as the text it prints"
 },
 "C80": {
  "note": "Constructors are taken to succeed; printf is taken as the text it prints"
 },
 "C81": {
  "note": "The check is sufficient, not necessary"
 },
 "C82": {
  "note": "Ownership of blocks only; the number of growths of the node table is left open"
 },
 "C83": {
  "note": "Steps of the matcher are counted in the model; the steps of compilation are not"
 },
 "C84": {
  "note": "The messages are the texts passed to warnx; what warnx writes around them is not modelled"
 }
}