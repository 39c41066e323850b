{
 "claims": [
  {
   "property": "C01",
   "status": "proved",
   "theorems": [
    "C01_token_positions"
   ],
   "note": "every token obtained by get, any file, any number of reads"
  },
  {
   "property": "C02",
   "status": "proved",
   "theorems": [
    "C02_lossless",
    "C02_unambiguous"
   ],
   "note": "the file decomposes into the spellings of the tokens read and gaps; the decomposition is unique"
  },
  {
   "property": "C03",
   "status": "proved",
   "theorems": [
    "C03_longest_operator"
   ],
   "note": ""
  },
  {
   "property": "C04",
   "status": "proved",
   "theorems": [
    "C04_words_and_keywords"
   ],
   "note": ""
  },
  {
   "property": "C05",
   "status": "partial",
   "theorems": [
    "C05_gaps_do_not_matter",
    "C05_replace_gap",
    "C05_adjacent_strings_refuted"
   ],
   "note": "true for all gaps except between two adjacent string literals, where the code joins across blanks but not across comments; that exception is exhibited"
  },
  {
   "property": "C06",
   "status": "proved",
   "theorems": [
    "C06_strings_joined",
    "C06_strings_only",
    "C06_unterminated"
   ],
   "note": ""
  },
  {
   "property": "C07",
   "status": "proved",
   "theorems": [
    "C07_lookahead_is_pure"
   ],
   "note": "all histories of more/get/peek/peekn/follows/eat/unget; pushing back arbitrary tokens is covered too"
  },
  {
   "property": "C08",
   "status": "proved",
   "theorems": [
    "C08_tokens_consume",
    "C08_bounded"
   ],
   "note": ""
  },
  {
   "property": "C09",
   "status": "partial",
   "theorems": [
    "C09_no_abort_refuted",
    "C09_aborts_exactly_partial"
   ],
   "note": "the code does abort; the theorem characterises exactly the files on which it does"
  },
  {
   "property": "C14",
   "status": "proved",
   "theorems": [
    "C14_exports_are_pub",
    "C14_nothing_private"
   ],
   "note": ""
  },
  {
   "property": "C15",
   "status": "partial",
   "theorems": [
    "C15_pub_typedefs_importable_partial",
    "C15_struct_alias_refuted"
   ],
   "note": "holds for typedefs of types and of struct bodies; a pub typedef of a struct by name is parsed but never exported, which is exhibited"
  },
  {
   "property": "C25",
   "status": "proved",
   "theorems": [
    "C25_names_defined"
   ],
   "note": "C library names include its type names, as in the code"
  },
  {
   "property": "C26",
   "status": "proved",
   "theorems": [
    "C26_no_unused_names"
   ],
   "note": ""
  },
  {
   "property": "C27",
   "status": "proved",
   "theorems": [
    "C27_no_unused_imports"
   ],
   "note": ""
  },
  {
   "property": "C28",
   "status": "proved",
   "theorems": [
    "C28_no_duplicates",
    "C28_lookup_unambiguous"
   ],
   "note": ""
  },
  {
   "property": "C29",
   "status": "proved",
   "theorems": [
    "C29_qualified_names_pub"
   ],
   "note": "the second hypothesis is what the parser establishes (C14)"
  },
  {
   "property": "C56",
   "status": "proved",
   "theorems": [
    "C56_types_known"
   ],
   "note": ""
  },
  {
   "property": "C18",
   "status": "proved",
   "theorems": [
    "C18_rules_total"
   ],
   "note": ""
  },
  {
   "property": "C19",
   "status": "partial",
   "theorems": [
    "C19_comparable",
    "C19_symmetric",
    "C19_operands_exchange",
    "C19_yields_bool_partial",
    "C19_yields_bool_refuted"
   ],
   "note": "symmetry is proved in full; comparing two bools yields a misspelt type instead of bool, which is exhibited"
  },
  {
   "property": "C20",
   "status": "proved",
   "theorems": [
    "C20_arithmetic",
    "C20_additive",
    "C20_symmetric",
    "C20_arith_result",
    "C20_plusminus_result",
    "C19_operands_exchange"
   ],
   "note": "the difference of two pointers is the third possible result type of minus"
  },
  {
   "property": "C21",
   "status": "proved",
   "theorems": [
    "C21_unknown_operands",
    "C21_unknown_expressions"
   ],
   "note": "for && and || provided the other operand is boolean-like"
  },
  {
   "property": "C22",
   "status": "partial",
   "theorems": [
    "C22_deref_address_partial",
    "C22_deref_address_refuted"
   ],
   "note": "holds exactly for types made of pointers only"
  },
  {
   "property": "C23",
   "status": "proved",
   "theorems": [
    "C23_call_arity"
   ],
   "note": "the hypothesis on parameter types excludes a type literally called '...', which no identifier is"
  },
  {
   "property": "C24",
   "status": "proved",
   "theorems": [
    "C24_loop_conditions"
   ],
   "note": ""
  },
  {
   "property": "C57",
   "status": "proved",
   "theorems": [
    "C57_accepted_iff"
   ],
   "note": ""
  },
  {
   "property": "C17",
   "status": "proved",
   "theorems": [
    "C17_lists_abbreviate",
    "C17_exports"
   ],
   "note": "the whole result of the translation is the same, for a module, its struct fields and the modules it imports"
  },
  {
   "property": "C32",
   "status": "proved",
   "theorems": [
    "C32_linkage",
    "C32_variables"
   ],
   "note": "main means a function main returning neither pointer nor array, as in the code"
  },
  {
   "property": "C33",
   "status": "proved",
   "theorems": [
    "C33_groups_in_order",
    "C33_prototypes_first",
    "C33_order_kept"
   ],
   "note": "a typedef or struct whose text repeats an earlier one is left out"
  },
  {
   "property": "C34",
   "status": "proved",
   "theorems": [
    "C34_calloc_helper"
   ],
   "note": ""
  },
  {
   "property": "C37",
   "status": "proved",
   "theorems": [
    "C37_panic"
   ],
   "note": ""
  },
  {
   "property": "C40",
   "status": "proved",
   "theorems": [
    "C40_expressions"
   ],
   "note": ""
  },
  {
   "property": "C42",
   "status": "proved",
   "theorems": [
    "C42_statements",
    "C42_bodies"
   ],
   "note": ""
  },
  {
   "property": "C30",
   "status": "partial",
   "theorems": [
    "C30_definition_and_use_partial",
    "C30_names_used",
    "C30_shadowed_refuted"
   ],
   "note": "Missing and refuted: a pub function that has a parameter of its own name is defined without prefix. pub main is excluded as well. Struct aliases are not exported by the program."
  },
  {
   "property": "C31",
   "status": "partial",
   "theorems": [
    "C31_no_collisions_partial",
    "C31_exported_names_partial",
    "C31_shadowed_refuted"
   ],
   "note": "Prefixed names never collide; the unprefixed functions of C30 do (refuted)."
  },
  {
   "property": "C43",
   "status": "proved",
   "theorems": [
    "C43_modules_in_order"
   ],
   "note": ""
  },
  {
   "property": "C44",
   "status": "proved",
   "theorems": [
    "C44_cycles",
    "C44_built_acyclic",
    "C44_loading"
   ],
   "note": "Termination is stated as: some amount of fuel suffices, and any larger one gives the same kind of answer. Files whose pre-pass fails are covered by C44_loading."
  },
  {
   "property": "C45",
   "status": "proved",
   "theorems": [
    "C45_imports_available",
    "C45_front",
    "C45_namespaces_found",
    "C45_announced",
    "C45_import_directives"
   ],
   "note": ""
  },
  {
   "property": "C46",
   "status": "proved",
   "theorems": [
    "C46_injected",
    "C46_keys",
    "C46_nothing_private"
   ],
   "note": "Directives (#define) of imported modules count as exported, as in the statement."
  },
  {
   "property": "C47",
   "status": "partial",
   "theorems": [
    "C47_resolution",
    "C47_total",
    "C47_namespace_partial",
    "C47_namespace_refuted"
   ],
   "note": "The namespace is wrong for file names that are not ASCII (refuted). Base paths must end in a file name."
  },
  {
   "property": "C49",
   "status": "partial",
   "theorems": [
    "C49_command_line_partial",
    "C49_twice_refuted"
   ],
   "note": "Duplicates are removed before trimming: #link m passes -l m twice (refuted)."
  },
  {
   "property": "C50",
   "status": "proved",
   "theorems": [
    "C50_generated_files"
   ],
   "note": ""
  },
  {
   "property": "C51",
   "status": "partial",
   "theorems": [
    "C51_failures_counted_partial",
    "C51_status_partial",
    "C51_build_failure_refuted",
    "C51_overflow_refuted"
   ],
   "note": "Tests that fail to compile are not counted, and 256 failures give status 0 (both refuted)."
  },
  {
   "property": "C52",
   "status": "partial",
   "theorems": [
    "C52_no_command_partial",
    "C52_arguments_partial",
    "C52_unknown_command_refuted"
   ],
   "note": "An unknown command exits with status 0 (refuted)."
  },
  {
   "property": "C53",
   "status": "proved",
   "theorems": [
    "C53_tree",
    "C53_unique"
   ],
   "note": ""
  },
  {
   "property": "C10",
   "status": "proved",
   "theorems": [
    "C10_expressions",
    "C10_sound",
    "C10_unambiguous"
   ],
   "note": "the tree is the one of the grammar in SpecGrammar.v"
  },
  {
   "property": "C13",
   "status": "proved",
   "theorems": [
    "C13_accepted_iff",
    "C13_unambiguous",
    "C13_errors_located",
    "C13_prepass"
   ],
   "note": "accepted files are exactly those whose tokens form a module of the grammar; refused files get errors at tokens of the file"
  },
  {
   "property": "C16",
   "status": "proved",
   "theorems": [
    "C16_pub_variable_refused",
    "C16_never_pub",
    "C32_variables"
   ],
   "note": ""
  },
  {
   "property": "C55",
   "status": "proved",
   "theorems": [
    "C55_enum_semicolon"
   ],
   "note": ""
  },
  {
   "property": "C48",
   "status": "partial",
   "theorems": [
    "C48_types_found_partial",
    "C48_types_found_refuted"
   ],
   "note": "typedefs with both parameters and an array size are missed (refuted)"
  },
  {
   "property": "C11",
   "status": "partial",
   "theorems": [
    "C11_unclosed_body_refuted",
    "C11_terminates_refuted",
    "C11_terminates_partial",
    "C11_prepass_terminates_partial",
    "C11_prepass_refuted"
   ],
   "note": "the parser does not terminate on a file that ends inside a function body, the pre-pass not on an unexpected character in a typedef; everywhere else both stop within fuel linear in the tokens"
  },
  {
   "property": "C12",
   "status": "partial",
   "theorems": [
    "C12_no_abort_refuted",
    "C12_aborts_where_partial",
    "C12_prepass_refuted",
    "C12_prepass_where_partial"
   ],
   "note": "the code aborts on some files; proved: it aborts only in the situations listed in SpecSafe.v"
  },
  {
   "property": "C38",
   "status": "partial",
   "theorems": [
    "C38_string_value_partial",
    "C38_string_value_refuted"
   ],
   "note": "for all strings except those with a backslash at the end of a line, whose C text cannot be read (refuted)"
  },
  {
   "property": "C41",
   "status": "partial",
   "theorems": [
    "C41_same_tree_partial",
    "C41_initializers_partial",
    "C41_one_reading",
    "C41_same_tree_refuted",
    "C41_programs_refuted"
   ],
   "note": "holds for plain trees (SpecC.v), for which the reading is unique; the formatter leaves out parentheses in the other cases, nine of which are exhibited with the programs they come from"
  },
  {
   "property": "C58",
   "status": "partial",
   "theorems": [
    "C58_library_calls_partial",
    "C58_no_other_functions",
    "C58_library_calls_refuted"
   ],
   "note": "for all library functions except abort, setvbuf, strtof and strtold, which the compiler's table declares with other parameter counts (refuted)"
  },
  {
   "property": "C35",
   "status": "partial",
   "theorems": [
    "C35_switch_partial"
   ],
   "note": "for switches whose expressions survive printing (C41); the C text of a switch runs the first case that lists the value, without falling through, or else the default"
  },
  {
   "property": "C36",
   "status": "partial",
   "theorems": [
    "C36_switch_str_partial",
    "C36_subject_twice_refuted"
   ],
   "note": "as C35, for subjects without effects; the subject is evaluated once per comparison, so one with effects behaves differently (refuted)"
  },
  {
   "property": "C39",
   "status": "partial",
   "theorems": [
    "C39_returns_partial",
    "C39_returns_refuted"
   ],
   "note": "for bodies whose closing ifs have a closing else, whose closing loops are while (true) without break, and whose closing switches are not left by break; the check accepts others, six of which are exhibited"
  },
  {
   "property": "C59",
   "status": "partial",
   "theorems": [
    "C59_runs_as_written_partial"
   ],
   "note": "for bodies whose expressions survive printing (C41) and whose switch str subjects have no effects (C36)"
  },
  {
   "property": "C60",
   "status": "proved",
   "theorems": [
    "C60_refused",
    "C60_exports"
   ],
   "note": "a crash is possible only where the system refuses to make the directory for C files"
  },
  {
   "property": "C61",
   "status": "proved",
   "theorems": [
    "C61_built",
    "C61_run",
    "C61_genc"
   ],
   "note": "the last case of each theorem is a crash, possible only where the system refused a request"
  },
  {
   "property": "C62",
   "status": "partial",
   "theorems": [
    "C62_listing_partial",
    "C62_group_refuted"
   ],
   "note": "for functions whose parameters are declared one by one; the names of a group of parameters are run together (refuted)"
  },
  {
   "property": "C63",
   "status": "proved",
   "theorems": [
    "C63_messages",
    "C63_plain_lines"
   ],
   "note": ""
  },
  {
   "property": "C64",
   "status": "proved",
   "theorems": [
    "C64_own_program"
   ],
   "note": ""
  },
  {
   "property": "C65",
   "status": "proved",
   "theorems": [
    "C65_built_iff",
    "C65_settled",
    "C65_imports"
   ],
   "note": "Main files whose path ends in a slash or a dot are excluded."
  },
  {
   "property": "C54",
   "status": "partial",
   "theorems": [
    "C54_no_abort_partial",
    "C54_no_abort_program_partial",
    "C54_no_abort_refuted"
   ],
   "note": "for modules without seven careless constructs: shift assignments, indexed designators, a switch str without cases, a type of another module as a value, a name declared twice in a scope, circular typedefs, #define without a value. The translator aborts on each of them; eight programs are exhibited"
  },
  {
   "property": "C66",
   "status": "partial",
   "theorems": [
    "C66_module_text_partial",
    "C66_dots_refuted",
    "C66_keyword_refuted"
   ],
   "note": "for modules whose elements survive printing: names are words and no types, expressions as in C41, directives fit their line, structures and enumerations are not empty, three dots follow a parameter. A parameter list of three dots alone is printed as text that is not C, and so is a variable named like a keyword of C (refuted)"
  },
  {
   "property": "C67",
   "status": "partial",
   "theorems": [
    "C67_functions_closed_partial",
    "C67_files_closed_partial",
    "C67_functions_closed_refuted",
    "C67_files_closed_refuted"
   ],
   "note": "for modules that avoid the constructs listed in SpecTidy.v (functions) and SpecNeat.v (types, structs, enums, prototypes, variables), in projects whose file names are words, whose exports can be told apart in C and whose directives with equal texts have equal names. 24 programs without these conditions, with an undeclared use in their C code, are exhibited"
  },
  {
   "property": "C68",
   "status": "partial",
   "theorems": [
    "C68_prototypes_defined",
    "C68_one_definition_partial",
    "C68_one_definition_refuted"
   ],
   "note": "every prototype has its definition in the program: for all programs. That no two files define one external name: for modules whose names can be told apart in C and with one main function; two programs without are exhibited"
  },
  {
   "property": "C69",
   "status": "partial",
   "theorems": [
    "C69_declared_once_partial",
    "C69_declared_once_refuted"
   ],
   "note": "for modules whose names can be told apart in C (telling, told_apart); five programs without, whose C files declare something twice, are exhibited. Names of macros are not compared"
  },
  {
   "property": "C70",
   "status": "partial",
   "theorems": [
    "C70_types_complete_partial",
    "C70_types_complete_refuted"
   ],
   "note": "under the conditions of C67 and C69 and if the sources define structs and typedefs in an order that suits C (well_sized in SpecComplete.v). Five programs without such an order are exhibited. Parameters of function type are not treated"
  },
  {
   "property": "C71",
   "status": "partial",
   "theorems": [
    "C71_same_meaning_partial",
    "C71_same_meaning_refuted"
   ],
   "note": "under the conditions of C67 and C69 and if no private name, macro or struct of a module takes the place of something in the declarations of another one (clear in SpecMeaning.v). Five programs that break these are exhibited. The texts of macros are not looked into"
  },
  {
   "property": "C72",
   "status": "partial",
   "theorems": [
    "C72_runs_as_written_partial",
    "C72_runs_as_written_refuted",
    "C72_hidden_refuted"
   ],
   "note": "under the conditions of C71, for bodies whose C text is read back unchanged (plain_body as in C59) and if no local name or parameter has the C name of something the function uses from outside (discreet in SpecRun.v), for every host that treats equal things equally (lawful). A switch over a string whose subject has effects, and a local name that hides an exported one in C, are exhibited. What a constant, a type or a macro comes to is left to the host"
  },
  {
   "property": "C73",
   "status": "partial",
   "theorems": [
    "C73_one_error_each_partial",
    "C73_one_error_each_refuted"
   ],
   "note": "for simple statements (expressions, declarations, return, break, continue) that break off at a missing operand, closing bracket, field name, variable name or semicolon (faulty_module in SpecFault.v). Not treated: an operand missing at a semicolon, a brace or inside a parenthesis, the heads of if, while, for and switch, composite literals, broken declarations outside of functions. For four of these the claim is false, programs are exhibited"
  },
  {
   "property": "C74",
   "status": "proved",
   "theorems": [
    "C74_buffer_is_queue",
    "C74_buffer_keeps_order"
   ],
   "note": "sizes do not overflow, allocation succeeds"
  },
  {
   "property": "C75",
   "status": "proved",
   "theorems": [
    "C75_vec_is_array"
   ],
   "note": "pointers are used before the next alloc; realloc leaves arbitrary bytes in new memory"
  },
  {
   "property": "C76",
   "status": "proved",
   "theorems": [
    "C76_map_is_map",
    "C76_large_values_refused"
   ],
   "note": "keys are not empty (realloc to size zero)"
  },
  {
   "property": "C77",
   "status": "partial",
   "theorems": [
    "C77_map2_is_map_partial",
    "C77_longer_value_refuted",
    "C77_shorter_value_refuted",
    "C77_empty_key_refuted"
   ],
   "note": "for nonempty keys whose values keep their size. A value set over one of another size is cut, or memory outside it is read, when the table grows; the value of the empty key gets lost (refuted)"
  },
  {
   "property": "C78",
   "status": "proved",
   "theorems": [
    "C78_hex_reads_back",
    "C78_hex_complete",
    "C78_url_reads_back",
    "mem_write_honest"
   ],
   "note": "writers are described by an honesty contract, and the memory writer is proved to keep it"
  },
  {
   "property": "C79",
   "status": "proved",
   "theorems": [
    "C79_writers",
    "C79_readers",
    "C79_round_trip"
   ],
   "note": "for readers not yet at their end, as the memory reader does not report it"
  },
  {
   "property": "C80",
   "status": "partial",
   "theorems": [
    "C80_writer",
    "C80_reader",
    "C80_readn",
    "C80_round_trip",
    "C80_getbits",
    "readers_steady",
    "C80_memory_end_refuted"
   ],
   "note": "missing: the end of input on a memory reader, where the reader never reports the end and repeats the last byte (C80_memory_end_refuted)"
  },
  {
   "property": "C81",
   "status": "partial",
   "theorems": [
    "C81_starts_with",
    "C81_casecmp",
    "C81_ends_with_partial",
    "C81_ends_with_refuted",
    "C81_rtrim",
    "C81_trim_partial",
    "C81_trim_refuted",
    "C81_split",
    "C81_split_no_slots_refuted",
    "C81_digits",
    "C81_allupper"
   ],
   "note": "ends_with never compares the first character of the suffix (C81_ends_with_refuted: main-c ends with .c); trim keeps form feeds and vertical tabs at the end (C81_trim_refuted); split into no slots writes outside of the array (C81_split_no_slots_refuted)"
  },
  {
   "property": "C82",
   "status": "partial",
   "theorems": [
    "C82_writer",
    "C82_reader_partial",
    "C82_skip_partial",
    "C82_round_trip_partial",
    "C82_depth_refuted",
    "C82_end_refuted",
    "C82_truncated_refuted"
   ],
   "note": "the reader is proved for at most ten lists and dictionaries inside each other; deeper values panic (C82_depth_refuted), a byte 255 is taken for the end (C82_end_refuted), a string cut short is read beyond the data and a list cut short is skipped forever (C82_truncated_refuted); numbers that fit an int other than the least one"
  },
  {
   "property": "C83",
   "status": "partial",
   "theorems": [
    "C83_sha1_partial",
    "C83_unique",
    "C83_format",
    "C83_finished",
    "C83_empty_refuted"
   ],
   "note": "the empty message is missing: its digest is wrong, as the first sum is set in add only (C83_empty_refuted); messages of at most 2147483583 bytes"
  },
  {
   "property": "C84",
   "status": "partial",
   "theorems": [
    "C84_stream",
    "C84_words",
    "C84_literal_partial",
    "C84_literal_refuted",
    "C84_num_refuted"
   ],
   "note": "literals are recognised only if the reader gives all bytes asked for (C84_literal_refuted: a reader of single bytes); num writes its final zero outside a buffer that the number just fills (C84_num_refuted)"
  },
  {
   "property": "C85",
   "status": "partial",
   "theorems": [
    "C85_parse_partial",
    "C85_format_partial",
    "C85_round_trip_partial",
    "C85_put_get",
    "C85_clone_partial",
    "C85_total_partial",
    "C85_newline_refuted",
    "C85_name_refuted",
    "C85_escape_refuted",
    "C85_strict_refuted",
    "C85_long_number_refuted",
    "C85_formatwr_refuted",
    "C85_clone_refuted"
   ],
   "note": "texts with no escapes other than of quote, backslash and slash, with numbers under 100 characters and without repeated names; strings without control characters and names without quotes and backslashes. The rest is wrong in the code: line feeds and tabs come back as a backslash and a letter, names are not escaped, other escapes are read as their letters, text behind the value is accepted, numbers of 100 characters overrun a buffer, formatwr repeats the beginning when a writer takes a part, clone panics on null"
  },
  {
   "property": "C86",
   "status": "partial",
   "theorems": [
    "C86_round_trip_partial",
    "C86_end_refuted",
    "C86_alphabet_refuted",
    "C86_short_reads_refuted"
   ],
   "note": "for alphabets where n + 1 is no power of two and readers that give all bytes asked for, the text is always delivered; the proper end is guaranteed only if a zero byte follows the stream. In the code the decoder may ask for one bit more than the end code has (C86_end_refuted), for n = 2^k - 1 the first code has another width in the decoder (C86_alphabet_refuted), and a short read is taken as the end of the text (C86_short_reads_refuted)"
  },
  {
   "property": "C87",
   "status": "partial",
   "theorems": [
    "C87_round_trip_partial",
    "C87_optimal_partial",
    "C87_room",
    "C87_one_character_refuted",
    "C87_padding_refuted",
    "C87_unknown_character_refuted",
    "C87_room_refuted"
   ],
   "note": "for texts with two different characters whose codes fit the writer's 16 bits, which holds for all texts of less than 4181 characters (C87_room) and not for one of 4181 (C87_room_refuted). In the code a text of one character leaves nothing, the reader takes the padding for characters, and a character unknown to the tree is dropped silently"
  },
  {
   "property": "C88",
   "status": "partial",
   "theorems": [
    "C88_canonical",
    "C88_possible_partial",
    "C88_no_code_refuted",
    "C88_pool_refuted"
   ],
   "note": "C88_canonical is complete for trees that are made; trees are made for all codes that fit with 2 * values + lengths at most 512. In the code a complete set of 256 values may need more nodes than the pool has (C88_pool_refuted), and bits that are no code make the reader follow a null pointer (C88_no_code_refuted)"
  },
  {
   "property": "C89",
   "status": "partial",
   "theorems": [
    "C89_file_partial",
    "C89_getc_refuted",
    "C89_printf_refuted"
   ],
   "note": "for histories whose bytes are below 128, or that do not use memgetc. In the code memgetc gives bytes from 128 on as negative numbers and 255 as EOF, and what memprintf formats never becomes part of the data"
  },
  {
   "property": "C90",
   "status": "partial",
   "theorems": [
    "C90_md5_partial",
    "C90_prefix",
    "C90_unique",
    "C90_byte_255_refuted",
    "C90_eq"
   ],
   "note": "for data without a byte 255; in the code the data ends at its first byte 255 (C90_prefix), so that [255] has the digest of no data (C90_byte_255_refuted). The shift of a byte by 24 is taken to wrap"
  },
  {
   "property": "C91",
   "status": "partial",
   "theorems": [
    "C91_read_partial",
    "C91_write_partial",
    "C91_round_trip_partial",
    "C91_total",
    "C91_quote_refuted",
    "C91_empty_refuted",
    "C91_long_refuted",
    "C91_unterminated"
   ],
   "note": "reading: for texts in which no line ends in an empty field without quotes (such a field is lost, C91_empty_refuted) and values below 4096 bytes (longer ones are written past the end of the buffer, C91_long_refuted). Round trip: for values without quotes; a value with a quote in it is never read back, since writeval puts a backslash before it instead of doubling it (C91_quote_refuted, for all such values). A quoted value that does not end is a panic (C91_unterminated). Writing to the file is taken to succeed"
  },
  {
   "property": "C92",
   "status": "partial",
   "theorems": [
    "C92_lines_partial",
    "C92_lines_exist",
    "C92_byte_255_refuted"
   ],
   "note": "for files without a byte 255: fgetc's answer is kept in a char (signed here), so that the file ends at its first byte 255 (C92_byte_255_refuted, for all files)"
  },
  {
   "property": "C93",
   "status": "partial",
   "theorems": [
    "C93_text_partial",
    "C93_failure",
    "C93_format_refuted",
    "C93_null_refuted"
   ],
   "note": "for formatted texts of at most 999 bytes; longer ones are cut without notice (C93_format_refuted, for all of them). Before the first byte is added str_raw gives the null pointer instead of an empty string (C93_null_refuted)"
  },
  {
   "property": "C94",
   "status": "proved",
   "theorems": [
    "C94_get"
   ],
   "note": "allocation succeeds; keys and values are strings without their terminators"
  },
  {
   "property": "C95",
   "status": "partial",
   "theorems": [
    "C95_decode",
    "C95_unique",
    "C95_encode",
    "C95_round_trip",
    "C95_length",
    "C95_lengths",
    "C95_full",
    "C95_full_char",
    "C95_encode_refuted",
    "C95_surrogates_refuted"
   ],
   "note": "runes from 2^31 on are cut to one byte instead of being replaced (C95_encode_refuted); the numbers 0xD800-0xDFFF, which RFC 3629 forbids, are read and written (C95_surrogates_refuted)"
  },
  {
   "property": "C96",
   "status": "partial",
   "theorems": [
    "C96_count",
    "C96_unique",
    "C96_count_text",
    "C96_find",
    "C96_find_last",
    "C96_prefix",
    "C96_search_partial",
    "C96_search_refuted"
   ],
   "note": "utfutf is proved for a needle that starts with a well-formed character other than U+FFFD (or is empty); for U+FFFD it reads behind the end of the text or misses an occurrence (C96_search_refuted)"
  },
  {
   "property": "C97",
   "status": "partial",
   "theorems": [
    "C97_compare",
    "C97_compare_n",
    "C97_end",
    "C97_dup_partial",
    "C97_dup_refuted",
    "C97_cpy_refuted",
    "C97_chr_refuted",
    "C97_copy_refuted"
   ],
   "note": "false of the code: runestrcpy writes no terminator (C97_cpy_refuted), runestrdup of the empty string reads behind it (C97_dup_refuted), runestrchr does not end unless the rune is the first one (C97_chr_refuted), utfecpy copies one byte only (C97_copy_refuted)"
  },
  {
   "property": "C98",
   "status": "partial",
   "theorems": [
    "C98_declare",
    "C98_parse",
    "C98_one_meaning",
    "C98_unknown",
    "C98_no_value",
    "C98_defined",
    "C98_dispatch",
    "C98_range_refuted"
   ],
   "note": "a number too big for its type is not rejected but goes to sscanf, which C leaves undefined (C98_range_refuted; C98_defined says that nothing else is undefined); what sscanf makes of a float is a parameter of the theorems"
  },
  {
   "property": "C99",
   "status": "partial",
   "theorems": [
    "C99_read",
    "C99_one_query",
    "C99_header",
    "C99_methods",
    "C99_write_partial",
    "C99_round_trip_partial",
    "C99_room_refuted",
    "C99_connection_refuted",
    "C99_header_refuted",
    "C99_names_refuted",
    "C99_injection_refuted",
    "C99_long_path_refuted",
    "C99_long_value_refuted"
   ],
   "note": "refuted as such: 101 fields overrun the array (C99_room_refuted); a connection that gives single bytes is refused (C99_connection_refuted, the defect of C84_literal_refuted); names of fields are compared with their case (C99_header_refuted); names of parameters are not encoded (C99_names_refuted); a line end in a header value makes another header (C99_injection_refuted); a request line over 999 bytes is cut without notice (C99_long_path_refuted); a value of 1000 encoded bytes leaves no final zero (C99_long_value_refuted)"
  },
  {
   "property": "C100",
   "status": "partial",
   "theorems": [
    "C100_read_partial",
    "C100_served_partial",
    "C100_byte_refuted",
    "C100_bodies_refuted",
    "C100_errors_refuted",
    "C100_own_refuted"
   ],
   "note": "refuted as such: a byte 255 in a body ends it (C100_byte_refuted); without Content-Length and Connection a null pointer is compared, a body over 1000 bytes overruns its array, a negative length is accepted (C100_bodies_refuted); write_404 sends an empty line too many, so that its message arrives with a line feed in front and without its end (C100_errors_refuted); the client refuses what the server sends, because the server ends lines with a line feed only (C100_own_refuted). servefile and errstr are not modelled"
  },
  {
   "property": "C101",
   "status": "proved",
   "theorems": [
    "C101_url",
    "C101_room_refuted"
   ],
   "note": "C101_url also says that nothing but a part too long is undefined; C101_room_refuted shows that the room matters: a host name of 100 bytes overruns its array"
  },
  {
   "property": "C102",
   "status": "partial",
   "theorems": [
    "C102_head",
    "C102_any_data",
    "C102_empty_value_refuted"
   ],
   "note": "refuted as such: a field with an empty value takes the next line as its value, and a head without fields is answered with 0 as if it were incomplete (C102_empty_value_refuted)"
  },
  {
   "property": "C103",
   "status": "partial",
   "theorems": [
    "C103_format_partial",
    "C103_parse_partial",
    "C103_round_trip_partial",
    "C103_srt_refuted",
    "C103_negative_refuted",
    "C103_parse_refuted"
   ],
   "note": "parse: up to 35:47 and three decimals. Refuted as such: the format hh:mm:ss,ms does not pad the milliseconds, so 1.005 s is written as 00:00:01,5 (C103_srt_refuted); a negative duration has a sign in each part (C103_negative_refuted); hours are refused, 35:48 overflows int, .0157 loses a microsecond, trailing text and missing seconds are accepted (C103_parse_refuted). The format logfile, which prints a double, is not modelled"
  },
  {
   "property": "C104",
   "status": "partial",
   "theorems": [
    "C104_read_partial",
    "C104_write_partial",
    "C104_offset_partial",
    "C104_local_partial",
    "C104_read_refuted",
    "C104_write_refuted",
    "C104_offset_refuted",
    "C104_local_refuted"
   ],
   "note": "reading: no fraction or three digits, no zone to the west; writing: years from 1000 on; offsets between -9:15 and +11:15; moving within the day. Refuted as such: .5 is read as 5 ms, a western zone ends the program (C104_read_refuted); a moment in another zone is written as UTC, a cut text is answered with true (C104_write_refuted); New Zealand counts as -12:00 and Hawaii as +14:00 at some hours (C104_offset_refuted); minutes may become 60 or negative and hours 24 (C104_local_refuted)"
  },
  {
   "property": "C105",
   "status": "partial",
   "theorems": [
    "C105_range",
    "C105_seed",
    "C105_every",
    "C105_period",
    "C105_sample_partial",
    "C105_one_refuted",
    "C105_sample_refuted"
   ],
   "note": "sampling: sums from 1 to 2^32-1. Refuted as such: u returns 1.0 for a draw of 2^32-1 (C105_one_refuted); a sum of 2^32 ends the program and a larger one is cut to 32 bits (C105_sample_refuted). That u is never negative or above 1 is not proved"
  },
  {
   "property": "C106",
   "status": "partial",
   "theorems": [
    "C106_series_partial",
    "C106_median",
    "C106_top_refuted"
   ],
   "note": "percentages below 100; values are modelled as integers, since they are only compared. Refuted as such: percentile 100, and any of an empty series, reads behind the array (C106_top_refuted). sum, avg, sd and normalize are not modelled"
  },
  {
   "property": "C107",
   "status": "partial",
   "theorems": [
    "C107_set",
    "C107_new",
    "C107_fill",
    "C107_apply",
    "C107_explode",
    "C107_paste",
    "C107_paste_negative_refuted",
    "C107_blend_refuted"
   ],
   "note": "Refuted as such: pasting left of the image or above it ends the program instead of being clipped (C107_paste_negative_refuted); blending with opacity 0 negates the old color (C107_blend_refuted). Sizes are taken to be such that the products are ints; mix, colormaps and the conversions from hsl and hsv are not modelled"
  },
  {
   "property": "C108",
   "status": "partial",
   "theorems": [
    "C108_bmp",
    "C108_ppm",
    "C108_ppm_refuted"
   ],
   "note": "Refuted as such: ppm writes blue, green, red (C108_ppm_refuted); C108_ppm proves that the file is the pixmap of the image with red and blue exchanged"
  },
  {
   "property": "C109",
   "status": "partial",
   "theorems": [
    "C109_read_partial",
    "C109_byte_refuted"
   ],
   "note": "files without zero bytes and without bytes 255. Refuted as such: a byte 255 counts as the end of its line, and the blank before a comment stays in the value (C109_byte_refuted). The line number of messages is not modelled"
  },
  {
   "property": "C110",
   "status": "partial",
   "theorems": [
    "C110_table",
    "C110_gap_refuted",
    "C110_no_columns"
   ],
   "note": "without columns print divides by zero (C110_no_columns). Refuted as such: a value two longer than an earlier one fills its column, and the next column touches it (C110_gap_refuted)"
  },
  {
   "property": "C111",
   "status": "partial",
   "theorems": [
    "C111_lookup",
    "C111_registered",
    "C111_registered_refuted",
    "C111_slash_refuted"
   ],
   "note": "Refuted as such: the type of ppt has a point instead of the slash (C111_slash_refuted); webm and webp are called audio (C111_registered_refuted)"
  },
  {
   "property": "C112",
   "status": "partial",
   "theorems": [
    "C112_read_partial",
    "C112_number_refuted"
   ],
   "note": "lines of text that are no numbers, do not begin with ten digits and hold no vertical tabs or form feeds; all lines are ended. Refuted as such: a line of text that is a number counts as the beginning of the next subtitle, and an empty file ends the program (C112_number_refuted). printblock is not modelled; what its times look like is C103"
  },
  {
   "property": "C113",
   "status": "partial",
   "theorems": [
    "C113_read_partial",
    "C113_first_line",
    "C113_broken",
    "C113_headers",
    "C113_empty",
    "C113_lost_refuted"
   ],
   "note": "lines of text up to 98 bytes without vertical tabs and form feeds; every cue ends with an empty line. Refuted as such: a last cue without an empty line behind it is lost, and a line of 200 bytes is written past the end of the buffer, which only doubles once (C113_lost_refuted)"
  },
  {
   "property": "C114",
   "status": "partial",
   "theorems": [
    "C114_type",
    "C114_typeform",
    "C114_form_partial",
    "C114_declaration_partial",
    "C114_expr_partial",
    "C114_expr_refuted"
   ],
   "note": "types and types with stars in full; of expressions (also in indexes) names, numbers and binary operators, nested to any depth, where no right operand has an operator of the same level. Refuted as such: a - (b - c) is shown like (a - b) - c (C114_expr_refuted)"
  },
  {
   "property": "C115",
   "status": "partial",
   "theorems": [
    "C115_unexpected",
    "C115_end",
    "C115_one_line",
    "C115_which"
   ],
   "note": "for tokens that can be shown; C115_which says which cannot (longer than 40 bytes with byte 37 inside a character): for those the compiler aborts (C12). Not covered: the messages that other parser functions make up themselves"
  },
  {
   "property": "C116",
   "status": "partial",
   "theorems": [
    "C116_read_partial",
    "C116_no_track",
    "C116_broken",
    "C116_exact_refuted"
   ],
   "note": "every line has an end, and words, quotes and numbers are as in SpecCue.v; an unknown word, a title that is not closed and a track without a number make the program panic (C116_broken), other sheets are not covered. Refuted as such: frames below a second are lost from positions, and a title of 100 bytes panics although a track has room for 300 (C116_exact_refuted)"
  },
  {
   "property": "C117",
   "status": "partial",
   "theorems": [
    "C117_requests_partial",
    "C117_requests_refuted"
   ],
   "note": "read errors are not modelled. Refuted as such: numbers of four bytes from 2^31 on overflow an int, and a number cut by the end of the file is given like another whole one (C117_requests_refuted)"
  },
  {
   "property": "C118",
   "status": "partial",
   "theorems": [
    "C118_ncpy_partial",
    "C118_cat_partial",
    "C118_ncat_partial",
    "C118_ecpy_partial",
    "C118_strings_refuted"
   ],
   "note": "bounds below zero are not modelled. Proved for strings that are not empty. Refuted as such: appending writes no zero behind the result, a bounded append of one rune more than the bound appends it too, and copying an empty string reads behind its end (C118_strings_refuted)"
  },
  {
   "property": "C119",
   "status": "partial",
   "theorems": [
    "C119_find_partial",
    "C119_finds_partial",
    "C119_last_partial",
    "C119_stuck_refuted"
   ],
   "note": "whatever is answered is right. Refuted as such: no answer ever comes when another rune than the one looked for is met, because the loop of runestrchr does not move (C119_stuck_refuted); C119_last_partial says exactly when the last place is answered"
  }
 ]
}