{"id": "C01", "title": "Token positions are true source positions", "statement": "The line:column carried by every token the lexer returns is the position of the token's first character in the file: line = 1 + number of newlines before it, column = 1 + number of characters since the last newline (for a malformed number: the position of the offending character).", "quantifier": "every source text (any length, any characters) and every token of it", "why_tests_cant": "Positions depend on everything consumed before; tests only check 1:1 on a few strings.", "anchors": ["src/buf.rs: Buf::get, Buf::pos", "src/lexer.rs: read_token and all read_* functions"]}
{"id": "C02", "title": "The lexer neither loses nor invents source text", "statement": "Each token consumes exactly a contiguous piece of the input that is leading whitespace followed by the spelling of that token (keyword, identifier, number, operator, string pieces, char, comment, directive); the next token starts right after it.", "quantifier": "every source text (any length, any characters)", "why_tests_cant": "Tests look at one token of a handful of strings; the claim is about every split of every text.", "anchors": ["src/lexer.rs: read_token"]}
{"id": "C03", "title": "Operators are recognised by longest match", "statement": "An operator token is the longest operator of the language's operator table that starts at that place.", "quantifier": "every text that starts with an operator character", "why_tests_cant": "The interplay of all prefixes with all continuations is infinite.", "anchors": ["src/lexer.rs: read_token (symbols table)", "src/buf.rs: skip_literal, literal_follows"]}
{"id": "C04", "title": "Words are maximal and keywords are exactly the reserved ones", "statement": "A word token is the maximal run of letters, digits and underscores (plus the special form calloc!); it is a keyword token iff that run is one of the 17 reserved words, and otherwise an identifier whose content is the run itself.", "quantifier": "every text starting with a letter or underscore, every continuation", "why_tests_cant": "Needs every possible identifier and following character.", "anchors": ["src/lexer.rs: read_word, KEYWORDS"]}
{"id": "C05", "title": "Comments and whitespace are invisible to the parser", "statement": "Whitespace and comments (// and /* */) between tokens never change the sequence of tokens the parser receives, only their positions; whether two adjacent strings are joined does not depend on them either.", "quantifier": "every comment body, every amount of whitespace, every following text", "why_tests_cant": "Unbounded comment contents and positions.", "anchors": ["src/lexer.rs: Lexer::get, read_multiline_comment, read_token"]}
{"id": "C06", "title": "String literals are read verbatim and adjacent pieces are joined", "statement": "Reading a sequence of string literal pieces separated by whitespace yields one token whose content is the concatenation of the pieces' bodies with escapes and raw newlines untouched; an unterminated literal is an error.", "quantifier": "every sequence of pieces with every well-escaped body", "why_tests_cant": "Unbounded literal contents.", "anchors": ["src/lexer.rs: read_string_literal"]}
{"id": "C07", "title": "Lookahead does not disturb the token stream", "statement": "For any history of more/peek/peekn/follows/eat/get/unget-of-the-last-token calls, the tokens obtained by get are, in order, exactly the fixed token sequence of the file; lookahead returns precisely the tokens that get would return next.", "quantifier": "every file and every sequence of lexer operations", "why_tests_cant": "Operation histories are unbounded.", "anchors": ["src/lexer.rs: Lexer::{more,get,unget,peek,peekn,follows,eat}"]}
{"id": "C08", "title": "Lexing makes progress", "statement": "Every call that returns a token other than the 'unexpected character' error consumes at least one character, so the tokenizer itself terminates on every input that has no such error; the 'unexpected character' error consumes nothing and is returned again forever.", "quantifier": "every source text (any length, any characters)", "why_tests_cant": "Termination for all inputs.", "anchors": ["src/lexer.rs: read_token, Lexer::get, Lexer::peekn"]}
{"id": "C09", "title": "The lexer reports malformed input instead of crashing", "statement": "For every input the lexer either returns tokens or an error token; it does not abort the process.", "quantifier": "every source text (any length, any characters)", "why_tests_cant": "All malformed inputs.", "anchors": ["src/lexer.rs: read_string_literal, read_char_literal, read_number"]}
{"id": "C10", "title": "Expressions are parsed by the documented operator table", "statement": "The expression parser accepts exactly the token sequences of the expression grammar with the eleven binary precedence levels of the operator table, all left-associative, prefix operators and casts binding tighter than binary operators and postfix forms binding tightest, and returns exactly the tree the grammar assigns.", "quantifier": "every token sequence", "why_tests_cant": "Expressions are unboundedly nested.", "anchors": ["src/parser.rs: parse_expr, parse_seq_expr, parse_prefix_expr, base, read_expression_atom, operator_strength"]}
{"id": "C11", "title": "The compiler terminates on every source file", "statement": "Parsing a file terminates with a result or an error, whatever the file contains.", "quantifier": "every source text (any length, any characters)", "why_tests_cant": "Non-termination cannot be observed by a finite test; needs all inputs.", "anchors": ["src/parser.rs: read_body, parse_module", "src/preparser.rs: get_typename, skip_brackets"]}
{"id": "C12", "title": "Malformed programs are rejected with errors, not crashes", "statement": "Every source file is either accepted or rejected with diagnostics; the parser never aborts.", "quantifier": "every source text (any length, any characters)", "why_tests_cant": "All malformed inputs.", "anchors": ["src/parser.rs: every unwrap/panic site"]}
{"id": "C13", "title": "Success means no diagnostics", "statement": "If parsing a module succeeds then no statement or declaration in it produced an error and the input was consumed to its end; if it fails at least one error with a position is reported.", "quantifier": "every source text (any length, any characters)", "why_tests_cant": "Error recovery may swallow errors on some input.", "anchors": ["src/parser.rs: parse_module, read_body, TWithErrors"]}
{"id": "C14", "title": "Exports are exactly the pub declarations", "statement": "A module's exports list precisely its pub enums' constants, pub functions, pub typedefs and pub struct typedefs, in source order, and nothing private.", "quantifier": "every module", "why_tests_cant": "Any mix and order of declarations.", "anchors": ["src/parser.rs: get_exports", "src/nodes.rs: Exports, exports_has"]}
{"id": "C15", "title": "Every pub typedef is importable", "statement": "README: 'Enums and typedefs may be marked pub to become importable'. Every typedef marked pub can be named by an importing module.", "quantifier": "every pub typedef of every form", "why_tests_cant": "Every declaration form.", "anchors": ["README.md", "src/parser.rs: get_exports (StructAlias case)", "src/translator.rs: tr_typename"]}
{"id": "C16", "title": "Module variables cannot be exported", "statement": "README: 'a module can't export variables'. No accepted module declares a pub variable, and variables are emitted static.", "quantifier": "every module", "why_tests_cant": "Every declaration.", "anchors": ["src/parser.rs: parse_module_object", "src/format_c.rs: format_module"]}
{"id": "C17", "title": "Declaration lists abbreviate", "statement": "int f(int a, b, c) means the same as int f(int a, int b, int c): same C parameters and same call type; likewise struct fields.", "quantifier": "every parameter list and grouping", "why_tests_cant": "Any number of groups and forms.", "anchors": ["src/translator.rs: tr_func_params, typefrom_funcdecl, tr_struct_typedef", "src/parser.rs: parse_function_parameter"]}
{"id": "C18", "title": "Arithmetic and comparison typing never aborts", "statement": "The typing rules for arithmetic, plus/minus, comparison, boolean, dereference and index return a type or an error message for every pair of types.", "quantifier": "every pair of types", "why_tests_cant": "Types are infinitely many.", "anchors": ["src/types.rs"]}
{"id": "C19", "title": "Comparison acceptance is symmetric and yields bool", "statement": "a == b is accepted iff b == a is, and an accepted comparison has type bool.", "quantifier": "every pair of types", "why_tests_cant": "All pairs of types.", "anchors": ["src/types.rs: typeof_cmp"]}
{"id": "C20", "title": "Arithmetic acceptance is symmetric; the result is one of the operand types", "statement": "For * / % << >> & | ^: a op b is accepted iff b op a is, and the type of the result is the type of one of the operands (or int for char with a constant); for + and - the same.", "quantifier": "every pair of types", "why_tests_cant": "All pairs.", "anchors": ["src/types.rs: typeof_arith, typeof_plusminus"]}
{"id": "C21", "title": "Untyped operands never cause rejection", "statement": "An operand whose type is unknown to the checker (OS symbols, library gaps) is accepted in every arithmetic, comparison, boolean, index, dereference, field and call context.", "quantifier": "every other operand type", "why_tests_cant": "All types.", "anchors": ["src/types.rs", "src/translator.rs: typeof_call, typeof_struct_field"]}
{"id": "C22", "title": "Dereferencing an address gives back the type", "statement": "The type of *&x is the type of x.", "quantifier": "every type", "why_tests_cant": "All types.", "anchors": ["src/types.rs: typeof_addr, typeof_deref"]}
{"id": "C23", "title": "Call arity is checked", "statement": "A call to a function with a known declaration is accepted iff the number of arguments equals the number of parameters, or is at least the number of fixed parameters for variadic functions, and the call's type is the declared return type.", "quantifier": "every declaration, every argument list", "why_tests_cant": "All arities.", "anchors": ["src/translator.rs: typeof_call, typefrom_funcdecl"]}
{"id": "C24", "title": "Conditions of while and for must be boolean-like", "statement": "An accepted while/for condition has pointer, integer, bool or unknown type.", "quantifier": "every accepted program", "why_tests_cant": "All programs.", "anchors": ["src/translator.rs: tr_while, tr_for", "src/types.rs: is_booly"]}
{"id": "C25", "title": "Accepted programs contain no undefined names", "statement": "If translation of a module succeeds then every unqualified name used in an expression is a variable, parameter, function, constant or macro in scope at that place, or a C standard library symbol.", "quantifier": "every module", "why_tests_cant": "All programs and scopes.", "anchors": ["src/translator.rs: tr_nsid, mark_binding_use, find_binding"]}
{"id": "C26", "title": "Accepted programs contain no unused private names", "statement": "If translation of a module succeeds then every local variable, parameter, loop counter, module variable, private constant and private function is used at least once in its scope.", "quantifier": "every module", "why_tests_cant": "All programs.", "anchors": ["src/translator.rs: end_scope, mark_binding_use"]}
{"id": "C27", "title": "Accepted programs contain no unused imports", "statement": "If translation succeeds then each imported namespace is referenced at least once.", "quantifier": "every module", "why_tests_cant": "All programs.", "anchors": ["src/translator.rs: translate (unused imports)"]}
{"id": "C28", "title": "No two declarations of one name in one scope", "statement": "In an accepted module no scope declares the same name twice; name lookup is therefore unambiguous: the binding whose type is used is the binding marked as used.", "quantifier": "every module, every reachable scope stack", "why_tests_cant": "All programs.", "anchors": ["src/translator.rs: add_binding, find_binding, mark_binding_use"]}
{"id": "C29", "title": "Qualified names respect pub", "statement": "If translation succeeds, every qualified name m.x in the module refers to an x exported (pub) by the imported module m; private elements of other modules are unreachable.", "quantifier": "every project", "why_tests_cant": "All programs and imports.", "anchors": ["src/translator.rs: tr_nsid, tr_typename", "src/nodes.rs: exports_has"]}
{"id": "C30", "title": "Definition and use agree on the C name", "statement": "The C identifier under which a module defines a pub function, enum constant or typedef is the identifier every importing module uses for it.", "quantifier": "every pair of modules in a project", "why_tests_cant": "All names and module orders.", "anchors": ["src/translator.rs: tr_form, tr_nsid, tr_typename, tr_enum, tr_typedef, tr_struct_typedef, nsprefix"]}
{"id": "C31", "title": "Exported C names never collide across modules", "statement": "Two different pub elements of a project (different module or different name) get different C identifiers.", "quantifier": "every project", "why_tests_cant": "All module and element names.", "anchors": ["src/build.rs: parse_project (uniqid)", "src/translator.rs: nsprefix"]}
{"id": "C32", "title": "Private functions and variables are invisible to the linker", "statement": "Every non-pub function except main, and every module variable, is emitted static; pub functions and main are not; main keeps its name.", "quantifier": "every module", "why_tests_cant": "All programs.", "anchors": ["src/format_c.rs: fmt_func_def, fmt_forward_func, format_module", "src/translator.rs: tr_func_decl"]}
{"id": "C33", "title": "Definition order does not matter", "statement": "In every generated C file each function other than main has a prototype placed before every function body, all typedefs precede all structs and enums, these precede prototypes, then variables, then bodies; relative order within a group is kept.", "quantifier": "every module", "why_tests_cant": "All programs.", "anchors": ["src/translator.rs: reorder_elems, tr_func_decl"]}
{"id": "C34", "title": "calloc! support is emitted exactly when needed", "statement": "The calloc_or_panic helper is emitted iff the module uses calloc!, once, before any function that calls it.", "quantifier": "every module", "why_tests_cant": "All programs.", "anchors": ["src/translator.rs: translate, tr_call, mk_calloc_or_panic"]}
{"id": "C35", "title": "switch runs exactly one matching case", "statement": "Executing the generated C switch runs the body of the case that lists the value (without falling through) or else the default body.", "quantifier": "every switch value, every list of cases", "why_tests_cant": "All switches and values.", "anchors": ["src/format_c.rs: fmt_switch", "src/translator.rs: mk_old_switch"]}
{"id": "C36", "title": "switch str compares like strcmp, first match wins", "statement": "The if/else chain generated for switch str runs the body of the first case one of whose values equals the subject string, otherwise the default body, otherwise nothing.", "quantifier": "every subject, every list of cases and values", "why_tests_cant": "All switches.", "anchors": ["src/translator.rs: mk_str_switch, mk_switchstr_cond, mk_switchstr_else"]}
{"id": "C37", "title": "panic reports its own source position and exits", "statement": "A panic statement becomes a block that prints file:line:col of that statement, the formatted message and a newline to stderr and then calls exit(1), whatever the arguments.", "quantifier": "every panic call in every module", "why_tests_cant": "All arguments and positions.", "anchors": ["src/translator.rs: tr_body, mk_panic"]}
{"id": "C38", "title": "Multi-line strings keep their value", "statement": "The C literal emitted for a string denotes the same characters as the source literal, with raw newlines as \\n.", "quantifier": "every string content", "why_tests_cant": "All strings.", "anchors": ["src/format_c.rs: format_literal"]}
{"id": "C39", "title": "A non-void function returns on every path", "statement": "If a module is accepted, control cannot reach the end of a non-void function's body without returning or panicking.", "quantifier": "every function, every execution path", "why_tests_cant": "All programs, all paths.", "anchors": ["src/node_queries.rs: body_returns", "src/translator.rs: tr_func_decl"]}
{"id": "C40", "title": "Translation preserves expression structure", "statement": "The C expression produced for an expression has the same shape, operators, literals and field names; only names are replaced by their C names and calloc! by calloc_or_panic.", "quantifier": "every expression in every context", "why_tests_cant": "All expressions.", "anchors": ["src/translator.rs: tr_expr and tr_* for expressions"]}
{"id": "C41", "title": "Emitted expressions mean what the source meant", "statement": "The C text emitted for an expression, read with C's lexical and expression grammar, denotes the very same expression tree.", "quantifier": "every expression tree the parser can produce", "why_tests_cant": "Unbounded nesting of operators.", "anchors": ["src/format_c.rs: fmt_expr, format_binary_op"]}
{"id": "C42", "title": "Translation preserves statement structure", "statement": "Statements are translated one to one, in order: the same nesting of if/else, for, while, switch, return, break, continue, declarations and blocks.", "quantifier": "every function body", "why_tests_cant": "All programs.", "anchors": ["src/translator.rs: tr_body, tr_if, tr_for, tr_while, tr_return, tr_vardecl"]}
{"id": "C43", "title": "Modules are compiled after their imports", "statement": "In the project's module list every module appears after all modules it imports, every module reachable by imports appears exactly once, nothing else appears, and the main module is last.", "quantifier": "every acyclic import graph", "why_tests_cant": "All graphs.", "anchors": ["src/build.rs: load_tree, uniq, parse_project"]}
{"id": "C44", "title": "Import cycles are rejected, and only cycles", "statement": "If an import cycle is reachable from the main file the build reports 'import loop'; if there is none it never does; in both cases loading terminates.", "quantifier": "every finite file system", "why_tests_cant": "All graphs.", "anchors": ["src/build.rs: load_tree"]}
{"id": "C45", "title": "Every import resolves inside the project", "statement": "When a module is translated, the C code of each of its imports is already available and looked up at the right index; namespace lookups cannot fail for names the parser accepted.", "quantifier": "every project", "why_tests_cant": "All graphs and programs.", "anchors": ["src/translator.rs: getnspos, expand_imports", "src/build.rs: translate_mods"]}
{"id": "C46", "title": "Imported headers are complete and free of duplicates", "statement": "The declarations injected into a module are exactly the exported declarations (types, structs, enums, prototypes, directives) of its imports, each key once, in import order; nothing private or static leaks.", "quantifier": "every project", "why_tests_cant": "Diamond imports of any shape.", "anchors": ["src/translator.rs: expand_imports, get_module_synopsis, get_obj_key"]}
{"id": "C47", "title": "Import resolution", "statement": "A name ending in .c is looked up relative to the importing file's directory, any other name in the library directory; a missing file is an error naming both; the namespace is the file name without .c.", "quantifier": "every base path and import name", "why_tests_cant": "All paths.", "anchors": ["src/resolve.rs: resolve_import, basename"]}
{"id": "C48", "title": "The pre-pass sees every type the parser will see", "statement": "Every type name declared by a typedef of a successfully parsed module is in the list collected by the pre-pass (so it is recognised as a type from the beginning of the file).", "quantifier": "every module", "why_tests_cant": "Two independent scanners must agree on all inputs.", "anchors": ["src/preparser.rs: preparse, get_typename, skip_brackets", "src/parser.rs: parse_typedef"]}
{"id": "C49", "title": "Link flags", "statement": "The linker is given m first and then each library named by a #link hint of any module exactly once, in order of first appearance; every module's generated file is passed to the compiler exactly once.", "quantifier": "every project", "why_tests_cant": "All projects.", "anchors": ["src/build.rs: build_prog", "src/translator.rs: translate (link)"]}
{"id": "C50", "title": "Generated files do not overwrite each other", "statement": "Different modules are written to different files (as long as the hash of their paths does not collide) and diagnostics map each generated file to its source.", "quantifier": "every project", "why_tests_cant": "All projects.", "anchors": ["src/build.rs: write_c99"]}
{"id": "C51", "title": "che test fails when a test fails", "statement": "The exit status of che test is non-zero iff at least one test failed to compile or returned non-zero.", "quantifier": "every set of test outcomes", "why_tests_cant": "All outcome vectors.", "anchors": ["src/main_test.rs: run, run_arg"]}
{"id": "C52", "title": "The command line fails on misuse", "statement": "che exits with a non-zero status when called without a command or with an unknown command.", "quantifier": "every argument vector", "why_tests_cant": "All argument vectors.", "anchors": ["src/main.rs: main"]}
{"id": "C53", "title": "The dependency tree shows exactly the imports", "statement": "che deptree prints each module with its imports indented one level deeper, in order, for every acyclic project, and terminates.", "quantifier": "every project", "why_tests_cant": "All graphs.", "anchors": ["src/main_deptree.rs: render_tree, Printer"]}
{"id": "C54", "title": "The translator never aborts on parsed programs", "statement": "Every module the parser accepts is either translated or rejected with a diagnostic.", "quantifier": "every module", "why_tests_cant": "All programs.", "anchors": ["src/translator.rs: todo!/panic!/unwrap sites"]}
{"id": "C55", "title": "Optional semicolon after enum", "statement": "enum {...} and enum {...}; parse to the same element.", "quantifier": "every enum body", "why_tests_cant": "All enums.", "anchors": ["src/parser.rs: parse_enum"]}
{"id": "C56", "title": "Unqualified type names are known", "statement": "Every unqualified type name used anywhere in an accepted module is a C type, a type the module declares, or one the pre-pass announced for it.", "quantifier": "every accepted module and every type name occurring in it", "why_tests_cant": "Type names occur at arbitrary depth in arbitrary programs.", "anchors": ["src/translator.rs: tr_typename, find_type"]}
{"id": "C57", "title": "Which modules are accepted", "statement": "A module is translated iff every name in it is defined and every expression, type name and directive is well formed by the typing rules, every function that must return ends in a return, no scope declares a name twice, no private name is unused, and every import has been translated before and is used.", "quantifier": "every module, every set of imported modules", "why_tests_cant": "All programs; the rules interact across nesting, scopes and imports.", "anchors": ["src/translator.rs: translate and everything it calls", "src/types.rs", "src/node_queries.rs"]}
{"id": "C58", "title": "Library calls take the arguments C says", "statement": "Where a C library function is not redeclared, a call of it is accepted iff its arguments are and their number is one the C standard allows for that function; no other function can be called without being declared or imported.", "quantifier": "every library function, every call, every module", "why_tests_cant": "All argument lists for all library functions in all contexts.", "anchors": ["src/cspec.rs: list of symbols", "src/translator.rs: call expressions"]}
{"id": "C59", "title": "Generated functions run as written", "statement": "The C text generated for the body of a function is C, and running it does what the statements of the source say: from every state the same results, the same program ends and the same effects on the way, also in executions that never end.", "quantifier": "every accepted module, every function, every state, every execution, every meaning of the expressions that obeys C", "why_tests_cant": "Executions are unbounded and the meaning of calls is open; tests observe single runs.", "anchors": ["src/translator.rs: tr_statement and callees", "src/format_c.rs: format_statement, format_body"]}
{"id": "C60", "title": "Refused programs are reported and leave nothing behind", "statement": "When a program has errors, every command that would build it prints every error in order on the standard error, prints nothing else, writes no file, starts no program and exits with status 1; che exports succeeds only if each of its files is accepted.", "quantifier": "every project with errors, every command, every state of the system", "why_tests_cant": "All programs with errors and all system behaviours.", "anchors": ["src/main_build.rs: run", "src/main_run.rs: run", "src/main_install.rs: run", "src/main_genc.rs: run", "src/main_exports.rs: run", "src/build.rs: build_prog"]}
{"id": "C61", "title": "Commands do what they say", "statement": "For an accepted program, che build and che install write the C files of all its modules and then run the C compiler once, and exit with 0 iff it succeeded; che run then starts the program with the given arguments, only after the compiler succeeded, and ends as the program does; che genc only writes the C files into the given directory.", "quantifier": "every accepted project, every argument vector, every behaviour of the C compiler, the file system and the started program", "why_tests_cant": "All system behaviours, including failures at every step.", "anchors": ["src/build.rs: build_prog, write_c99", "src/main_build.rs: run", "src/main_run.rs: run", "src/main_install.rs: run", "src/main_genc.rs: run"]}
{"id": "C62", "title": "che exports lists the exported interface", "statement": "che exports prints, for each file given, its pub constants, types and functions in source order, each function with its type and its parameters.", "quantifier": "every set of accepted files", "why_tests_cant": "All interfaces.", "anchors": ["src/main_exports.rs: run, print_exports", "src/format_che.rs: fmt_form"]}
{"id": "C63", "title": "Compiler messages are traced back to the sources", "statement": "che build and che install print every line of the C compiler's messages, in order, naming the source file before each mention of a generated file and changing nothing else.", "quantifier": "every output of the C compiler, every project", "why_tests_cant": "All texts the C compiler may print.", "anchors": ["src/build.rs: build_prog"]}
{"id": "C64", "title": "A test verdict is about that test's own program", "statement": "che test runs a test program only immediately after the C compiler has succeeded in building it from that test's source.", "quantifier": "every set of test files, every behaviour of the C compiler", "why_tests_cant": "All histories of builds and runs; all tests share one output file.", "anchors": ["src/main_test.rs: run, run_arg"]}
{"id": "C65", "title": "Which projects are built", "statement": "A build succeeds exactly if the program is well formed: every file reachable through #import directives can be read, consists of tokens, announces its types and imports as the language says, every import leads to an existing file, there is no import cycle, every file follows the grammar given all announcements, and every module follows the rules of names and types. The files, their order and the parsed modules of a well-formed program are determined by the texts, and every #import directive is followed.", "quantifier": "every file system and main file whose path ends with a file name", "why_tests_cant": "All projects: the claim is an equivalence over all texts of all files.", "anchors": ["src/build.rs: parse_project, load_tree, translate_mods", "src/preparser.rs: preparse", "src/resolve.rs: resolve_import"]}
{"id": "C66", "title": "The generated file is one file of C, declaration by declaration", "statement": "The text of the C file written for an accepted module is a file of C, and it has only one reading: the directives, type definitions, structures, enumerations, variables, prototypes and functions of the translated module, in their order, each with its linkage, type, declarator, parameters, members, values and body.", "quantifier": "every accepted module, every reading of its text by the C grammar", "why_tests_cant": "All modules, and all ways a text may be cut into tokens and declarations.", "anchors": ["src/format_c.rs: format_module and everything it calls", "src/c.rs"]}
{"id": "C67", "title": "Generated files use only what they declare", "statement": "Every identifier and every type that a function, prototype, variable, enumeration, structure or type definition of a generated C file uses from outside itself is declared above it in the same file: by a declaration of its own module, by one taken over from an imported module, by a header that the file includes, by a #define; or it is what the source takes from the system.", "quantifier": "every accepted project, every generated file, every element of it, every identifier and type in it", "why_tests_cant": "All programs: each new combination of scopes, exports and imports gives new names.", "anchors": ["src/translator.rs: tr_namespaced_name, tr_typename, expand_imports, reorder_elems, translate", "src/format_c.rs"]}
{"id": "C68", "title": "Prototypes and definitions meet at link time", "statement": "Every function that a generated C file declares is defined in exactly one generated C file of the program, with the same linkage, type, declarator and parameters; no two generated files define the same external name.", "quantifier": "every accepted project, every prototype in every generated file, every pair of definitions", "why_tests_cant": "All programs: the claim relates all generated files with each other.", "anchors": ["src/translator.rs: tr_mod_elem, expand_imports, translate", "src/format_c.rs: fmt_func_def, fmt_forward_func"]}
{"id": "C69", "title": "A generated file declares no name twice", "statement": "In a generated C file no type, constant, variable or function has the name of another one or of something that the included headers declare, and no structure is defined twice, no matter on how many ways of imports the declarations arrive.", "quantifier": "every accepted project, every generated file, every pair of declarations in it", "why_tests_cant": "All import graphs and all names.", "anchors": ["src/translator.rs: expand_imports, reorder_elems, get_obj_key, translate"]}
{"id": "C70", "title": "Generated files know the size of every type they need", "statement": "Wherever a generated C file declares a variable, a member or a parameter of a function it defines, returns a value, declares an array or takes a size, the type involved is complete there: a basic type, or a structure or type definition that stands above it in the same file, on no matter how many ways of imports it arrived.", "quantifier": "every accepted project, every generated file, every element of it, every type whose size it needs", "why_tests_cant": "All import graphs and all orders of type definitions: C needs the definition of a structure before its uses, the source language does not.", "anchors": ["src/translator.rs: tr_mod_elem, reorder_elems, expand_imports", "src/format_c.rs"]}
{"id": "C71", "title": "Declarations copied into other files mean the same there", "statement": "A generated file repeats the exports of the modules it imports. Each of them means the same in every generated file that has it: the names it introduces, and the types, constants, structures and words it is made of, stand for the same declarations in all these files, and so on for those declarations. A function has the same type where it is called and where it is defined.", "quantifier": "every accepted project, every pair of generated files, every exported declaration that both have", "why_tests_cant": "All import graphs and all names: a private name or a macro of one module could change what an imported declaration says.", "anchors": ["src/translator.rs: tr_mod_elem, get_module_synopsis, expand_imports, translate"]}
{"id": "C72", "title": "The generated program runs as the source modules say", "statement": "The C files generated for a project, linked together, run exactly like the source modules: calling any function of any module with any arguments in any state has the same outcomes (values, effects, ends, unfinished runs) in the C program as in the source, where each name means what the source's imports and scopes say, and so has starting the program at main.", "quantifier": "every accepted project, every function of it, all arguments, all states, all depths of calls, every meaning of the basic operations and of the C library", "why_tests_cant": "All programs and all executions: a test runs one program on one input, and names could be mixed up in any file of any project.", "anchors": ["src/translator.rs: translate, tr_mod_elem, tr_func_decl, tr_body, tr_ns_name, expand_imports, get_module_synopsis", "src/format_c.rs", "src/build.rs"]}
{"id": "C73", "title": "One error for every broken statement, where it breaks", "statement": "Parsing a file whose functions contain broken statements reports one error for each of them, in the order of the file, and no other error: each at the first token that is wrong. After a broken statement the parser goes on behind its semicolon, or at the closing brace of its body.", "quantifier": "every file in which some statements of some functions are broken, every number and nesting of them", "why_tests_cant": "All ways of breaking a statement, in all bodies, in all combinations: an error must neither hide the next one nor cause another.", "anchors": ["src/parser.rs: read_body, parse_statement, parse_expr and what they call", "src/errors.rs: TWithErrors"]}
{"id": "C74", "title": "The library's buffer is a queue of bytes", "statement": "What is read from a clip/buffer is what was written to it, in order, nothing lost, doubled or invented, as many bytes as asked for or as there are; its size is the number of bytes written and not yet read; emptying it completely and writing again works as before.", "quantifier": "every history of writes, reads and size queries", "why_tests_cant": "All interleavings of writes and reads of all sizes: a dangling last clip shows only after the right history.", "anchors": ["lib/clip/buffer.c: new, size, write, read"]}
{"id": "C75", "title": "The library's vec is a growing array", "statement": "Items of a clip/vec keep their values until they are written again, however often the vec grows; a new item is at the end and all zeros; pushing copies the item; the length is the number of items; no call touches memory outside the vec.", "quantifier": "every item size, every history of push, alloc, reads and writes of items inside the vec", "why_tests_cant": "All histories: growth happens at particular lengths only.", "anchors": ["lib/clip/vec.c: new, push, alloc, index, len"]}
{"id": "C76", "title": "The library's map is a map", "statement": "clip/map gives for a key the value last set for it, reports a key as present exactly if it was set, counts the keys, and iterates over all of them once, in the order they were first set, with their current values. Values larger than eight bytes are refused when the map is made.", "quantifier": "every value size, every history of set, get, has, size and iteration with nonempty keys", "why_tests_cant": "All histories and all keys, including growth.", "anchors": ["lib/clip/map.c: new, set, get, has, size, iter, next, itkey, itval"]}
{"id": "C77", "title": "The library's hash map is a map", "statement": "clip/map2 gives for a key the value last set for it, whatever other keys were set before or after and however often the table grew.", "quantifier": "every history of set and get", "why_tests_cant": "All histories and keys: collisions and growth depend on them.", "anchors": ["lib/clip/map2.c: new, set, get"]}
{"id": "C78", "title": "Hexadecimal and percent encoding read back", "statement": "The text that enc/hex writes for some bytes reads back, two hexadecimal digits a byte, as exactly the bytes it reports as written, and with room enough as all of them. The text that enc/urlencode writes consists of letters, digits and percent escapes only and reads back by the rules of RFC 3986 as exactly the bytes given; the number returned is the length of the text.", "quantifier": "every sequence of bytes, every writer that does what it reports (also short and failing ones)", "why_tests_cant": "All 256 bytes in all sequences, over writers that fail anywhere.", "anchors": ["lib/enc/hex.c: write, writebyte", "lib/enc/urlencode.c: write", "lib/writer.c: static_buffer, write"]}
{"id": "C79", "title": "Numbers as bytes keep their order", "statement": "enc/endian writes a number as the given number of bytes in the named order, reads it back as the same number, consumes exactly those bytes, and at a short input reports fewer bytes than asked for and leaves the result alone.", "quantifier": "every 32-bit number, every reader that hands out bytes in order", "why_tests_cant": "All 2^32 numbers, and all inputs too short.", "anchors": ["lib/enc/endian.c: read2le, read2be, read3le, read4le, read4be, write2le, write4le, write4be"]}
{"id": "C80", "title": "Bits written are the bits read", "statement": "A bit writer that is closed without error has written the bits given to it, in order, padded with fewer than eight zeros; a bit reader on such bytes gives the same bits and then the end; reading n bits gives the number they form, most significant first; both orders of bits in a byte work. Taking a byte apart gives its bits.", "quantifier": "every sequence of bits, both bit orders, every writer that does what it reports, every reader that hands out bytes in order and reports its end", "why_tests_cant": "All lengths modulo eight, all bytes, all failures.", "anchors": ["lib/bits.c: newreader, read1, readn, newwriter, write1, write, closewriter, getbits_lsfirst, getbits_msfirst", "lib/reader.c: memory reader, file reader"]}
{"id": "C81", "title": "String helpers do what their names say", "statement": "starts_with and starts_with_i hold exactly for prefixes (without regard to ASCII case), casecmp exactly for strings equal up to ASCII case, ends_with exactly for suffixes; trim removes the spaces at both ends and nothing else, rtrim the characters of the set at the end; split cuts a string at its separators from left to right into at most the given number of pieces, and the pieces joined again give the string; allupper and the conversions of digits agree with ASCII.", "quantifier": "every strings, separators and numbers of slots", "why_tests_cant": "All strings: overlapping separators, suffixes differing in one place, all kinds of spaces.", "anchors": ["lib/strings.c: starts_with, starts_with_i, casecmp, ends_with, trim, rtrim, split, allupper, ascii_digit, num_from_ascii"]}
{"id": "C82", "title": "Bencode written is bencode read", "statement": "Writing a value with the bencode writer leaves exactly its encoding in the buffer, or reports that there is no room; reading an encoding gives the value back and stops right behind it; skip moves over exactly one value; the end is reported at the end of the data only; broken data never makes the reader leave its data or loop.", "quantifier": "every value of numbers, byte strings, lists and dictionaries, every encoding of it at every place in the data, every buffer size", "why_tests_cant": "All values of all sizes and all places to run out of room.", "anchors": ["lib/formats/bencode_writer.c: tobuf, begin, end, num, buf", "lib/formats/bencode.c: newreader, more, type, enter, leave, key, strsize, readbuf, readnum, skip"]}
{"id": "C83", "title": "sha1 computes the SHA-1 digest", "statement": "Feeding a message to sha1 byte by byte and ending it gives the SHA-1 digest of FIPS 180-4 of the message, and format writes it as 40 hexadecimal digits.", "quantifier": "every message", "why_tests_cant": "All lengths and contents: padding around the block boundaries, carries and rotations of all words.", "anchors": ["lib/crypt/sha1.c: reset, add, end, as_bytes, format, pushbyte, feed"]}
{"id": "C84", "title": "The tokenizer reads its input once, from left to right, and knows where it is", "statement": "However a reader cuts its data, a tokenizer over it gives the bytes in order through peek, get and more, each consumed once, and its row and column are those of the text consumed. spaces, hspaces, id, num, read_until and skip_until consume exactly the spaces, the name, the number or the text before the stop character; skip_literal consumes the literal if it is next and otherwise nothing.", "quantifier": "every input, every way of cutting it into reads, every sequence of calls", "why_tests_cant": "All inputs and all boundaries of reads.", "anchors": ["lib/tokenizer.c: from_reader, peek, get, more, spaces, hspaces, id, num, literal_follows, skip_literal, read_until, skip_until"]}
{"id": "C85", "title": "JSON is read and written as in RFC 8259", "statement": "parse of a JSON text gives the value of the text; format gives a JSON text of the value, which parse reads back as the same value; put and get treat an object as a map; clone gives an equal value; parse of any other text ends with an error.", "quantifier": "every JSON text of any size and nesting, every value", "why_tests_cant": "Unbounded nesting, all strings, blanks in all places.", "anchors": ["lib/formats/json.c: parse, format, formatwr, json_put, get, clone, read_node, read_array, read_dict, readstr, read_num, read_kw, writenode, writestr"]}
{"id": "C86", "title": "What LZW compresses comes back", "statement": "compress of a text over an alphabet of n characters writes a stream from which a decoder for the same n delivers exactly the text and then ends.", "quantifier": "every text of any length over every alphabet of 1 to 256 characters, every input source and output sink", "why_tests_cant": "The dictionary depends on the whole history; resets happen only after thousands of words.", "anchors": ["lib/compress/lzw.c: compress, newdecoder, decode, decodeinto"]}
{"id": "C87", "title": "Huffman codes read back and are optimal", "statement": "With a tree built from a text, writing any text over the same characters and reading it back gives that text; for the text the tree was built from, no prefix code needs fewer bits, so that the output is at most the padding of the last byte longer than the shortest possible.", "quantifier": "every text of bytes, every way qsort may order equal counts, every prefix code to compare with", "why_tests_cant": "Optimality compares with all codes; the tree depends on all counts and on the unspecified order of equal counts.", "anchors": ["lib/compress/huffman.c: buildtree, newwriter, write, closewriter, newreader, read"]}
{"id": "C88", "title": "Canonical Huffman trees give the codes of ITU T.81", "statement": "treefrom with a list of length counts and values gives the tree of the canonical code: values in order, codes of a length consecutive; a sequence of codes reads as the values. When the codes do not fit it panics instead of giving a tree.", "quantifier": "every list of counts, every list of values, every sequence of codes", "why_tests_cant": "All shapes of trees, all sequences.", "anchors": ["lib/compress/huffman.c: treefrom, createnode, newreader, read"]}
{"id": "C89", "title": "A memory buffer behaves as a file", "statement": "Whatever is written to, read from, rewound or emptied, a mem buffer answers every operation as a file with a position would, and its allocation always covers its data.", "quantifier": "every sequence of memwrite, memputc, memread, memgetc, rewind, reset and memtell from a new buffer", "why_tests_cant": "The answers depend on the whole history of operations.", "anchors": ["lib/mem.c: memopen, memwrite, memputc, memread, memgetc, rewind, reset, memtell, memprintf, makespace"]}
{"id": "C90", "title": "MD5 digests are those of RFC 1321", "statement": "md5_buf computes the MD5 digest of its data and md5_sprint prints it as 32 hexadecimal digits; md5_eq tells whether two digests are equal.", "quantifier": "every data of up to 2147483574 bytes", "why_tests_cant": "All contents and lengths, with all paddings.", "anchors": ["lib/crypt/md5.c: md5, md5_buf, md5_str, md5_eq, md5_sprint, next_word, next_byte, init_padding, md5_feed, F, G, H, I, rotate, T", "lib/mem.c: memgetc"]}
{"id": "C91", "title": "CSV is read as RFC 4180 says, and what was written reads back", "statement": "On a text in the format of RFC 4180 readval and nextline give the values of its table, in whatever order columns and lines are asked for; a table written with writeval reads back; on any text the reader comes to an end.", "quantifier": "every table and every text of it, every sequence of calls, every reader below; for the last part every text", "why_tests_cant": "All texts, quotings and interleavings of calls.", "anchors": ["lib/formats/csv.c: newreader, readval, nextline, val, read_quoted_value, peekany, writeval", "lib/tokenizer.c: peek, get, more, buf_skip"]}
{"id": "C92", "title": "A line reader gives the lines of a file", "statement": "Successive calls of read give the lines of the file, each with its line feed and of any length, and then false for ever; nothing is written outside of the buffer.", "quantifier": "every file and every number of calls", "why_tests_cant": "All contents and line lengths, including those at which the buffer grows.", "anchors": ["lib/linereader.c: new, read, line"]}
{"id": "C93", "title": "A string builder holds what was put into it", "statement": "After any sequence of addc, adds, addf and clear the builder holds their text as a C string with its length; when memory runs out, additions fail from then on and nothing is written outside of the buffer.", "quantifier": "every sequence of calls; for the last part every behaviour of the allocator", "why_tests_cant": "All histories and all points at which an allocation may fail.", "anchors": ["lib/strbuilder.c: new, clear, addc, adds, addf, str_raw, str_len, grow"]}
{"id": "C94", "title": "A string table gives the value set last", "statement": "get gives the value that was set last under the key, or the null pointer if there was none; nothing is written outside of the array.", "quantifier": "every sequence of set and every key", "why_tests_cant": "All histories, with the array growing.", "anchors": ["lib/clip/stringtable.c: new, set, get"]}
{"id": "C95", "title": "UTF-8 characters are read and written as RFC 3629 says", "statement": "For every nonempty C string, get_rune returns the character whose shortest UTF-8 form the string starts with, and its length, or U+FFFD and 1 when it starts with no such form; it never reads behind the terminator. runetochar writes the shortest form of every number up to 0x10FFFF (U+FFFD above it), get_rune reads it back whatever follows, runelen and runenlen are the lengths written, and fullrune says exactly when enough bytes have come.", "quantifier": "all C strings, all 32-bit runes, all continuations of a string", "why_tests_cant": "There are 2^32 runes and every byte sequence up to four bytes long, in every context; overlong forms, cut sequences and the terminator are corner cases which examples cover one at a time.", "anchors": ["lib/utf.c get_rune", "lib/utf.c runetochar", "lib/utf.c runelen", "lib/utf.c runenlen", "lib/utf.c fullrune"]}
{"id": "C96", "title": "Counting and searching in UTF-8 texts", "statement": "For every C string, runecount is the number of characters it consists of (a byte that starts no character counts as one), utfrune and utfrrune return the place of the first and of the last such character, utfnlen counts the whole characters in the first n bytes of a well-formed text, and utfutf returns the first place at which one text occurs in another.", "quantifier": "all C strings, well formed or not; all runes; all lengths n; all pairs of strings", "why_tests_cant": "The loops step over sequences of one to four bytes and over wrong bytes; a step that is off in one context loses synchronisation for the rest of the text.", "anchors": ["lib/utf.c runecount", "lib/utf.c utfnlen", "lib/utf.c utfrune", "lib/utf.c utfrrune", "lib/utf.c utfutf"]}
{"id": "C97", "title": "Rune strings: comparison, copies, search", "statement": "runestrcmp and runestrncmp give the sign of the lexicographic order of two rune strings; runestrdup gives a terminated copy; runestrcpy and utfecpy copy a string with its terminator; runestrchr returns the first place of a rune.", "quantifier": "all rune strings", "why_tests_cant": "Termination and copying must hold for every string; the defects appear only with certain contents of the destination or when the rune is not the first.", "anchors": ["lib/utf.c runestrcmp", "lib/utf.c runestrncmp", "lib/utf.c runestrdup", "lib/utf.c runestrcpy", "lib/utf.c runestrchr", "lib/utf.c utfecpy", "lib/utf.c nih_memcpy"]}
{"id": "C98", "title": "Command lines mean what the declared options say", "statement": "For every set of declared options and every list of arguments, opt.parse returns exactly when the arguments are groups of declared flags (-abc) and options with a value of their type (-k value), up to a lone dash or an argument without a dash; it has then stored exactly these values, in order, through the pointers of the first option of each name, and returns exactly the arguments left, whose number is the expected one. Every other command line ends the program with status 1; an unknown flag, -h and a missing value are reported as such. dispatch calls the first subcommand of the name, with the arguments from there on.", "quantifier": "all option declarations, all argument lists, all expected numbers of arguments, all subcommand tables", "why_tests_cant": "Command lines are arbitrary lists of arbitrary strings; groups, values that start with a dash, repeated names and numbers at the end of the range interact.", "anchors": ["lib/opt.c declare", "lib/opt.c parse", "lib/opt.c readarg", "lib/opt.c boolrun", "lib/opt.c set_flag", "lib/opt.c find", "lib/opt.c is_numeric", "lib/opt.c addcmd", "lib/opt.c dispatch"]}
{"id": "C99", "title": "HTTP requests are read and written as RFC 7230 says", "statement": "For every text, http.read_request returns true exactly when it begins with a request line, header fields that each fit 1023 bytes and an empty line; it has then stored exactly that method, address, version and these fields, split the address at its first question mark, taken the last part of the path as the file name, and left the reader at the first byte behind the head. get_header gives the first field of that name. A request made with a method, a path, parameters and headers is written as one request line with every value percent-encoded and one line per header; write_request answers the length, or -1 if less was taken; the head so written is read back the same.", "quantifier": "all texts, all readers that fill their buffer, all writers, all methods, paths, parameters and headers within the buffers", "why_tests_cant": "Requests come from strangers: any byte string may arrive, any field may be as long as its buffer or contain the separators.", "anchors": ["lib/protocols/http.c read_request", "lib/protocols/http.c parse_query", "lib/protocols/http.c get_header", "lib/protocols/http.c init_request", "lib/protocols/http.c reqparam", "lib/protocols/http.c set_header", "lib/protocols/http.c write_request"]}
{"id": "C100", "title": "HTTP responses are read and written as RFC 7230 says", "statement": "For every response whose status line, fields and body fit the library's buffers, http.parse_response returns true with the version, the status, the fields and exactly the bytes of the body: as many as Content-Length says, or all up to the end if the connection is closed; a body shorter than announced is refused. serve_text sends a response that carries exactly the given text; the answers for errors carry their message.", "quantifier": "all versions, statuses, reasons, fields, bodies and continuations; all texts served", "why_tests_cant": "The body may contain any byte and stop at any place; the length is a text of digits computed from the body.", "anchors": ["lib/protocols/http.c parse_response", "lib/protocols/http.c read_status_line", "lib/protocols/http.c read_header", "lib/protocols/http.c read_body", "lib/protocols/http.c write_404", "lib/protocols/http.c serve_text"]}
{"id": "C101", "title": "Addresses are split into schema, host, port and path", "statement": "For every text that is an address schema://host, with an optional :port and an optional path beginning with a slash, and whose parts have at most 9, 99, 9 and 99 bytes, url.parse returns exactly these parts, with the path / if there is none; a result always consists of the parts of the text; null is returned only for a text that is no address; the parts of an address are unique. With longer parts C does not say what happens.", "quantifier": "all texts without zero bytes", "why_tests_cant": "Any text may be given, and each separator may occur in any later part.", "anchors": ["lib/url.c parse"]}
{"id": "C102", "title": "The head of a CGI answer is read up to its body", "statement": "For every head of lines name, colon, spaces, value, each ended by LF or CR LF, closed by an empty line and followed by any body, cgi.parse_head adds exactly these fields to the request's and returns the length of the head, so that the body starts there. On any other data it stops, keeps the fields there were, and returns a place within the data, or 0 if the head is not complete.", "quantifier": "all heads of at most 100 fields in all with names and values of at most 999 bytes, all bodies; all data", "why_tests_cant": "The body may begin with any byte, line ends may be mixed, and data may stop anywhere.", "anchors": ["lib/protocols/cgi.c parse_head"]}
{"id": "C103", "title": "Durations are written and read exactly", "statement": "For every duration, time.dur_fmt writes the hours, minutes, seconds and whole milliseconds it consists of in the format asked for, and answers whether the text fits the buffer; the microseconds are dropped. time.parse_duration reads a text [hh:]mm:ss[.fraction] as exactly that number of microseconds and refuses other texts. What was written as mm:ss.ms is read back up to the milliseconds.", "quantifier": "all durations from zero to 4085 years, all buffer sizes; all texts of minutes, seconds and a fraction", "why_tests_cant": "The number of minutes is not bounded, and the fraction goes through floating point, which is exact for some texts and not for others.", "anchors": ["lib/time.c dur_fmt", "lib/time.c sdur", "lib/time.c parse_duration", "lib/time.c readint"]}
{"id": "C104", "title": "Moments are read from and written as ISO 8601 texts, and moved to the local zone", "statement": "For every ISO 8601 text of date, time, optional fraction and zone, time.parse_iso returns exactly its fields. fmt_iso_iso writes a moment at UTC in the full form, which parse_iso reads back; it says whether the text fits. The offset found for the local zone is the one that separates local time from UTC, and iso_tolocal gives the local date and time.", "quantifier": "all texts with fields within int, all moments, all times of day and offsets", "why_tests_cant": "Every field may be any number, and the two times of day may lie on different days.", "anchors": ["lib/time.c parse_iso", "lib/time.c fmt_iso_iso", "lib/time.c tzoffset", "lib/time.c iso_tolocal"]}
{"id": "C105", "title": "Random numbers are in range, reproducible and do not repeat early; samples follow the frequencies", "statement": "rnd.intn(n) returns a number below n in every state and ends the program for n = 0; after rnd.seed all draws depend on the seed alone; the generator is in no state twice within 2^64 draws. sample_from_distribution returns an index, and of the values that may be drawn exactly as many lead to each index as its frequency says. rnd.u is at least 0 and below 1.", "quantifier": "all states, seeds and bounds; all numbers of draws; all lists of frequencies", "why_tests_cant": "The period is far beyond what can be run, and the share of each index is a statement about all draws.", "anchors": ["lib/rnd.c pcg32", "lib/rnd.c seed", "lib/rnd.c intn", "lib/rnd.c u", "lib/stats.c sample_from_distribution"]}
{"id": "C106", "title": "A series knows its count, extremes and percentiles after any history", "statement": "After any sequence of additions and queries, count, min and max of a series are those of the values added, and percentile(p) returns a value of the series such that no more than the fraction p of the values lies below it and more than that lies below or equals it.", "quantifier": "all histories of additions and percentile queries, all percentages from 0 to 100", "why_tests_cant": "The sorted copy is cached between queries, so every interleaving of additions and queries matters.", "anchors": ["lib/stats.c add", "lib/stats.c count", "lib/stats.c min", "lib/stats.c max", "lib/stats.c percentile", "lib/stats.c median"]}
{"id": "C107", "title": "Drawing changes exactly the pixels it should", "statement": "A new image is black everywhere. set changes the pixel named and no other one, get reads it, and both end the program outside the image. fill paints every pixel, apply changes every pixel once, explode gives a copy with each pixel in a square of n times n. paste shows the pixels of the other image that fall inside and leaves all others. Blending with opacity 0 keeps the old color.", "quantifier": "all images of all sizes, all coordinates, colors and callbacks", "why_tests_cant": "The pixels lie in one array, so a wrong index shows only for some sizes; the loops run over all sizes.", "anchors": ["lib/image.c new", "lib/image.c set", "lib/image.c get", "lib/image.c clear", "lib/image.c fill", "lib/image.c apply", "lib/image.c explode", "lib/image.c paste", "lib/image.c blend"]}
{"id": "C108", "title": "The files of an image hold its pixels", "statement": "bmp.write produces a Windows bitmap: the size fields are those of the file and of the image, the rows follow from the lowest one, each padded to a multiple of four bytes, and each pixel is at its place as blue, green, red. ppm.writeimg produces a portable pixmap: the head, and red, green and blue of each pixel row by row.", "quantifier": "all images with components of a byte whose file is below 2 GB", "why_tests_cant": "The padding depends on the width, and the offset of each pixel on width and height.", "anchors": ["lib/formats/bmp.c write", "lib/formats/ppm.c writeimg", "lib/enc/endian.c write4le"]}
{"id": "C109", "title": "Config files are read as the pairs written in them", "statement": "For every config file of blank lines, comments and lines 'key = value', with or without a comment behind them, asking formats/conf for pairs until there are none returns exactly the pairs of the file in order, whether or not the last line is ended.", "quantifier": "all files of such lines, with lines below 256, keys below 100 and values below 200 characters", "why_tests_cant": "The reader skips blanks, comments and line ends in loops over a stream whose end is met in any of them.", "anchors": ["lib/formats/conf.c next", "lib/formats/conf.c next_line", "lib/formats/conf.c peek"]}
{"id": "C110", "title": "Tables show every value whole, in columns of one width", "statement": "For every number of columns and every list of values, table.print shows all values in order, none of them cut, row by row, each column padded to one width that exceeds its longest value by two at most; neighbouring columns are separated by blanks.", "quantifier": "all numbers of columns above zero, all lists of values", "why_tests_cant": "The width of a column depends on the order in which the lengths of its values come.", "anchors": ["lib/table.c print", "lib/table.c printwidth"]}
{"id": "C111", "title": "The media type of an extension is the one in the table", "statement": "mime.lookup answers a type for an extension exactly if the table pairs them, and none for other extensions. Each answer is a type and a subtype with a slash between them.", "quantifier": "all extensions", "why_tests_cant": "Which entry is found first depends on all entries before it, and texts outside the table are not bounded.", "anchors": ["lib/mime.c lookup", "lib/mime.c table"]}
{"id": "C112", "title": "Subtitle files are read block by block", "statement": "For every srt file of subtitles, each with a number, a line of two times, lines of text and blank lines, with either kind of line end, reading blocks until there are none returns exactly the numbers, times and texts of the file, in order, the texts without blanks at their ends.", "quantifier": "all files of such subtitles, with times below 100 hours and texts below 1000 characters", "why_tests_cant": "Where a block ends is known only from the first line of the next one or the end of the file, and the line read ahead is kept between calls.", "anchors": ["lib/formats/srt.c readblock", "lib/formats/srt.c loadline", "lib/formats/srt.c parse_num", "lib/formats/srt.c parsepos"]}
{"id": "C113", "title": "Cues of vtt files are read whole", "statement": "For every vtt file - the line WEBVTT, headers, an empty line, and cues, each with a line of two times and perhaps a style, lines of text and an empty line, with either kind of line end and any empty lines between - reading until there are no more cues gives each cue's times and its text without tags and without blanks at its ends, in order and without an error. A file with another first line, a header without a colon and a space, a file that ends in its headers and a line that is not one of times where a cue begins are errors.", "quantifier": "all files of cues, however many, with any tags; lines of text up to 98 bytes, other lines below 4000", "why_tests_cant": "The buffer of the text grows with the lines, and tags may be anywhere in a line.", "anchors": ["lib/formats/vtt.c reader", "lib/formats/vtt.c read", "lib/formats/vtt.c cue", "lib/formats/vtt.c printnotags"]}
{"id": "C114", "title": "What is shown of a declaration is its text", "statement": "For every type and every declared name with stars and indexes, the text that che exports and messages show for it is read by the compiler as that same type and name. The same holds for shown expressions.", "quantifier": "all types with names that can be written, all forms, all expressions", "why_tests_cant": "Spaces, stars, points and parentheses decide how the shown text splits into tokens and how deep expressions nest.", "anchors": ["src/format_che.rs fmt_typename", "src/format_che.rs fmt_form", "src/format_che.rs fmt_bare_typeform", "src/format_che.rs fmt_expr"]}
{"id": "C115", "title": "An error about a token says what was expected and shows the token", "statement": "When a token is not the one the grammar requires, the error is at that token, names the kind that was expected and shows kind and content of the token that was found, on one line, cut to 37 bytes and three dots if it has more than 40 bytes.", "quantifier": "all tokens, all expected kinds, all notes", "why_tests_cant": "The content of a token is any text of any length, with line ends and characters of several bytes.", "anchors": ["src/parser.rs expect", "src/parser.rs token_to_string", "src/parser.rs with_comment"]}
{"id": "C116", "title": "Tracks of cue sheets are read", "statement": "For every cue sheet - lines about the whole, then tracks, each with its line, titles, performers, remarks and indexes, with any blanks before a line and either kind of line end - parsing gives the tracks in order, each with the title given last and the position of its last index in whole seconds. More than a hundred tracks and an index before the first track are errors; an unknown word, a title that is not closed and a track without a number end the program.", "quantifier": "all sheets, with any number of lines and tracks; titles below 100 bytes, remarks below 900, numbers up to six digits", "why_tests_cant": "Entries may come in any order and number, and each is read into a buffer of its own size.", "anchors": ["lib/formats/cue.c parse", "lib/formats/cue.c cue_track", "lib/formats/cue.c pos_us"]}
{"id": "C117", "title": "Byte readers answer from their place in the file", "statement": "Whatever bytes, numbers of two and four bytes, looks ahead and questions for the end a program asks for, one after the other, each answer is what stands at the place the requests before have come to, high byte first; a look ahead does not move, and the end is met exactly when something was asked for beyond the last byte.", "quantifier": "all files, all sequences of requests; numbers that are whole in the file, those of four bytes below 2^31", "why_tests_cant": "Looks, bytes and numbers may be mixed in any order.", "anchors": ["lib/bytereader.c readc", "lib/bytereader.c peekc", "lib/bytereader.c read16", "lib/bytereader.c read32", "lib/bytereader.c ended"]}
{"id": "C118", "title": "Rune strings are copied and appended within their bounds", "statement": "A bounded copy of a string of runes fills exactly the cells asked for, with the runes of the string and zeros behind it; appending puts the second string behind the first and leaves the other cells alone; bounded appending puts at most the number of runes asked for behind the first, and ends the result; a copy up to a given end never goes beyond it.", "quantifier": "all strings without zeros, all memories with room for them, all bounds", "why_tests_cant": "The errors are at the edges: empty strings, strings as long as the bound, memory that was used before.", "anchors": ["lib/utf.c runestrncpy", "lib/utf.c runestrcat", "lib/utf.c runestrncat", "lib/utf.c runestrecpy"]}
{"id": "C119", "title": "Searches in rune strings find the first and the last place", "statement": "The search for a string of runes in another one answers with the first place at which it stands, or that there is none; the search for the last place of a rune answers with the last one, or that there is none.", "quantifier": "all strings, all strings and runes searched for", "why_tests_cant": "The string may overlap itself, stand at the end or nowhere.", "anchors": ["lib/utf.c runestrstr", "lib/utf.c runestrrchr", "lib/utf.c runestrchr"]}
