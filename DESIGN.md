# Formal model of gaswelder/che in Rocq

The codebase is a compiler from the che language to C99, written in Rust
(`/repo/src`).  The model is a function-by-function transcription of the Rust
sources into total Gallina functions; the theorems are about that model.

## Plan of the model (rocq/theories)

| file | models |
|---|---|
| Base.v | Rust strings, UTF-8 lengths, byte slices, trim, replace, split, number parsing |
| Buf.v | src/buf.rs |
| Lexer.v | src/lexer.rs |
| Nodes.v | src/nodes.rs |
| Types.v | src/types.rs |
| Cspec.v | src/cspec.rs |
| NodeQueries.v | src/node_queries.rs |
| Resolve.v | src/resolve.rs |
| Preparser.v | src/preparser.rs |
| Parser.v | src/parser.rs |
| CAst.v | src/c.rs |
| FormatC.v, FormatChe.v | src/format_c.rs, src/format_che.rs |
| Translator.v | src/translator.rs |
| Build.v | src/build.rs |
| Mains.v | src/main.rs, src/main_*.rs, build::build_prog; every command yields its exit status and the history of its effects |
| Cursor.v | the interface between lexer and parser (parser.rs reads through it) |

Modelling conventions

* A Rust `String` is a list of Unicode code points (`list N`).
* Every `panic!`, `todo!`, `unwrap` on `None` and out-of-range slice is an explicit `Panic` outcome.
* Loops and recursion that are not structurally decreasing take fuel and return an explicit `Oof`
  outcome when it runs out; non-termination of the code is the statement "`Oof` for every fuel".
* Unicode `is_alphanumeric` above ASCII, the md5 function, the file system and the environment are
  parameters (Section variables or type-class arguments), never axioms.
* The commands are functions to an ending (exit status, crash, or still running) and a history of effects:
  lines on the two output streams, directories made, files written, C compilers run, tests run, programs
  started.  The record `system` answers each request of the program, possibly depending on the history so
  far: whether a directory can be made or a file written, what the C compiler prints and returns, how the
  started program ends, what a directory lists.  The sources are read from a fixed `world`.

## Properties and how each will be proved

* **C01 Token positions are true source positions** - Buf/Lexer model; theorem over all buffers: a token's position equals an independent line/column function of the consumed prefix.
* **C02 The lexer neither loses nor invents source text** - Lexer model; independent spelling relation token<->text; every successful read_token splits the remaining text accordingly.
* **C03 Operators are recognised by longest match** - Lexer model; longest-prefix specification over the operator table.
* **C04 Words are maximal and keywords are exactly the reserved ones** - Lexer model; word/keyword specification.
* **C05 Comments and whitespace are invisible to the parser** - Lexer model; get on (space/comment ++ rest) equals get on rest up to positions.
* **C06 String literals are read verbatim and adjacent pieces are joined** - Lexer model; specification of string pieces; induction on pieces and bodies.
* **C07 Lookahead does not disturb the token stream** - Lexer model as a state machine; refinement to a cursor in the token sequence for every operation history.
* **C08 Lexing makes progress** - Lexer model; strict decrease of the remaining text; stuck error token is a fixpoint.
* **C09 The lexer reports malformed input instead of crashing** - Lexer model with explicit Panic results; exact characterisation/refutation.
* **C10 Expressions are parsed by the documented operator table** - Parser model; independent inductive grammar over token lists; soundness and completeness.
* **C11 The compiler terminates on every source file** - Parser model with fuel; refutation (for every fuel) on an unclosed body, termination for expressions.
* **C12 Malformed programs are rejected with errors, not crashes** - Parser model with explicit Panic results; refutations and exact conditions.
* **C13 Success means no diagnostics** - Parser model; case analysis on module results.
* **C14 Exports are exactly the pub declarations** - Parser model; specification by filtering the element list.
* **C15 Every pub typedef is importable** - Parser model; refutation for struct aliases, positive theorem for other forms.
* **C16 Module variables cannot be exported** - Parser + formatter model.
* **C17 Declaration lists abbreviate** - Translator model.
* **C18 Arithmetic and comparison typing never aborts** - Types model, total functions with explicit Panic for todo!.
* **C19 Comparison acceptance is symmetric and yields bool** - Types model; case analysis over classes; refuted at bool.
* **C20 Arithmetic acceptance is symmetric; the result is one of the operand types** - Types model.
* **C21 Untyped operands never cause rejection** - Types + translator model.
* **C22 Dereferencing an address gives back the type** - Types model; partial (non-derived types) and refutation.
* **C23 Call arity is checked** - Translator model (call typing).
* **C24 Conditions of while and for must be boolean-like** - Translator model.
* **C25 Accepted programs contain no undefined names** - Translator model; scope-indexed well-resolvedness predicate on ASTs, independent of the translator; induction on fuel.
* **C26 Accepted programs contain no unused private names** - Translator model; use predicate on ASTs.
* **C27 Accepted programs contain no unused imports** - Translator model.
* **C28 No two declarations of one name in one scope** - Translator model; invariant over scope stacks.
* **C29 Qualified names respect pub** - Translator model; predicate on ASTs.
* **C30 Definition and use agree on the C name** - Translator model.
* **C31 Exported C names never collide across modules** - Build + translator model; string injectivity.
* **C32 Private functions and variables are invisible to the linker** - Formatter/translator model.
* **C33 Definition order does not matter** - Translator model; sortedness and stability of reorder_elems.
* **C34 calloc! support is emitted exactly when needed** - Translator model.
* **C35 switch runs exactly one matching case** - C statement grammar and semantics over an arbitrary machine (SpecCStmt.v, SpecExec.v); the printed switch is read back and run; partial (expressions that survive printing).
* **C36 switch str compares like strcmp, first match wins** - The same semantics; partial (subject without effects), refuted for subjects with effects, which are evaluated once per comparison.
* **C37 panic reports its own source position and exits** - Translator model; exact C AST.
* **C38 Multi-line strings keep their value** - Formatter model + denotation of C string literals.
* **C39 A non-void function returns on every path** - The same semantics of source statements; refutations + partial theorem for the bodies the check is right about (SpecReturn.v).
* **C40 Translation preserves expression structure** - Translator model; erasure relation between source and C trees.
* **C41 Emitted expressions mean what the source meant** - Formatter model + C expression grammar: partial theorem on a safe class, refutations outside.
* **C42 Translation preserves statement structure** - Translator model; structural relation.
* **C43 Modules are compiled after their imports** - Build model over an arbitrary file system function; graph theory.
* **C44 Import cycles are rejected, and only cycles** - Build model.
* **C45 Every import resolves inside the project** - Build + translator model.
* **C46 Imported headers are complete and free of duplicates** - Translator model.
* **C47 Import resolution** - Resolve model.
* **C48 The pre-pass sees every type the parser will see** - Preparser + parser models.
* **C49 Link flags** - Command model: the argument vector of the C compiler in the history of che build.
* **C50 Generated files do not overwrite each other** - Build model with the hash as a parameter.
* **C51 che test fails when a test fails** - Command model; the status against the failed tests in the history.
* **C52 The command line fails on misuse** - Command model.
* **C53 The dependency tree shows exactly the imports** - Command model; independent relation between files and tree text, shown to be functional.
* **C54 The translator never aborts on parsed programs** - Translator model with explicit Panic. SpecTame.v names the careless constructs; every other module that the parser produced is translated or rejected (induction over the grammar and over the translator's steps, tracking the names declared in the scopes). Each construct is shown to abort.
* **C55 Optional semicolon after enum** - Parser model.
* **C56 Unqualified type names are known** - Translator model; every type reference of the module (SpecScope.v) satisfies the claim.
* **C57 A function is accepted exactly when the rules hold** - Translator model; independent statement of the rules (SpecAccept.v), equivalence with the translator's verdict.
* **C58 Library calls take the arguments C says** - Translator and table models; prototypes written down from the C standard (SpecLib.v), the table compared entry by entry and a call characterised for every context; four entries of the table differ (refuted).
* **C59 Generated functions run as written** - Source and C statement semantics over an arbitrary machine; the printed body is read back by the C grammar and shown to have exactly the source's executions, including unfinished ones.
* **C60 Refused programs are reported and leave nothing behind** - Command model; streams, effects and status of every command whose program has errors.
* **C61 Commands do what they say** - Command model; the effects of build, install, run and genc on accepted programs, in order, for every system.
* **C62 che exports lists the exported interface** - Command model; listing stated from the source elements; partial (parameters without groups), refuted for groups.
* **C63 Compiler messages are traced back to the sources** - Command model; every line the C compiler printed against the line shown.
* **C64 A test verdict is about that test's own program** - Command model; what precedes each test run in the history.
* **C65 Which projects are built** - SpecProject.v says from the texts of the files alone which files form a program and when it is well formed (announcements, lookup of imports, depth-first visits, grammar, rules of names and types). The build succeeds exactly for well-formed programs: soundness and completeness of the pre-pass and of loading, plus the exactness theorems of the parser (C12) and of the translator's acceptance.
* **C66 The generated file is one file of C** - SpecCModule.v gives the grammar of C files (pieces: tokens and directives; external declarations; files). Existence: every element is printed to tokens that the grammar reads as that element. Uniqueness: cutting a text into pieces is deterministic and every grammar relation is prefix-deterministic, up to the spelling of string literals (`values`) and the reading of `{0}`.
* **C67 Generated files use only what they declare** - SpecClosed.v defines, from C99 6.2.1, the names and types that a C function uses from outside itself (scopes of parameters, blocks, declarators, for clauses), what each element of a file declares, and which names the standard headers declare. SpecTidy.v lists the source constructs whose names do not survive (each with a program in `C67_functions_closed_refuted`). Proof: by induction over the source's statements, tracking the scopes of the source and of C together (ClosedFacts.v); the layout of files puts every declaration before the functions (ClosedModule.v); keys of imported elements collide only for equal declarations (ClosedProject.v). For the other elements of a file (types, structs, enums, prototypes, variables) SpecNeat.v lists the orders of declarations and the private names in pub declarations that do not survive (programs in `C67_files_closed_refuted`); ClosedOwn.v proves the claim for what a module adds by itself, ClosedFile.v follows an element through exports, de-duplication and reordering, by strong induction over the order of the modules.
* **C68 Prototypes and definitions meet at link time** - SpecLink.v compares a prototype with a definition by linkage, type, declarator and parameters, and reads linkage off the text (`static`). Proof: every element of a file is part of the fixed head, comes from a pub element of an earlier module, or from the module itself (LinkFacts.v, strong induction over the order of modules). That no two files define one external name needs telling names and a single main (`C68_one_definition_refuted` without).
* **C69 A generated file declares no name twice** - `well_declared` of SpecLink.v (C99 6.2.3, 6.7): ordinary names, struct tags, names of the headers. Conditions on the sources: `telling`, `told_apart`. Proof: C names determine source names; pairs of places in a list survive de-duplication and reordering (LinkFacts.v).
* **C70 Generated files know the size of every type they need** - SpecComplete.v says which types an element of a C file needs to be complete (C99 6.2.5, 6.7.2.1, 6.7.5, 6.9.1) and when a type is complete behind a list of elements; and for sources, that a name stands for a type of known size if only definitions in a given set are used. Proof: every complete source type is complete in C if its definitions arrive in time (CompleteFacts.v, induction over that derivation, across imports); SizeFacts.v follows the needs of expressions and statements through the translation; placement by `reorder_elems` as in C67. Programs in an order that does not suit C are in `C70_types_complete_refuted`.
* **C71 Declarations copied into other files mean the same there** - SpecMeaning.v says what an element of a C file introduces and what it is made of (identifiers, types, tags, words a macro could replace), what a file has for such an item, and when two files have the same for it (`alike`: the greatest relation closed under "made of"). Proof: what an offered element introduces, nothing else in the same file introduces (C69) and nothing different in another file (names determine modules, C53/C68); what it is made of is offered in both files (`file_ready` of C67), comes from the headers that both include, or from the system; so "introduced by an offered element of both files, or by headers only" is such a relation. Programs where a private type, a macro or a tag gets in the way are in `C71_same_meaning_refuted`. Not modelled: the text that a macro stands for, conditional directives, #undef.
* **C72 The generated program runs as the source modules say** - SpecRun.v gives the meaning of a set of source modules and of a set of C files, both over one arbitrary host (cells, constants, operators, the C library). On the source side a name stands for a local, for a declaration of its module or for an export of the module that a prefix names; on the C side for a local, for the element of the file that declares it, then, across files, for the definition with external linkage, or for the system. Calls are counted, so that unfinished runs are compared too. The statements are run as in C59, with C bodies read back from the printed text (`readings`). Proof: what a name of a function stands for is the same on both sides (WholeNames.v, from C67, C69, C71 and C68); statements agree if names do (WholeExec.v); induction over the number of nested calls (WholeFacts.v). ToyHost.v is a concrete host that satisfies the laws (`lawful`); the example runs a program of two modules to its result. Two programs that break the conditions and run differently are in `C72_runs_as_written_refuted` and `C72_hidden_refuted`.
* **C73 One error for every broken statement, where it breaks** - SpecFault.v says which token sequences are modules with broken statements, and lists the first wrong token of each: `stuck` for expressions that break off, `begun` for simple statements, `faults` for bodies. Proof: what an expression of the grammar leaves over fails as it would alone (`seq_out`, `base_out` in GrammarExpr.v), so the error comes up to the statement; skipping stops behind the semicolon or at the brace; induction over bodies (FaultFacts.v). Four texts outside of `faulty_module` for which the claim is false are in `C73_one_error_each_refuted`.
* **C74 The library's buffer is a queue of bytes** - LibClip.v models the clips as a list and the `last` pointer as a flag; a write through a dangling `last` is outside memory. SpecClip.v gives a queue over histories. Induction over the history, with the invariant that no clip is exhausted and `last` is set exactly when there is a clip.
* **C75 The library's vec is a growing array** - LibClip.v, memory as a list of bytes with bounds checks, fresh memory from an arbitrary function. SpecClip.v: an array as a list. Invariant: the data is the concatenation of the items followed by zeros.
* **C76 The library's map is a map** - LibClip.v: entries as an array of cells. SpecClip.v: answers computed from the history of calls alone (last_set, keys_set). Invariant: the pairs held are those of the history, keys distinct.
* **C77 The library's hash map is a map** - LibClip.v: slots, hash modulo 2^32, probing of the whole ring, growth at 75%. Invariant (Clip2Facts.v): slots are empty or complete, keys distinct, the size counts the full slots; probing visits every slot.
* **C78 Hexadecimal and percent encoding read back** - LibIO.v: a writer is a function from a state and bytes to a result and a state. SpecIO.v: `honest`, and the decoders unhex and unpercent. The table of one byte by computation over all bytes, the rest by induction over the data.
* **C79 Numbers as bytes keep their order** - SpecIO.v: value_le and value_be. Arithmetic on quotients and remainders by 256.
* **C80 Bits written are the bits read** - LibIO.v: bitreader, bitwriter with the pending byte. SpecIO.v: stream_bits. Invariants bw_holds (what is written plus the pending bits) and bits_left (what is still to come). The memory reader violates the end of input: refuted.
* **C81 String helpers do what their names say** - LibText.v: C strings as lists of characters without the final zero, ends_with with its two walking positions. SpecText.v: trimmed, pieces (cut at the first separator), join. Inductions over the strings.
* **C82 Bencode written is bencode read** - LibText.v: writer into a buffer, reader with position and depth of the stack, results with panic and undefined behaviour apart. SpecText.v: bvalue and the relation encodes of BEP 3 with decimal numbers without needless zeros. The user's programs write_value and read_value in PropBencode.v only use the API. Compositional lemma about writing a text with or without room; for the reader, induction over values with a lemma for reading at a place.
* **C83 sha1 computes the SHA-1 digest** - LibSha1.v: the digest record with its block, word and counters, 32-bit arithmetic on N. SpecSha1.v: FIPS 180-4 as relations (padded, schedule, rounds, compresses, hashes), stated without the model's helpers; C83_unique shows that it allows one digest only. Invariant pushed: the record holds the sum of the full blocks and the bytes of the rest.
* **C84 The tokenizer reads its input once, from left to right, and knows where it is** - LibTok.v: the record with its buffer and counters, read calls answered by an arbitrary reader. SpecTok.v: reads (what a reader gives), answers/gone (the stream as seen by peek/get), position, numbers, names. Invariant at_: what was consumed, what is buffered and what the reader still has.
* **C85 JSON is read and written as in RFC 8259** - LibJson.v: the recursive descent over the tokenizer of LibTok.v, fuel by the length of the text; the conversion of numbers (sscanf, sprintf) is a parameter. SpecJson.v: the grammar of RFC 8259 as relations between values and texts, stated over all escapes; plain_escape is the part the parser knows. Induction over the derivation of the text; the writer by induction over the value.
* **C86 What LZW compresses comes back** - LibLzw.v: dictionary, compressor and decoder over the bit streams of LibBits.v, arbitrary reader and writer. SpecLzw.v: a writer that takes all. The relation coded describes the codes written for a text with the dictionary at each step; the decoder follows it one entry behind (relation pending), including the code for the entry being made and dictionary resets.
* **C87 Huffman codes read back and are optimal** - LibHuffman.v: counting, the list of nodes, the merging loop with qsort as any sort by falling counts, the writer's table, the reader's descent. SpecHuffman.v: prefix codes, encoded texts, sorts. Huffman's theorem by Kraft's inequality and an exchange argument over weights and depths; the bound on depths by Fibonacci weights.
* **C88 Canonical Huffman trees give the codes of ITU T.81** - SpecHuffman.v: canonical_codes and number_bits after T.81, C.2. Invariant packed h k: in a tree of height h the leftmost k places are taken; createnode takes place k, whose path is k in h bits.
* **C89 A memory buffer behaves as a file** - LibMem.v: the record with data, position and size. SpecMd5.v: a file as contents and position with one step function. By induction over the history with the invariant pos <= datalen <= size.
* **C90 MD5 digests are those of RFC 1321** - SpecMd5.v: RFC 1321 with its 64 operations written out. The rotating indices of the loops are the rotating roles of the operations; the source of bytes gives message, 128, zeros and length in turn.
* **C91 CSV is read as RFC 4180 says, and what was written reads back** - LibCsv.v on top of LibTok.v. SpecCsv.v: the grammar of RFC 4180 as relations between tables and texts, and the answers of a table. Invariant: the tokenizer has the text of the rest of the table ahead; induction over the calls.
* **C92 A line reader gives the lines of a file** - LibLines.v, SpecLines.v: lines as a relation. Invariant: one more byte than the line fits into the buffer.
* **C93 A string builder holds what was put into it** - LibLines.v, SpecLines.v. Invariant: the cells are the text followed by at least one zero, or there are none.
* **C94 A string table gives the value set last** - LibLines.v, SpecLines.v: the last set in the history. Induction over the history.
* **C95 UTF-8 characters are read and written as RFC 3629 says** - LibUtf.v models get_rune with its masks on bytes, reads behind the terminator being undefined; SpecUtf.v gives UTF-8 by arithmetic; case analysis on the first four bytes with lemmas on masks
* **C96 Counting and searching in UTF-8 texts** - induction on the bytes left; a text is taken apart in one way only; a byte from 192 on is always at the start of a part, so that an occurrence of the needle is at such a start
* **C97 Rune strings: comparison, copies, search** - induction on the strings; the loops that do not move are modelled with any number of rounds
* **C98 Command lines mean what the declared options say** - LibOpt.v models the loops of parse on lists of arguments, with the writes as a list; SpecOpt.v gives the grammar of command lines; equivalence by induction on the arguments
* **C99 HTTP requests are read and written as RFC 7230 says** - LibHttp.v models reading on the tokenizer of LibTok.v and writing on the string builder of LibLines.v; SpecHttp.v gives the texts of messages; proved by the step lemmas of the tokenizer
* **C100 HTTP responses are read and written as RFC 7230 says** - LibHttp.v models the reader and the texts sent; SpecHttp.v says which text carries which body; carries_once shows that there is only one
* **C101 Addresses are split into schema, host, port and path** - LibUrl.v models parse on the tokenizer of LibTok.v; SpecUrl.v says what the parts of an address are; proved by splitting the text at the first stop
* **C102 The head of a CGI answer is read up to its body** - LibUrl.v models the loop on lists of bytes; SpecUrl.v gives the texts of heads; proved by induction on the head and on the steps of the loop
* **C103 Durations are written and read exactly** - LibTime.v models the functions with C's int range and with IEEE doubles of the standard library's SpecFloat; SpecTime.v says what each format shows; the fractions of up to three digits are checked one by one by computation, all else by lemmas on decimal texts
* **C104 Moments are read from and written as ISO 8601 texts, and moved to the local zone** - LibTime.v takes what localtime and gmtime report as inputs; SpecTime.v gives the grammar; proved by reading number after number
* **C105 Random numbers are in range, reproducible and do not repeat early; samples follow the frequencies** - LibRnd.v models the generator on 64 bits; the period follows from the number of factors two in the geometric sum
* **C106 A series knows its count, extremes and percentiles after any history** - LibRnd.v models the series with its cache; the invariant is that a cached copy is a sorted permutation
* **C107 Drawing changes exactly the pixels it should** - LibImage.v models images as lists of colors and each loop by a counter; SpecImage.v says what painted means; proved by loop invariants over all pixels
* **C108 The files of an image hold its pixels** - LibImage.v models both writers byte by byte; SpecImage.v gives both formats by offsets; proved by lemmas on rows of equal length
* **C109 Config files are read as the pairs written in them** - LibMisc.v models the reader on the bytes left of the stream; SpecMisc.v gives the grammar of files; induction over the file
* **C110 Tables show every value whole, in columns of one width** - LibMisc.v models both loops and the padding; SpecMisc.v lays values out by widths; induction over the values
* **C111 The media type of an extension is the one in the table** - LibMisc.v holds the table and the search; the table is checked entry by entry, the rest by induction
* **C112 Subtitle files are read block by block** - LibSrt.v models the reader with the line read ahead and sscanf on these formats; SpecSrt.v gives the grammar of files; induction over the blocks and over the lines of each
* **C113 Cues of vtt files are read whole** - LibVtt.v models the reader with the size of its buffer; SpecVtt.v gives the grammar of files and what a line is without its tags; induction over headers, lines and cues
* **C114 What is shown of a declaration is its text** - SpecShow.v says what the same up to positions is; the shown text is spelled by tokens (SpecLex.v) from which the grammar (SpecGrammar.v) derives the same tree; induction over expressions
* **C115 An error about a token says what was expected and shows the token** - SpecError.v says how a token is shown, one character at a time; expect is computed on every token; the cut is a character boundary
* **C116 Tracks of cue sheets are read** - LibCue.v is built on the tokenizer of C84; SpecCue.v says what each line says and what a track is; every line leaves the tokenizer at the next one, induction over lines and tracks
* **C117 Byte readers answer from their place in the file** - LibByteReader.v keeps what is left of the file, SpecByteReader.v a place in it; induction over the requests
* **C118 Rune strings are copied and appended within their bounds** - LibRunes.v keeps what is written to as a list of cells, SpecRunes.v says what it means that cells hold a string; induction over the strings
* **C119 Searches in rune strings find the first and the last place** - LibRuneFind.v is built on runestrchr of LibUtf.v, SpecRuneFind.v says where a string stands in another; induction over the rounds

## Specifications

Each property theorem is stated with a small specification that does not use the helpers of the model:
SpecLex.v (tokens, gaps, positions), SpecGrammar.v (the grammar of the language), SpecDecl.v,
SpecModule.v, SpecExports.v (declarations and exports), SpecTypes.v, SpecTyping.v, SpecAccept.v (type
rules and acceptance), SpecScope.v (names), SpecTarget.v (the C tree expected for a source tree),
SpecC.v, SpecCStmt.v (tokens, expressions and statements of C), SpecExec.v, SpecReturn.v (running
statements), SpecLib.v (prototypes of the C library), SpecBuild.v, SpecProject.v, SpecMain.v (projects, commands), SpecTame.v (what makes the translator give up), SpecCModule.v (files of C), SpecClosed.v, SpecTidy.v, SpecNeat.v, SpecLink.v, SpecComplete.v, SpecMeaning.v (names and types used and declared in files of C), SpecRun.v (running whole programs), SpecFault.v (files with broken statements), SpecClip.v (containers of the library), SpecIO.v (encoders and bit streams), SpecText.v (strings and bencode), SpecSha1.v (FIPS 180-4), SpecTok.v (the tokenizer), SpecJson.v (RFC 8259), SpecLzw.v (compression), SpecHuffman.v (prefix codes), SpecMd5.v (RFC 1321, a file in memory), SpecCsv.v (RFC 4180), SpecLines.v (lines, string builders, tables), SpecUtf.v (UTF-8), SpecOpt.v (command lines), SpecHttp.v (HTTP messages), SpecUrl.v (addresses and CGI heads), SpecTime.v (durations and moments), SpecRnd.v (samples and series), SpecImage.v (images and their files), SpecMisc.v (config files and tables), SpecSrt.v, SpecVtt.v (subtitles), SpecShow.v (shown declarations), SpecError.v (messages about tokens), SpecCue.v (cue sheets), SpecByteReader.v (readers of bytes), SpecRunes.v, SpecRuneFind.v (rune strings),
SpecSafe.v (errors and aborts).  The property theorems are in the Prop*.v files, each closed by `exact lemma` and followed
by `Print Assumptions`, with an `Example` that meets its hypotheses beside it.  Where the code violates a
property, a theorem with suffix `_refuted` exhibits it and one with suffix `_partial` states the part that
holds.

## Trusted base

* The Coq 8.16.1 kernel (including its virtual machine, which `vm_compute` uses in examples and refutations).
* Axioms: none.  `Print Assumptions` answers "Closed under the global context" for every theorem of
  MANIFEST.json.
* The faithfulness of the transcription: the definitions in the model files of the table above, each of
  which cites the Rust lines it models.  There is no generated code and no extraction in the deliverable.
* The specifications named above, as readings of the English statements.

Modelled: buf.rs, lexer.rs, nodes.rs, types.rs, cspec.rs, node_queries.rs, resolve.rs, preparser.rs,
parser.rs, c.rs, format_c.rs, format_che.rs, translator.rs, build.rs, and the commands of main.rs and
main_*.rs as functions of an abstract world and system (file system, environment, C compiler, subprocesses).
The examples and refutations about running programs use the concrete machine of ToyMachine.v and the concrete host of ToyHost.v, and the boolean
test of plain trees in PlainCheck.v; the theorems do not.

Of the standard library of che in /repo/lib (che source files, read as the C programs they stand for) these
modules are modelled, each in a file Lib*.v: clip/buffer.c, clip/vec.c, clip/map.c, clip/map2.c, reader.c and writer.c (memory and files), enc/hex.c, enc/urlencode.c, enc/endian.c, bits.c, strings.c (without newstr and fmt_bytes), formats/bencode.c, formats/bencode_writer.c (to a buffer), crypt/sha1.c, tokenizer.c (without tail, dbg, posstr and the set functions), formats/json.c (without write_string and null pointers), compress/lzw.c, compress/huffman.c (without printing), mem.c, crypt/md5.c, formats/csv.c, linereader.c, strbuilder.c, clip/stringtable.c, utf.c (without the tables of letters and cases), opt.c (without the texts printed and the reading of floats), protocols/http.c (without errstr and servefile), url.c, protocols/cgi.c, time.c (without now, fromunix, sub, sleep and the format logfile), rnd.c, stats.c (without sum, avg, sd and normalize), image.c (without mix, mapcolor, colormap_image, from_hsl, from_hsv, testimage), formats/bmp.c, formats/ppm.c, formats/conf.c, table.c, mime.c, formats/srt.c (without printblock), formats/vtt.c, formats/cue.c, bytereader.c.
Their models take sizes as natural numbers, and allocation succeeds; other arithmetic is that of the C types.

Not modelled: the other modules of the standard library,
md5 (a parameter), Unicode tables above ASCII (a parameter), wrap-around of
machine integers in positions and counters, memory exhaustion and stack overflow of the Rust program, and the C compiler itself.  Timing and
terminal colours are not modelled.  Sources do not change while a command runs, and che's own writes do not
change what it reads.
