# Formal model of Zen-C in Coq: design

## 1. Approach

The code in /repo (a C compiler front end in `src/` and a standard library in Zen-C in `std/`) is modelled
function by function as total, computable Gallina functions.  Every model definition carries a comment with the
file and lines it models and the simplifications made.

Outcomes are explicit.  A function that can crash returns `res A`:
`Ok a` (returns), `Panic` (the library's own `panic`/`exit`), `UB` (an access outside a buffer, a read of an
uninitialised slot, a null dereference, signed overflow: anything for which the C code gives no guarantee) and
`Fuel` (the loop bound supplied to the model was used up; theorems about results exclude it, termination
theorems show it does not occur, and non-termination theorems show that it occurs for every bound).

Memory.  A buffer is a list of slots `option A` (`None` = allocated, not initialised) whose length is the
allocated capacity; reads and writes are bounds-checked by the model and out-of-range accesses are `UB`.
`malloc`/`realloc` are assumed to succeed (the library panics or is undefined otherwise).
Machine integers are modelled with explicit wrap-around wherever the property depends on it.

Where a property, stated for all inputs, is *false* of the code, the model is kept faithful, the failing input is
given as a theorem `..._refuted`, and the strongest restriction we could prove is given beside it
(suffix `_partial` when the statement is less than the property).

Layout of `rocq/theories/` (logical root `Verif`):

* `Common.v` – outcomes, buffers, byte strings, arithmetic automation.
* `X_Model.v` – model of a module, only definitions with source citations.
* `X_Spec.v` (or a section at the top of `X_Props.v`) – the independent specification.
* `X_Proofs.v` – lemmas.
* `X_Props.v` – the property theorems, each a one-line reference to a lemma, followed by `Print Assumptions`,
  and `Example`s showing that the hypotheses are met by a concrete non-trivial case.

## 2. Plan per property

| Id | What is modelled | How it is proved |
|----|------------------|------------------|
| C01 | `Vec` as (slots, len, cap) with growth policy | refinement to `list` by induction over operation lists |
| C02 | `reverse` loop with unsigned wrap of `len-1` | loop invariant; refuted at length 0 |
| C03 | iterator state machine | induction on remaining elements |
| C04 | ring buffer (slots, cap, head, tail, count) | representation invariant "slot (head+i) mod cap", refinement to list |
| C05 | `clone` | refinement when not full; refuted when full |
| C06 | stack | refinement to list; clone refuted for empty |
| C07 | open-addressing table, FNV-1a hash | invariant: probe chain of every live key is unbroken; refinement to finite map |
| C08 | same | termination when a free slot exists; refuted by a tombstone-saturated history |
| C09 | iterator | induction on slot index; empty map refuted |
| C10 | set table | invariant + pigeonhole: a free slot always exists |
| C11–C13 | `String` over `Vec<char>` | refinement to byte lists, algebraic laws |
| C14 | utf8 functions | induction over well-formed code point sequences; refuted for truncated sequences |
| C15 | `encode` | round trip with an independent decoder |
| C16 | `update`/`final`/`_transform` on 32/64-bit words | refinement to a padded-message specification |
| C17, C18 | frame encoder/decoder, handshake | round trip; composition of C15 and C16 |
| C19, C20 | JSON parser and printer on byte lists | mutual induction on values; refutations by computation |
| C21, C22 | path and URL functions | equational reasoning on lists |
| C23 | arena bump allocator with 64-bit wrap | invariant over operation lists; refuted with overflow |
| C24 | `readln` loop over an input stream | loop invariant |
| C25 | `eval_const_int_expr` | structural induction against C semantics over Z; refuted at overflow |
| C26–C28 | `lexer_next` on byte lists | progress measure, partition invariant, case analysis |
| C29 | `strtoull` + literal classification | positional-notation specification |
| C30 | Pratt loop | parse(print t) = t by induction on trees |
| C31 | move state, merge, statement checker | soundness by induction against an operational semantics; refuted for loops |
| C32 | `*_always_returns` | soundness against an operational semantics |
| C33 | defer stack, loop boundaries, emission | compiler correctness against a big-step semantics |
| C34, C35 | DP table, best-match scan | DP equals the recursive edit distance, which equals minimal edit scripts |
| C36 | emission loop | permutation and order invariants |
| C37 | fixpoint iteration | least fixpoint = reachability |
| C38 | scope chain | refinement to nested environments |
| C39 | block bump allocator | invariant over allocation histories |
| C40, C41 | quoting, splitting, directive scanner | round trip; character-set invariant |
| C42 | header loop over an input stream | induction over the message list |
| C43, C44 | delta encoding, range list | round trip; list search |
| C45, C46 | `type_eq`, mangling | induction over types; refutations |
| C47, C48 | text substitution, escaping | specification by independent scanner; lexical interpretation of C literals |
| C49, C50 | `Map` with the global seed; the key strings of the table | refinement while unallocated; ownership invariant; refuted by histories |
| C51 | JSON parser against the RFC 8259 grammar | induction over derivations; soundness refuted |
| C52–C54 | `lexer_next`: columns, words, literals | case analysis per token kind against lexical specifications |
| C55 | compound assignment in the expression tree | refuted for every target |
| C56 | statements generated for interpolated strings, run on fixed buffers | induction over pieces |
| C57 | decimal to double to "%f" text | rational arithmetic, error bound |
| C58 | directive scanner and flag splitting end to end | composition with C40/C41 |
| C59, C60 | HTTP server loop body, fetch, over byte streams | round trip through an independent HTTP reader |
| C61 | command line building, `popen`, output loop | round trip through a model of the shell's word splitting |
| C62 | wrappers around `tre_regexec` | for every matcher satisfying leftmost-match laws |
| C63 | File API over a model of POSIX files and stdio buffering | refinement to a map from paths to texts over histories |
| C64 | defer stack, drop flags, moves, calls, recursion | counting invariant by mutual induction on fuel |
| C65 | pattern text, generated condition chain | induction over arms and alternatives |
| C66 | the generated C loop under C integer conversions | induction over the members of the range |
| C67 | the initialiser text, buffers with their sizes | induction over the file against a reading of C initialisers and literals |
| C68 | attribute tokens to condition, passes of the code generator over declarations | evaluation of the condition by induction; commutation of preprocessing and selection |
| C69 | brace scanning, unescaping, choice of conversion, generated statements and their execution | induction over the pieces, one general turn of the loop |
| C70 | analysis of free variables, capture list parser, generated contexts and their memory | induction over syntax trees, simulation between generated memory and the snapshot specification over all histories |
| C71 | instructions of the library functions, interleaving machine with heap, mutex, handles, data races as undefined behaviour | simulation invariant between the machine and a one-at-a-time semantics, induction over schedules; invariant excludes waiting on an ended owner |
| C72 | type names, choice of result passing in runner and await, argument struct text, heap, threads as histories of events | simulation between machine and ideal futures with block ownership, induction over histories; case analysis over types |
| C73 | printing of defaults as tokens, parsing them again at the call with the Pratt model, filling of defaults, name check, order of emission | printer derivations in the grammar of C30, induction over expressions; induction over parameters; evaluation under any interpretation |
| C74 | the methods on a flag and a payload, programs as lists of operations on numbered options and variables, drops as events | simulation by options with ownership; counting the places of every object, induction over programs |
| C75 | the desugared while loop over VecIter with the block numbered, realloc giving a new number; body an arbitrary function to operations | refinement to a loop over the live list, induction over the positions left |
| C76 | an expression language with memory and calls; the parser rewrite and the printed C as a second language with scoped temporaries; both orders of evaluation | equality of the two evaluators by mutual induction over expressions and targets |
| C77 | bodies with defers as in C33 plus let x = e?, the printed C, result types as enums with tags or structs | mutual induction over statements and items, with the pending defers generalised |
| C78 | types and values as mutually inductive trees; the derived comparison by type; the text builder with its bounds | mutual induction over types; the text by induction over fields |
| C79 | types and values as mutually inductive trees over the JSON values of C19; the generated methods by field type; the text builder with its bounds | mutual induction over types and fields with the finite-map lemmas of put and lookup; composed with C19 |
| C80 | implementations as lists of methods; table and function symbols; the parameter text with its bounds; strtok-based extraction of the names | induction over the programs for the tables, over the parameters for the text and its extraction |
| C81 | source expressions, the tree after rewriting, its C text and its evaluation over a store with arbitrary method bodies | induction over expressions: the C evaluation of the rewritten tree equals the independent meaning; induction over chains for the size |
| C82 | files as lists of definitions and imports over an arbitrary file system; path resolution; the list of read files; recursion by fuel | induction on the fuel and the items with an invariant on what is added; the set of unread files bounds the fuel; reachability as an inductive relation |
| C83 | types, expressions, the emitted C expressions and their meaning over a memory of objects and cells, with undefined behaviour outside the object | an invariant that memory fits the types; the emitted code refines a direct meaning in which every index is checked |
| C84 | a process with open descriptors, those of other code and the socket objects; the kernel as inputs; streams as byte lists cut by a schedule | an invariant over histories (permutation of the open descriptors); a loop invariant over the schedule |
| C85 | expressions with blocks and a stack of deferred statements; the emitted C with its variable, over an arbitrary state | induction over expressions and blocks (mutual) that the C does what the source means |
| C86 | the checker as a function from syntax trees to a type and a number of errors; the constraints of C as a typing function with two notions of compatible pointers | mutual induction over expressions and statements with a relation between checker types and C types, in both directions |
| C87 | the textual substitution and the two guesses made from a mangled field type, as functions on byte strings; instantiation as a fuel function over the list of instances | depth-first search invariant: emitted structs are right and what they mention is already listed; the number of missing instances bounds the depth |
| C88 | buffers as byte lists, static ones in the state, allocated ones in a list; printf of integers as a function | induction over histories with buffer lengths as invariant; induction over the digits |
| C89 | environ as a list of NAME=VALUE strings with the three libc functions; pointers carry the number of changes; 64 and 32 bit arithmetic explicit | refinement to a map by induction over histories; modular arithmetic |
| C90 | memory as a list of live and freed blocks, pointers as block and index, undefined behaviour explicit | induction over the range, frame conditions for all other places |
| C91 | signatures as bytes split at the leftmost separator; fixed arrays with their sizes; the order of output items | induction over elements; counting separators; loop invariants on the buffer |
| C92 | files as a finite map from resolved paths; the phases as given answers | case analysis; the two names resolve to different files; arithmetic of the wait status |
| C93 | the tree as an inductive type; qsort as any sorted rearrangement; a decoder written from the protocol | induction over the sorted list with the last position; size induction over trees |
| C94 | trees with tokens and definition tokens; projects as lists of indexes; edits keyed without case as in cJSON | size induction over trees; a fold invariant on the keyed edits |
| C95 | messages as JSON values with members looked up without case; what the handlers compute is given | computation on messages of the protocol; induction over sessions |
| C96 | tests as lists of state changes, deferred changes and assertions; the macro as its arguments; the statement as tokens with a given expression parser | induction over tests and statements against a relation that says how a test ends; computation on tokens |
| C97 | the reader and the writer byte by byte, with the allocation for a string; strtod and the text of a number are given | mutual induction over the grammar of RFC 8259 (reading), nested induction over values (writing), induction over fuel (safety) |
| C98 | the local variables of repl_readline with the heap block of the line, byte by byte; the screen is left out | invariant (the block holds the text and a NUL) and simulation of an abstract editor, induction over the keys |
| C99 | the locals of run_repl with the life time of the history array and input buffer; compiler answers are given functions | induction over the history blocks; invariants over the session |
| C100 | g_config, the loop over the arguments, the list of further files, and the argument array with its capacity | induction over a list of options that is rendered to words; round trip with the flag buffers of C40 |
| C101 | the lexer of C26, the 8192-byte body array with its writes, the list of loaded plugins and the list of imported names | array invariant over the token loop; the block as an inductive relation on the source; induction over the list of imports |
| C102 | the characters of the program, the lines of C emitted, their nesting as one block, and the execution of that block on a tape pointer | a code relation between programs and statements, and a simulation by induction on fuel against a step relation on the text with matching brackets |
| C103 | the characters of the pattern, the statements emitted for them, and the C function they form, on signed chars and a cursor | blanks are filtered by induction; statements of a shown pattern by induction on its items; the greedy loop against an inductive set of words |
| C104 | members of a struct, the field list with the array of mixin names, the C call chosen for a method, and the layout rule of C structs | induction over the members; case analysis of the lookup against an inductive relation; prefix lemma on offsets |
| C105 | reading the block with the lexer, the program written, and the steps of several compilers on one file system with the C compiler and the program as oracles | induction over tokens; an invariant of each compiler on its three files, stable because names differ; a rank for termination |
| C106 | types, their C text, the insertion of a name into it, function signatures and typedefs, on strings | a tokenizer of C declarations as specification; mutual induction over types; search lemmas for strstr and strchr |
| C107 | literals with expressions as state transformers and the evaluation order as an argument, the loops that read patterns, and the declarations made | induction over patterns and initialisers; permutation invariance; composition of the two for the round trip |
| C108 | the GNU block of the generated C with its scoping, over the memory of Slice_Model; the type names used and declared; the return statement as a list of events | induction over chains of slice expressions; lemmas on ranges of a block |
| C109 | the table of variants filled while parsing, the C enum, union and constructors, and the conditions and bindings of match arms | injectivity of mangled names without underscores, uniqueness of table entries, induction over arms |
| C110 | declarations written out as C declarations with storage class and cleanup attribute, C storage durations, cleanup on leaving | induction over declarations with distinct names, over calls, and over the cleanups |
| C111 | collection of the instructions from tokens, substitution of placeholders, the C string literals and the operand lists; the reading side of GNU C in the specification | round trip through string literal and template by induction over the text |
| C112 | the four checks of opaque structs over expressions of member accesses, the alias check of declarations, the copy of a generic struct | induction over expressions against a typing relation in the specification; case analysis of types |
| C113 | reading of the grid, the statement for every cell with the array stack and sp, the moves; Befunge-93 on a torus in the specification | induction over the text for the grid; simulation step by step, then induction over the number of steps |
| C114 | choice of the format by type, its buffer, the reading of the line and sscanf for the formats made; words, white space and decimal numbers in the specification | induction over the variables; the format is at most 64 bytes |
| C115 | the statement parser on tokens, the checks of the C compiler on labels and names, execution of the C statements; the language with labels in the specification | mutual induction over statements for parsing and for execution; induction over the rounds of a loop |
| C116 | the recursive descent over the text, the tree of C code written, the checks of the C compiler and the values of the runtime; lisp on trees in the specification | mutual induction over expressions, arguments and bindings: reading the text back gives the tree, the tree passes the checks and has the value |
| C117 | the tokens, the operations on the stack, the skipping of branches, the copying of loop bodies, the dictionary of body texts; a big-step semantics of trees in the specification | mutual induction over the derivations of the semantics, with fuel monotonicity; a lemma for every kind of token |
| C118 | the skipping of blanks and comments, the keywords, the three statements, the registry of tables; what the C compiler checks and what the emitted code does; a database of rows in the specification | induction over the statements with a relation between the registry, the tables of the block and the static rows; lemmas for every kind of word |
| C119 | the eight functions that report, with the texts they write, the bounds of their buffers, the callback and exit; the list the language server publishes | symbolic evaluation of the text a terminal shows; an invariant by induction over the history of reports |
| C120 | the two functions that show a tip, with the names of the triggers, the ten places for matches and the draws of rand as part of the event | an invariant by induction over the history |
| C121 | strip_ansi_codes with its two places in one buffer, zvfprintf with its two buffers | an invariant of the two places by induction over the text |
| C122 | the three functions that read the settings, with the array and its reallocation, and the check of a call | refinement of the array to a list of names; case analysis of the check |
| C123 | the search for the function, the word in front of the cursor, the queue of 1024 statements, the lookup of the type and of the struct | induction over the queue: everything inside the body is visited if it fits; evaluation of the scan backwards from the dot |
| C124 | the scan backwards from the position, the search of the function, the two buffers; the entries of declarations and fields | induction over the text and the list of types; induction over the declarations |

## 3. Trusted base

* Coq 8.16.1's kernel (and `coqchk`, which re-checks it).
* Axioms: see section 5 (output of `Print Assumptions`); none of our own.
* The correspondence between the cited source lines and the model definitions (checked by reading).

## 4. Modelled / not modelled

Each model file starts with what it covers and what it leaves out; every definition cites its lines. The headers:

* `Alloc_Model.v`: The compiler's own allocator (src/utils/utils.c:9-92). Memory is addressed by block and offset into the block's data; an access outside the data of a block is UB. What a new block contains is unspecified: [mem] is an arbitrary function at the start.
* `Arena_Model.v`: Model of std/arena.zc. usize arithmetic is modulo 2^64, written out. Pointers are addresses; 0 is NULL. [mem] is the block malloc returned (one entry per byte).
* `Args_Model.v`: Model of the arguments of a call: how the default of a parameter is kept (src/parser/parser_utils.c:195-345 ast_to_string and 4180-4196), how the arguments of a call are collected, defaults filled in and names checked (src/parser/parser_expr.c:52-105 and 2955-3232, 3326-3440), and in which order they are emitted (src/codegen/codegen.c:778-793). Simplifications. Expressions and the parser are those of Pratt_Model.v (integer literals, names, operators, casts, calls, indexing, members, conditionals and "?"); string, character, float and struct literals are left out. Text is a list of tokens with its length: the printer never puts two tokens next to each other that the lexer would join, since every compound operand is in parentheses ([printable] in Args_Spec.v leaves out members of numbers). A text longer than the 4096 byte buffer is undefined behaviour ([POver]); a call whose text is cut at one of the length tests (callee 256, arguments 4090) is [PCut]. Move marking and casts to trait objects are left out (Move_Model.v has the former).
* `Asm_Model.v`: Model of inline assembly: parse_asm (parser_stmt.c:624-960) and the asm statement written for it (codegen_stmt.c:1381-1556). [UB]: a buffer of the compiler overflows. [Panic]: an error message. The lists of operands are given as they are written, in the order of the sections; the words in front of inputs are left out (they only have to begin with in, 847).
* `Async_Model.v`: Async functions and await: the struct of arguments that is built from the text of the parameter list, the runner thread, the wrapper that starts it, and the code of an await expression (src/codegen/codegen_stmt.c, src/codegen/codegen.c, src/parser/parser_expr.c). The generated C is given a meaning by a small machine with a heap and threads.
* `Base64_Model.v`: Model of std/encoding/base64.zc.
* `Befunge_Model.v`: Model of plugins/befunge.c: the grid it reads (14-41) and what the C code does that it writes (43-195). [Panic]: the C code does not compile; [UB]: undefined behaviour of the C code, of an access outside [stack] or an overflow of long. The grid is a function of row and column. What is printed is a list of the numbers and characters. Simplification: bytes that are no instructions stand in a character literal as they are; only the single quote makes it one that C rejects.
* `Bf_Model.v`: Model of plugins/brainfuck.c: the C text it writes for a block, and what that text does. The text is kept as a list of its lines; [line_text] gives the characters. The C compiler reads the lines as one block: [read_block] is the nesting of braces. Running the block: the array [tape] is static, so its contents are a parameter of a run; the pointer is its offset, and using it outside the array, or moving it before the first or more than one past the last element, is undefined behaviour ([UB]). The cells are unsigned char. [putchar] appends to the output; [getchar] takes the next byte of the input and is -1, stored as 255, at its end.
* `Cfg_Model.v`: Conditional compilation with @cfg: the condition made of the attributes (src/parser/parser_core.c:248-504, 925-946) and the #if lines around declarations (src/codegen/codegen_decl.c:247-310, 421-584, 609-740, 747-795, 798-990, 1136-1168; src/codegen/codegen_main.c:365-806).
* `Cfgf_Model.v`: Model of src/utils/config.c and of the check of called functions in src/codegen/codegen.c. Simplified: a file is what cJSON makes of it (C97): None if it cannot be read or is no JSON, else the array under c_functions if there is one; the environment of the check is given by what its lookups find.
* `Check_Model.v`: Model of the type checker behind zc check and --typecheck: src/analysis/typecheck.c (check_expr_unary 175-249, check_expr_binary 251-494, check_expr_call 496-650, check_block 652-683, check_type_compatibility 685-796, check_var_decl 798-832, check_expr_literal 985-1005, check_node 1072-1567), over the types and type_eq of Types. Simplifications: moves are left out (see Move), and so is the check that a function returns on every path (see Ret). The parser leaves a type on every node, which the checker overwrites where it knows better: here a variable has the type of its declaration, a call the result type of its function (parser_expr.c:3318), [Other] is an expression the checker does not look into (member access, cast, address-of) with the type the parser gave it, and after an error an expression has no type. A callee is the name of a function; no argument has a function type with unknown parts (574-592); no struct has an index or get method (1264-1315); an assignment operator is not an operand.
* `Cjson_Model.v`: Model of the JSON reader and writer of the language server: src/lsp/cJSON.c:281-405 (parse_number), 599-660 (print_number), 669-1087 (strings), 1097-1249 (white space, BOM, cJSON_Parse), 1385-1905 (values, arrays, objects). A parser position is the list of the bytes from there to the end of the buffer, the NUL included; reading at the end of the buffer, or writing past an allocation, is [UB]. [Ok None] is a parse error. [D] is the type double; [show] is what print_number writes; [strtod] gives the value and the number of bytes converted. Simplifications: memory suffices (ensure gives the room that was asked for); the error position is left out; a string value is the bytes before its first NUL (that is what every reader of valuestring sees).
* `Closure_Model.v`: Closures: the capture list and the analysis of captured variables (src/parser/parser_expr.c), the code generated for creating a closure and for the variables in its body (src/codegen/codegen.c, src/codegen/codegen_decl.c) and what it does.
* `Cmdline_Model.v`: Model of the command line of the compiler: src/main.c:53-400 (reading the arguments) and 449-541 (the further files), src/utils/cmd.c:82-160 (build_compile_arg_list) and 263-312 (the list of arguments). The buffers of flags are [Flags_Model]. POSIX only. Texts are C strings. A field of g_config that is 0 or 1 is modelled by a list of the switches that were set. Warnings are left out. Given: which paths exist and what they really are, and what importing a file imports.
* `Col_Model.v`: Model of src/utils/colors.c: what printf and fprintf write in the whole compiler (colors.h, 21-26, replaces them). Simplified: the text is given as it is after the conversions of the format; writing to a terminal and vsnprintf do not fail.
* `Compl_Model.v`: Model of completion in the language server, src/lsp/lsp_analysis.c 302-686. Simplified: the lists of the parser are given (a type as the text type_to_string or type_str has; for a variable the first of them there is; a symbol of the program by [symbol]); an item of the answer is kept as its label, kind and detail; isalnum is that of ASCII; the types are not null pointers.
* `Comptime_Model.v`: Model of [comptime { ... }] blocks: run_comptime_block and the statement form in src/parser/parser_stmt.c. The lexer is the one of Lexer_Model.v. A declaration or statement of the block is its kind and the C text the code generator prints for it; parsing the block is not modelled here. The C compiler ([cc], success or not) and running a program ([exec], its output and exit status) are oracles of the program's text. The file system maps names to contents; several compilers working in one directory take their steps in any order. Simplifications: opening a file for writing succeeds; the shell's own failures are only those of a missing or unusable program; the fallback directories of load_file are empty.
* `ConstFold_Model.v`: Model of the constant evaluator, src/analysis/const_fold.c, and of the places that store and use its result (parser_decl.c, parser_type.c, parser_expr.c, codegen.c).
* `Ctype_Model.v`: Model of how types are written in the generated C: type_to_c_string in src/ast/ast.c, emit_c_decl and emit_func_signature in src/codegen/codegen_utils.c, the typedefs of src/codegen/codegen_decl.c, and the suffixes of a type in src/parser/parser_type.c. Text is a list of bytes. The Zen name of a type (type_to_string, used in the name of a slice struct) and the test that a struct is defined are parameters. An array of negative size makes type_to_c_string call itself for ever: that is [UB] (the stack overflows). Simplifications: [is_const] is the constructor [TConst]; CUDA qualifiers, [@ctype] and vectors are left out.
* `Cut_Model.v`: Model of slice expressions a[s..e] (parser_expr.c:5676-5757 and codegen.c:1130-1204), of the index of a slice (codegen.c:1036-1045, codegen_decl.c:1206-1217), of a fixed array passed for a slice parameter (codegen.c:880-895) and of the return statement (codegen_stmt.c:1557-1685). Memory and pointers are those of Slice_Model. The generated C is a GNU block that declares _arr, _start and _len in turn; in C a name is in scope inside its own initialiser, where it has no value yet. [UB]: reading such a name, a pointer moved out of its block, arithmetic that overflows. [Panic]: the program stops, or the C compiler rejects the text. Simplification: the bounds are expressions of variables, literals, + and - of type long.
* `Defer_Model.v`: Deferred statements: the C statements generated for a function (src/codegen/codegen_stmt.c; src/codegen/codegen_utils.c:14-22). Actions, conditions and returned expressions are numbers, whose meaning is left open. The parser rejects break, continue, return and goto inside a deferred statement (src/parser/parser_stmt.c:1027, 2538, 2569, 2759), so deferred statements have a type of their own. Not modelled: goto, labels (labelled jumps generate a goto to a label that is never generated), match, and a defer that is itself the body of a loop, a guard or another defer without braces.
* `Derive_Model.v`: Model of @derive(Eq): the method the compiler writes (parser_core.c:962-1050, generate_derive_impls) and the code of == and != on values that have it (codegen.c:257-412). Simplifications: the text of the method is modelled up to its last semicolon and its meaning is given as the conjunction of its comparisons; the types of a program are trees, so a field of a struct type carries that type; every struct in them derives Eq (a field whose struct has no eq does not compile).
* `Destruct_Model.v`: Model of struct literals, of vector literals and of destructuring declarations: src/codegen/codegen.c:1640-1771, src/parser/parser_decl.c:324-515 and src/codegen/codegen_stmt.c:858-950. Values are of any type [V]; an expression is a function from the state to its value and the new state. A struct value is the list of its fields with their values. In C the expressions of an initialiser list are evaluated one after the other in an order the compiler chooses: the model takes the order as an argument. An error of the C compiler and [zpanic_at] are [Panic]. The heap arrays of 16 names are a bound: a write behind them is [UB].
* `Diag_Model.v`: Model of src/diagnostics/diagnostics.c: what the compiler and the language server do with errors and warnings. The source is a C string. A token has the offset of its start in the source (None: a null pointer), its line and its column; numbers below 2^31. Simplified: the messages are given as they are after vfprintf; an object of cJSON is kept as its members (its text is that of C97); a column of 0 is taken only for a null start.
* `Djson_Model.v`: Model of @derive(ToJson) and @derive(FromJson): what the methods written by parser_core.c:1064-1218 (from_json) and 1219-1302 (to_json) do, and the text of from_json. JSON values are those of Json_Model.v. [D] is the type double, [of_int] the conversion of an integer to it and [to_int] that of a double to int, [None] where C leaves it undefined. Simplifications: a field type is one of those the methods know; the strings of char* and String fields are bytes without NUL and never null; the heap is not modelled, so neither are the copies and forget calls made for vectors.
* `Driver_Model.v`: Model of the compiler driver after the command line is read: src/main.c:543-757 (the checks, the temporary C file, the C compiler, running and removing), and src/platform/os.c:324-343 (z_run_command on POSIX). The parser, the checks, the code generator, the C compiler and the program are given: what each of them answers. Files are a finite map from absolute paths (lists of components) to contents. Simplifications: no links and no "..", files can be opened, renamed and removed, the extra source files (449-541) and messages are left out, the C compiler writes its output file or fails and writes nothing else; POSIX only.
* `Drop_Model.v`: Model of the propagation of the Drop trait and of the drop glue: src/parser/parser_utils.c:4387-4420 (propagate_drop_traits), src/codegen/codegen_main.c:298-336 (emit_auto_drop_glues). A definition is identified by a number. [lookup] stands for find_struct_def (parser_utils.c:1071-1126) and for find_struct_def_codegen: a function from names to definitions that the propagation does not change. The has_drop flags are the list of the definitions whose flag is set. Simplification: every definition has a type_info, every field a type.
* `Edit_Model.v`: Model of the line editor of the REPL: src/repl/repl.c:524-970 (repl_complete, repl_readline), with the key words of 165-170. The input is the list of the bytes that repl_read_char will deliver; at its end every read fails. The line lives in a heap block [e_buf]: reading a byte that was never written, or reading or writing outside the block, is [UB]. [e_size] is the variable buf_size. Simplifications: a line is shorter than 2^30 bytes, memory suffices, what is drawn on the screen is left out, isalnum and iscntrl are those of the C locale and take bytes from 128 as other characters.
* `Embed_Model.v`: embed (src/parser/parser_type.c:1105-1240 parse_embed): a file turned into a C initialiser at compile time.
* `Enum_Model.v`: Model of enums: their declaration (parser_struct.c:1088-1261, parser_utils.c:850-872), the C type and the constructors generated for them (codegen_decl.c:531-580), and the match statement on enum values with bindings (parser_stmt.c:262-345, codegen_stmt.c:84-155, 280-470). A payload is a list of values; several values are one tuple in C. [Panic]: the C compiler rejects the text. [UB]: the union member read is not the one written (its bytes are taken for a value of another type), memory is overwritten, or a variable has no value. Simplification: names are identifiers, so the texts of alternatives are kept as a list (Match_Model has their text); tags do not overflow; generic enums are not modelled.
* `Env_Model.v`: Model of std/env.zc:22-60 (Env: get, get_dup, set, unset), std/sys/env.zc:7-33 (the POSIX side) and std/time.zc:14-22, 34-44, 57-68 (Time::now, Duration, sleep, sleep_ms). The environment of the process is the list of "NAME=VALUE" strings environ points to, and getenv, setenv and unsetenv work on it as the GNU C library's do: the first entry that starts with the name and an equals sign. setenv and unsetenv refuse an empty name and a name with an equals sign, and setenv fails when there is no memory (the answer is given with the call). Strings are lists of bytes without NUL. A pointer returned by getenv points into an entry: it is modelled as the name and the number of changes made to the environment so far; POSIX lets a later change invalidate it. Not modelled: Windows.
* `FStr_Model.v`: Interpolated strings: the statements the compiler generates for them (src/parser/parser_expr.c) and what these do at run time.
* `Flags_Model.v`: Flags for the C compiler: how they are collected, and split into arguments again (src/utils/utils.c, src/utils/cmd.c, src/main.c). Texts are C strings without their terminator.
* `FloatLit_Model.v`: Floating-point literals: from the token to the C constant (src/parser/parser_expr.c, src/codegen/codegen.c). A double is the rational number it stands for; literals are not negative (the sign is an operator). Infinities (literals beyond the largest double) are not modelled.
* `ForIn_Model.v`: Model of `for x in v`, `for x in &v` on a Vec and `for x in a` on a fixed array, with a body that works on the collection: the desugaring of parser_stmt.c:1271-1548 { let __it = v.iterator(); while (1) { let __opt = __it.next(); if (__opt.is_none()) break; let x = __opt.unwrap(); { body } } } over std/vec.zc and std/slice.zc. Simplifications: the operations are those of Vec_Model.v; the address of the vector's block is a number that changes when realloc or free is called on it; a read or write through an older number is [UB] (C leaves the old pointer indeterminate after realloc, wherever the block ends up). A body is any function from the number of the visit, the item and the contents of the vector to the operations it performs and how it ends.
* `Forth_Model.v`: Model of the forth plugin, plugins/forth.c: a block is run when the program is compiled, and what it writes is the code of the block. The state is kept from one block to the next (static variables, 8-23). Simplified: the text of a %ld is given ([dec]); memory suffices, and so does the C stack. Left out: floating point (words that start with f, words with a point), the memory (variable, constant, @, !, s", allot), strings (."), and what goes to stderr.
* `Fs_Model.v`: Model of std/fs.zc and std/sys/fs.zc over a small model of POSIX files: File.open, write_string, close, read_to_string, read_all, exists, metadata, remove_file, read_dir, current_dir. Not modelled: freeing, directories as places (create_dir, remove_dir), files opened for writing twice at the same time, and files changed by others while they are read.
* `Hash_Model.v`: Open-addressing tables: the parts shared by std/map.zc and std/set.zc. Simplification: the parallel arrays keys/vals/occupied/deleted (map.zc:22-29) and data/occupied/deleted (set.zc:18-24), which are always allocated with the same length and indexed together, are one list of records.
* `Help_Model.v`: Model of two answers of the language server: the signature of the function being called (lsp_signature_help, src/lsp/lsp_analysis.c 889-1020) and the outline of a file (ast_to_symbol, lsp_document_symbol, 694-815). Simplified: the functions of the parser are given, their types as the texts of type_to_string (or NULL); isspace and isalnum are those of ASCII; forming a pointer in front of or behind the text is allowed; the text has no NUL.
* `Http_Model.v`: Model of std/net/http.zc (the server loop body and fetch) on top of the String, Url and TCP stream models. Not modelled: freeing of strings and sockets, the listening socket, printed messages, and _parse_headers (http.zc:15-35), which nothing calls.
* `IfExpr_Model.v`: Model of if as an expression: parse (src/parser/parser_expr.c:1720-1763, src/parser/parser_stmt.c:1106-1155 for else if), the C code (src/codegen/codegen.c:1219-1300) with the stack of deferred statements (defer_stack, src/codegen/codegen_stmt.c: NODE_DEFER; run at the end of the enclosing block, 951-963), and what that code does. Simplifications: other expressions and statements are atoms with an arbitrary meaning and an integer type; a branch is a list of statements and a last expression; the stack of deferred statements has no limit here (see Defer); no return, break or continue inside branches; no user variable is called _ifval.
* `Import_Model.v`: Model of imports: parse_import (parser_stmt.c:3511-3893), the list of imported files (parser_utils.c:3369-3389), modules and selective imports (parser_utils.c:1128-1208) and the loop over the definitions of a file (parser_core.c, parse_program_nodes: 697, 872-948). Simplifications: a file is the list of its definitions and imports; definitions are names with a @cfg condition and a number for their other attributes; no plugins, C headers, automatic imports of the library, LSP mode and Windows paths; a realpath that fails keeps the path, as a file that cannot be read does.
* `Index_Model.v`: Indexing: how [a[i]] is compiled for arrays, slices and pointers, and what the C code does. Models src/codegen/codegen.c:1004-1131 (NODE_EXPR_INDEX), src/codegen/codegen.c:885-895 (array passed for a slice parameter), src/codegen/codegen_decl.c:1209-1240 (_z_check_bounds, the Slice structs), src/parser/parser_expr.c:4137-4255 (indexing in an expression, the compile-time warning). Simplifications: the scalars are integers, slices and pointers; all cells of an object have one unit of size. Objects live for ever, so a slice of a dead local is not seen. Integer operators are an oracle. Structs with an index or get method are calls, see Oper. [long] has 64 bits.
* `Inst_Model.v`: Model of the instantiation of generic structs: src/parser/parser_utils.c:1367-1573 (replace_type_str), 1578-1698 (type_from_string_helper), 1700-1845 (replace_type_formal), 2256-2288 (unmangle_ptr_suffix), 2871-2878 (register_template), 2880-2981 (copy_fields_replacing), 3095-3252 (instantiate_generic, for structs); src/parser/parser_type.c:527-690 (the reading of a type with one argument); src/parser/parser_struct.c:795-835, 970-1066 (the reading of a struct). Texts are lists of bytes without NUL. Simplifications: templates have one parameter and no methods; fields have no bit width and are not embedded structs; types are primitives, names, pointers and templates with one argument (no arrays, functions, explicit [struct]); there is no module prefix and no import; the buffers p_suffix and c_suffix of 1024 bytes are not modelled, the buffers m and mangled of 256 bytes are: a name that does not fit is [UB]. Memory is never reclaimed (zprep.h:17). "Unknown generic" is [Panic].
* `IntLit_Model.v`: Model of integer literals: src/parser/parser_expr.c:1360-1427 and their emission, src/codegen/codegen.c:48-58.
* `Io_Model.v`: Model of text formatting in std/io.zc: format (31-40), format_into (42-50), format_new (52-63), print and println (65-80), itos, itos_new, utos (124-145). The text a C format denotes is given with the call: what vsnprintf makes of the format and its arguments is the C library's business. Modelled: the buffers, their sizes, whether they are shared between calls, truncation, and what comes back. %d and %u are modelled ([dec_int], [dec_nat]). malloc answers as the caller of [step] says. A write beyond a buffer is [UB]. Simplifications: text lengths fit an int; nothing is freed.
* `Json_Model.v`: Model of std/json.zc. A text is the list of the bytes before its terminating NUL. A parser position is the list of the bytes from there on, so [peek0] of [[]] is the NUL and moving on from [[]] would leave the text ([UB]). Recursion depth is not limited. Objects: the Map of object_val is modelled by the list of its entries (Map_Props shows that Map behaves as a finite map, and that iteration visits every entry once in an unspecified order: the order of the list). [D] is the type double; [fmt] is sprintf("%.15g"); [strtod] gives the value and the number of bytes converted, [None] if there is no conversion.
* `Lev_Model.v`: Model of the spelling suggestions: levenshtein (src/utils/utils.c:496-537) and find_similar_symbol (src/parser/parser_utils.c:4241-4272). A C string is the list of its bytes before the terminating zero. Simplifications: the lengths fit an int and the array on the stack fits the stack.
* `Lexer_Model.v`: Model of the lexer, src/lexer/token.c. The source is the list of its bytes, none of them NUL; the terminating NUL is the end of the list. Reading the terminator gives 0 and is fine, reading any byte after it is undefined behaviour ([UB]). A chain such as [s[0] == 'a' && s[1] == 'b'] is [is_prefix "ab"]: both stop at the first mismatch, so neither reads past the terminator. Positions, lines and columns are unbounded (they are [int]; a source of 2^31 bytes would be needed to overflow). The <ctype.h> predicates are those of the C locale; bytes 128..255 are in no class (what glibc answers for the negative [char] passed to it).
* `Lisp_Model.v`: Model of the lisp plugin, plugins/lisp.c: the expressions of a block are turned into C, with a small runtime. The C code written is a tree (each function of the plugin writes the text of one node). Simplified: bytes above 127 are not white space; the functions called are those of the runtime and others, given by the number of their arguments and their results, without effects; allocation succeeds; names are not words of C. Left out: defun, and what print writes.
* `Loops_Model.v`: Model of loops, jumps and conditions: README.md 576-592; src/parser/parser_stmt.c 532-600 (loop, repeat, unless, guard), 1107-1184 (if, while), 2515-2608 (words that start a statement), 2800-2822 (labels), 2951-3030 (blocks); src/codegen/codegen_stmt.c 1150-1330. Simplified: conditions, counts and lists of arguments are single tokens with a number, whose meaning is left open; the statements are calls, the use of a name as a statement, and those above; return, defer, match, for and goto are not here (C32, C33, C65, C66, C75); words that start other statements do not occur; the counter of repeat does not overflow.
* `LspIO_Model.v`: Model of the main loop of the language server, src/lsp/lsp_main.c:9-65. The input is the list of bytes standard input delivers before its end; the result is the list of C strings handed to handle_request, in order. atoi of a number that does not fit in an int is undefined (C11 7.22.1p1): [UB]. Simplification: malloc of at most 10 MB succeeds.
* `LspIndex_Model.v`: Model of the semantic token encoding (src/lsp/lsp_semantic.c:22-86, 316-368) and of the position index of the language server (src/lsp/lsp_index.c:32-113). Simplifications: the tokens pushed while walking the tree are a parameter; ints are unbounded (positions are line and column numbers of a source file).
* `Macro_Model.v`: Model of plugin blocks: [name! { ... }] and [plugin name ... end] in src/parser/parser_stmt.c, the table of plugins in src/plugins/plugin_manager.c and the imported names in src/parser/parser_utils.c. The lexer is the one of Lexer_Model.v. The arrays are buffers with their bounds: a write outside, or reading a byte never written, is [UB]. A plugin is its name and the function from the text of the block to the text put in its place; opening a library file ([z_dlopen], [z_dlsym] and the plugin's own [z_plugin_init]) is an oracle [load] from the path to the plugin. [zpanic_at] and [exit(1)] are [Panic]. The temporary file that captures the output of the plugin is not modelled.
* `Mangle_Model.v`: Model of the names given to instances of generic types: src/parser/parser_utils.c:2214-2253 (sanitize_mangled_name), 2256-2288 (unmangle_ptr_suffix), 3108-3121 and 3274-3295 (instantiate_generic, instantiate_generic_multi: the name and the search for an earlier instance). Strings are lists of bytes without NUL. The fixed buffer char m[256] is modelled: a name that does not fit, with its terminator, is [UB].
* `Map_Model.v`: Model of std/map.zc. [hash] is a parameter: the results hold for every hash function; [fnv1a] is the one in the code.
* `Match_Model.v`: The match statement: the text the parser makes of an arm's patterns (src/parser/parser_stmt.c:182-345), the condition generated from that text (src/codegen/codegen_stmt.c:13-155, 194-371) and what the generated C does. Not modelled: the bodies and bindings of arms, ref bindings (the conditions are the same with the matched value behind a pointer), match as part of an expression (parser_expr.c:1765-1910: one token per arm, then the same code).
* `Mixin_Model.v`: Struct composition and method calls (src/parser/parser_struct.c:795-1066, src/codegen/codegen.c:523-727). Modelled: the fields and the list of mixins parse_struct makes of the members of a struct (with the array of eight names), and the C call a method call becomes: which function, and how the receiver is passed. Simplified: types are their names; generics, vectors, the enum variants and len of a call (codegen.c:452-520) are left out; infer_type is given by the receiver.
* `Move_Model.v`: The move checker (src/analysis/move_check.c; src/analysis/typecheck.c:31-165, 250-300, 590-680, 797-834, 914-983, 1000-1100, 1106-1250, 1368-1560). Names are numbers. Conditions and literals are not looked at. Not modelled: the errors for moving out of a pointer, a field or an element and all type errors (with them even fewer programs are accepted), global variables, goto, computed values.
* `Net_Model.v`: Model of the sockets of the library: std/net/tcp.zc, std/net/udp.zc, std/net/socket.zc and the wrappers in std/sys/net.zc (POSIX side). Simplifications: a socket is its descriptor; addresses that parse are a flag; the kernel's choices (the number of a new descriptor, failures, how many bytes one read or write moves) are inputs. No DNS, no signals: a write to a closed connection is an error here.
* `Opaque_Model.v`: Model of opaque structs and opaque type aliases: the checks at member accesses and struct literals (parser_expr.c:2616-2629, 5205-5229, 5259-5283, 6037-6062), at declarations with a type (parser_decl.c:678-727) and between aliases (parser_expr.c:3-39), and the struct made of a generic one (parser_utils.c:3153-3176). [Panic]: an error message. Simplification: aliases that are not opaque have been resolved (parser_type.c:54), so a struct type has the name of its definition; every alias name belongs to one file.
* `Oper_Model.v`: Model of operators and methods on structs: the choice of the method (get_operator_method, parser_expr.c:4339-4411; 5394-5430, 6704-6752), the passing of the operands (4965-5025, 5480-5530, 6758-6846), compound assignment (6508-6604), the C code (codegen.c:258-343, 1393-1400, 1420-1425, 1788-1796) and what that code does. Simplifications: types are numbers, structs by name and pointers to structs, without generics and aliases; a method call by name has no arguments besides the object; the target of a compound assignment is a variable; C evaluates arguments from left to right; constants, arithmetic and the bodies of functions are arbitrary.
* `Ops_Model.v`: Model of the code generated for expressions with assignments, compound assignments, ?? and ??=: parser_expr.c:6508-6590 (compound operators are rewritten), codegen.c:232-258 and 407-430. Simplifications: values are integers; an array access stands for a C index and for the get and set calls of an overloaded index (parser_expr.c:6593-6665), which evaluate the index alike; a call stands for any function the program calls and may change every variable that is not a temporary of the generated code. C leaves the order of the operands of an operator and of an assignment open: it is a parameter.
* `Option_Model.v`: Model of Option<T> and Result<T> holding values of a type that implements Drop: std/option.zc, std/result.zc (the functions the two share are the same up to the name of the flag and the message of the panic; err is a borrowed string and plays no part). What the compiler adds around them: a variable or parameter of type T is dropped at the end of its scope unless it was moved (Raii_Model.v); an instance of a generic struct never gets drop glue (C37_instance_refuted), so an Option going out of scope drops nothing, and passing one copies it (codegen_utils.c:952-984). Simplification: the calls of a program are a list of operations on numbered options and numbered variables of type T; the objects are numbered in the order of creation.
* `Path_Model.v`: Model of std/path.zc on top of the String model.
* `Pratt_Model.v`: Model of the expression parser, src/parser/parser_expr.c: get_token_precedence, parse_primary and parse_expr_prec, on the sequence of tokens (Lexer_Model.v has the lexer). Simplifications. A [TVar] is an identifier that is none of the words parse_primary treats specially (fn, if, match, typeof, sizeof, va_*, readln); a [TInt] is an integer literal. Operands have no types with overloaded operators or methods, and symbol-table effects (move tracking, warnings) are left out: they do not influence how operators group. Wherever the code goes on to something that is not modelled (strings, lambdas, generics, tuples, slices, struct literals, named arguments, macros, paths) the model answers [Other]. Whether the tokens after a "<" read as types followed by ">" (the speculative parse at 2296-2318 and 6188-6213) is the parameter [type_list].
* `Print_Model.v`: Print statements: the C statements generated for the string of print, println, eprint and eprintln and of their shorthands (src/parser/parser_stmt.c, src/parser/parser_expr.c) and what these do at run time.
* `Process_Model.v`: Model of std/process.zc: building the command line, collecting a child's output. Not modelled: freeing, and read errors of the pipe.
* `Queue_Model.v`: Model of std/queue.zc. Sizes are [nat] (see Vec_Model); malloc succeeds.
* `Raii_Model.v`: The code generated for variables whose type implements Drop: drop flags, moves, and the drops at the end of scopes and before jumps. src/codegen/codegen_stmt.c:783-826 (parameters, function end), 951-963 (blocks), 965-1135 (let), 1192-1281 (while, break, continue), 1558-1685 (return); src/codegen/codegen_utils.c:903-984 (moves); src/codegen/codegen.c:410-434 (assignment), 920-930 (arguments). Every variable, parameter and result of the model has a type that implements Drop; other variables play no part. An object is what a constructor creates; a variable holds one, or nothing when it was zeroed. Not modelled: members, captured variables, global variables, user-written defers (see Defer_Model), goto, match, for loops.
* `Range_Model.v`: Range loops and repeat (src/parser/parser_stmt.c:1186-1262 parse_for, 542-552 parse_repeat; src/codegen/codegen_stmt.c:1319-1378). The generated C loop is run by C's rules for integers of 8 to 64 bits; converting to a signed type that is too small wraps, as gcc and clang define it. The body and the bounds are parameters.
* `Readln_Model.v`: Model of readln, std/io.zc:83-122. Standard input is the list of bytes still to be read; memory allocation succeeds; sizes are unbounded (a line of 2^63 bytes would be needed for cap * 2 to wrap).
* `Regex_Model.v`: Model of std/regex.zc around the TRE library. A compiled pattern is its answer to tre_regexec on a text: the bounds of the match found, or [None]. Not modelled: TRE itself and freeing.
* `Rename_Model.v`: Model of the project index of the language server and of the requests that use it: src/lsp/lsp_index.c:45-260 (the walk that finds definitions and references, the search by position), src/lsp/lsp_project.c:105-316 (the files, definitions and references by name), src/lsp/lsp_analysis.c:142-236 (go to definition), 811-886 (references), 1013-1134 (rename), and cJSON_GetObjectItem (cJSON.c:1968-2008), which compares names without regard to case. Simplifications: strings have no NUL; memory suffices; a file is its address and its index (parsing is given: a file is updated with a tree). [def_uri] is not read by any function: it says, for the specification, in which file the definition of a name is.
* `Repl_Model.v`: Model of the REPL session: src/repl/repl.c:14-67 (is_header_line), 991-1049 (repl_get_code), 1051-2533 (run_repl). The line editor is [Edit_Model.readline]. The array of history entries and the input buffer are heap blocks that the loop frees: using one after that, or freeing it twice, is [UB]; so is writing past a buffer. Given: what the parser says of a statement, whether the compiler calls an expression void, the exit status of a program, and the files. Simplifications: memory suffices, numbers fit in an int, temporary files can be written, Up in the editor may read entries of a freed history, and the commands :show, :edit, :vars, :funcs, :structs, :type, :time, :c leave nothing but a mark ([Other]).
* `Ret_Model.v`: The missing-return check (src/analysis/typecheck.c:834-951). Expressions, actions and patterns are numbers whose meaning is left open. One kind of statement stands for each group of statements that the check treats alike: [IfThen] for if without else, unless, guard and guard let; [While] for while, for, for over a range, repeat and loop; [Prim] for declarations, expressions, assert, defer and so on.
* `Rpc_Model.v`: Model of the dispatch of the language server: src/lsp/json_rpc.c:19-289 (handle_request), with the parts of lsp_analysis.c that decide whether there is a response (59-140, 142-153, 238-247, 408-416, 778-792, 813-820, 1060-1085), lsp_project.c:10-35, 105-186 (the files), and cJSON_GetObjectItem (cJSON.c:1968-2008). A message is a JSON value (cJSON_Parse is given); numbers are integers. What a handler puts in its result is given ([e_answer]), as are the files a directory has ([e_scan]). A file is its address and its text. Simplifications: memory suffices; the parser returns for every text; contentChanges is an array.
* `Rx_Model.v`: The regex plugin (plugins/regex.c): a pattern becomes a C function that tells whether a text matches. Modelled: regex_transpile and emit_match_logic: which statements are written for a pattern, and what the function of these statements returns for a text. A cursor into the text is the list of bytes left; moving past its terminator is undefined. A function with a quote or a backslash between single quotes is not valid C: its [run] is [Panic], a build that fails. Simplified: the text of the C statements is left out, they are values; bytes above 127 in a pattern are taken as they are (as gcc does).
* `Scan_Model.v`: Model of reading input into variables: readln(x, y) and ? "prompt" (x, y); README.md 722-736, src/parser/parser_expr.c 2845-2945 and 4632-4742 (the format made from the types of the variables), src/codegen/codegen_decl.c 178-201 (the function that reads) and ISO C 7.21.6.2 (sscanf, as far as the formats made need it). Simplified: the printing of the prompt is that of C69; variables are plain variables of a built-in type (an enumeration is left out); characters are bytes in the C locale; how the text of a floating-point number is read is a parameter; memory allocation succeeds.
* `Scope_Model.v`: Model of the symbol table, src/parser/parser_utils.c:436-605. A scope is the list of its symbols, newest first; the current scope is the head of a list that continues with its parents ([[]]: current_scope is NULL). A symbol is its name and the rest of its record, of any type [A]. [warned] counts warn_shadowing.
* `Semtok_Model.v`: Model of the semantic tokens of the language server: src/lsp/lsp_semantic.c:9-360 (the walk over the syntax tree, the sorting, the relative encoding). A null pointer is [NNull]; a list of nodes linked by next is a list. What qsort gives is not fixed by C when elements compare equal: it is any sorted rearrangement ([qsorted]). Simplifications: memory suffices and the number of tokens fits an int, so the array of tokens is a list; the numbers go through cJSON unchanged; attributes (93-101, a loop without effect) are left out.
* `Set_Model.v`: Model of std/set.zc. [eqb] is the [==] of line 89, [hash] the FNV-1a hash of the bytes of a value (lines 6-16); results hold for every [hash].
* `Sha1_Model.v`: Model of std/crypto/sha1.zc. u32 values are [N] below 2^32.
* `Slice_Model.v`: Model of std/slice.zc:4-66 (Slice, SliceIter) and std/mem.zc:1-66 (alloc_n, zalloc, Box, mem_zero, mem_copy, swap). Memory is a list of live or freed blocks of elements of one type T of [sz] bytes; a pointer is a block and an index; null is [None]. Reading or writing outside a live block is [UB], so is freeing a block twice. usize arithmetic wraps at 2^64. malloc and calloc succeed. Simplification: memcpy and memset of whole elements; a block of n bytes holds n / sz of them.
* `Sql_Model.v`: Model of the sql plugin, plugins/sql.c: the statements of a block become a statement expression of C, and what that does when it runs. The text is a C string (no byte 0, bytes below 128). The C code is kept as a tree: what fprintf writes for it is in the comments. Simplified: the values are C expressions without effects, given by [ev] (None: the compiler rejects the text); int of C is given by [dec], its text; column names are identifiers of C if not empty; memory suffices.
* `Stack_Model.v`: Model of std/stack.zc.
* `StrLit_Model.v`: String literals: from the token to the C string literal (src/parser/parser_expr.c, src/codegen/codegen.c). Bytes of the source are not zero (it is read as a C string).
* `String_Model.v`: Model of std/string.zc on top of the Vec model. A [char] is a byte value ([N] below 256). A [char*] argument is the list of bytes in memory at that address; the C functions called on it see it up to the first NUL ([cstr]). Strings are assumed shorter than 2^31 bytes: the counters of the loops in new, append and append_c are C ints, and ends_with casts an offset to int (line 163).
* `Subst_Model.v`: Model of the substitution of a type parameter in raw text: src/parser/parser_utils.c:1209-1212 (is_ident_char), 1227-1365 (replace_in_string). Strings are lists of bytes without NUL. Both passes are modelled: the first counts the replacements and sizes the buffer, the second writes into it; a write beyond the buffer is [UB]. An empty word makes both passes loop (the index goes back by one): [Fuel]. Simplifications: ints do not overflow; isalnum is that of the C locale.
* `Testing_Model.v`: Model of test blocks and assertions: parser_stmt.c:962-1020 (parse_test, parse_assert), codegen_stmt.c:827-839 (the assert statement), codegen_decl.c:156-159 (the assert macro), 1136-1168 (emit_tests_and_runner), codegen_main.c:704, 803-820 (main). A statement of a test is a change of the state of the program, a deferred one, or an assertion; what the code of the statements does is given. [UB] is the undefined behaviour of fprintf with a conversion and no argument. Simplifications: the bytes of a message are those the C string has; stderr can be written; a test has no return; cfg conditions are left out.
* `Thread_Model.v`: Threads and mutexes of the standard library (std/thread.zc), running on a machine that interleaves the steps of the threads in any order. The functions of the library are modelled call by call; malloc, free, memcpy and the pthread functions are instructions of the machine and behave as POSIX says, with undefined behaviour where POSIX leaves it undefined. malloc and pthread_create may fail at any time. Reads and writes of shared variables are sequentially consistent steps, and two conflicting ones that are both about to happen (a data race) are undefined behaviour. The process is taken to live until its last thread has ended.
* `Topo_Model.v`: Model of the ordering of type definitions in the generated C, src/codegen/codegen_main.c:8-260. The field and payload types are the strings the code looks at (for payloads the result of type_to_string). Simplification: count * count does not overflow an int.
* `Trait_Model.v`: Model of traits: the parameter text of a method (parser_utils.c:3942-4238), the function that a trait object's method call goes through (codegen_decl.c:611-735, with extract_call_args and parse_original_method_name, codegen_utils.c:654-715), the table of each implementation (codegen_decl.c:996-1133) and the making of a trait object (parser_decl.c:753-770, parser_expr.c:3016-3125). Simplifications: no generic traits or structs, no default or variable arguments, no function-pointer parameters and no @ctype; method bodies are numbers; a method is called with values for its parameters other than self.
* `Try_Model.v`: Model of the code generated for the try operator, `e?`: codegen.c:1302-1371, within the code for blocks, returns and deferred statements (codegen_stmt.c:951-963, 1558-1685). Simplifications: statements, conditions and expressions are numbers with any meaning; a deferred statement stands for a user's defer and for the drop of a variable, which are emitted at the same places (Defer_Model.v, Raii_Model.v: also for loops, which are left out here); payloads are integers.
* `Tuple_Model.v`: Model of tuples: the signature and the name of a tuple type (parser_type.c:742-775, parser_struct.c:1131-1175, parser_expr.c:3738-3785), the struct made for it (parser_utils.c:996-1060, codegen_decl.c:1240-1264), where it stands in the output (codegen_decl.c:1219-1291), tuple literals without a declared type (parser_expr.c:3785-3830) and with one (parser_type.c:1041-1101), and destructuring (codegen_stmt.c:858-864, 926-941). Strings are lists of bytes without NUL; writing beyond a fixed array is [UB]; zpanic_at is [Panic]. Simplifications: the name of an element type is what type_to_string or infer_type gave for it; an element of an untyped literal carries the text sprintf prints for its value; memory for xmalloc and xrealloc suffices.
* `Types_Model.v`: Model of type equality, src/ast/ast.c:97-218 (is_char_ptr, is_integer_type, is_float_type, type_eq). Simplifications: the two types are trees that share no node (the test a == b of line 156 is then false everywhere); a pointer, array, vector and alias has an inner type, a struct, generic and alias has a name.
* `Url_Model.v`: Model of std/net/url.zc on top of the String model. Freeing of intermediate strings is not modelled.
* `Vars_Model.v`: Model of variable declarations in functions (codegen_stmt.c:963-1140, is_int_type 152-191), of static and autofree variables (parser_stmt.c:2336-2352, 2491-2502, codegen_stmt.c:964-971, codegen_decl.c:152-155) and of global variables (codegen_decl.c:746-793). [Panic]: the C compiler rejects the text. [UB]: a variable without a value is read, or memory is freed that is not a live block. Simplification: floats and bools are numbers; the drop glue itself is not run here (C64).
* `Vec_Model.v`: Model of std/vec.zc. [usize] indices are [nat]: the model is for vectors whose byte size fits the address space (larger allocations cannot succeed); the exception is [with_capacity_wrap] below, where the multiplication is wrapped. malloc/realloc are assumed to succeed.
* `WebSocket_Model.v`: Model of std/net/websocket.zc and of the stream calls it uses (std/net/tcp.zc:14-36).
* `Zen_Model.v`: Model of src/zen/zen_facts.c: the tips shown while compiling. Simplified: the file of facts is given as the members of its entries that are strings (None: no file, or no array in it; its text is C97); what rand gives is part of the event; a tip is kept as its place, its text and its address (the lines written for a place are those of C119).
Not modelled at all:

* Generic enums, generic functions with several parameters (`parser_utils.c` copy of trees beyond C87), type
  inference (`infer_type`), arrays, vectors, casts and lambdas in `typecheck.c`, the statement and declaration parser as
  a whole (the expression grammar is modelled; so are `match`, directives, comptime and plugin blocks),
  array literals, CUDA, Objective-C and C++ output.
* Floating point, memory words and strings of the forth plugin, defun and print of the lisp plugin; the colours and `:show`, `:type`, `:time` of the REPL; hover
  texts of the language server; the documentation.
* Several mutexes at once, weak memory orders, DNS, SIMD, regular-expression matching itself (the TRE library).
* The C compiler, the C library and the operating system: where generated C is given a meaning (C31-C33, C48, C55-C57,
  C64-C66, C69, C70, C102, C103), the meaning is a small semantics in the model or its specification file.
* Apart from C121, printing is taken to write its text. All printing of the compiler goes through `colors.c`, which is
  the same only for texts without an escape byte (C121_same); so every claim about generated C is for such programs.

## 5. Print Assumptions

Every property theorem is followed by `Print Assumptions` in its file. For all 826 theorems named in MANIFEST.json
the answer is

    Closed under the global context

so no axiom is used, neither of the standard library nor of our own. (The context `coqchk` prints for the whole
library lists parameters of the module type `Coq.ssr.ssrunder.Under_rel`, which belong to the ssreflect plugin's
library file loaded by the standard library; no theorem depends on them.)
