{"id": "C01", "title": "Vec behaves as a list under every history of operations", "statement": "Starting from Vec::new or Vec::with_capacity, after any sequence of push, insert, pop, pop_opt, remove, append, set, clear, get, first, last, length, is_empty the vector's observable contents are exactly those of a mathematical list under the corresponding list operations; a call panics exactly when its documented precondition fails (index out of range, empty pop); no call reads or writes outside the allocated buffer or reads an uninitialised slot.", "quantifier": "all element types, all element values, all finite operation histories", "why_tests_cant": "capacity growth, shifting and index arithmetic interact over unboundedly long histories; tests only exercise some growth boundaries", "anchors": ["std/vec.zc: Vec.push, Vec.insert, Vec.pop, Vec.remove, Vec.append, Vec.get, Vec.set, Vec.grow, Vec.grow_to_fit"]}
{"id": "C02", "title": "Vec.reverse reverses in place", "statement": "v.reverse() leaves v holding the mathematical reversal of its previous contents and is memory safe, for vectors of every length including the empty one.", "quantifier": "all vectors", "why_tests_cant": "the loop bound is computed in unsigned arithmetic; the failing length is a boundary case", "anchors": ["std/vec.zc: Vec.reverse"]}
{"id": "C03", "title": "Vec iteration visits every element once, in order", "statement": "Iterating a vector (iterator/next, is_none, unwrap) yields exactly its elements, each once, in index order, and then reports the end, without touching memory outside the buffer.", "quantifier": "all vectors", "why_tests_cant": "must hold for every length and every content", "anchors": ["std/vec.zc: VecIter.next, VecIter.iterator, VecIterResult"]}
{"id": "C04", "title": "Queue is FIFO under every history", "statement": "For any sequence of push, pop, length, is_empty, clear, values leave the queue in exactly the order they entered it, through every wrap-around of the ring buffer and every growth, with no out-of-bounds or uninitialised access.", "quantifier": "all element values, all finite histories", "why_tests_cant": "head/tail wrap-around combined with growth at an arbitrary head position has unboundedly many configurations", "anchors": ["std/queue.zc: Queue.push, Queue.pop, Queue._grow"]}
{"id": "C05", "title": "A cloned queue behaves like the original", "statement": "After c = q.clone(), any further history of operations on c returns what it would return on q, and is memory safe.", "quantifier": "all reachable queues, all continuations", "why_tests_cant": "the defect needs a specific state (full) plus a specific continuation (pop, push)", "anchors": ["std/queue.zc: Queue.clone"]}
{"id": "C06", "title": "Stack is LIFO under every history", "statement": "For any sequence of push, pop, length, is_empty, clear (starting from Stack::new), values leave the stack in reverse order of entry and all accesses are in bounds; a clone behaves like the original.", "quantifier": "all element values, all finite histories", "why_tests_cant": "growth interacts with history; clone of an empty stack is a boundary state", "anchors": ["std/stack.zc: Stack.push, Stack.pop, Stack.clone"]}
{"id": "C07", "title": "Map agrees with a mathematical finite map", "statement": "Starting from Map::new, for any sequence of put, get, contains, remove, length, is_empty that completes, every result equals that of a finite map from strings to values under the same sequence, for every hash outcome (collisions included) and through every resize.", "quantifier": "all string keys, all values, all finite histories", "why_tests_cant": "open addressing with tombstones: the failing configurations depend on hash collisions and on the whole history", "anchors": ["std/map.zc: Map.put, Map.get, Map.contains, Map.remove, Map._resize, _map_hash_str"]}
{"id": "C08", "title": "Every Map operation terminates", "statement": "Every call of put, get, contains, remove on a map reachable from Map::new returns.", "quantifier": "all reachable maps, all keys", "why_tests_cant": "tombstones accumulate over histories longer than tests use", "anchors": ["std/map.zc: Map.put, Map.remove, Map.get"]}
{"id": "C09", "title": "Map iteration enumerates the live entries", "statement": "Iterating a map yields each live key with its current value exactly once and nothing else, then reports the end, and is memory safe.", "quantifier": "all reachable maps including the empty one", "why_tests_cant": "depends on the layout of live slots and tombstones", "anchors": ["std/map.zc: MapIter.next"]}
{"id": "C10", "title": "Set agrees with a mathematical finite set and always terminates", "statement": "Starting from Set::new, for any sequence of add, contains, remove, clear, length, is_empty every result equals that of a finite set, and every call terminates.", "quantifier": "all values, all hash outcomes, all finite histories", "why_tests_cant": "tombstone reuse and probe chains depend on the full history", "anchors": ["std/set.zc: Set.add, Set.contains, Set.remove, Set._resize"]}
{"id": "C11", "title": "String operations keep the terminator and compute the byte-string result", "statement": "For strings built by String::new/from and any sequence of append, append_c, add, substring, reserve, the string always holds exactly one NUL, at the end, length() is the number of bytes before it, and the bytes are those of the corresponding list operation.", "quantifier": "all NUL-free byte strings, all operation sequences", "why_tests_cant": "off-by-one on the terminator shows only for particular interleavings (for example appending a string to itself)", "anchors": ["std/string.zc: String.append, String.append_c, String.add, String.substring, String.length"]}
{"id": "C12", "title": "String search functions meet their mathematical definition", "statement": "find returns the least index at which the byte occurs (None if absent); contains, starts_with, ends_with, eq decide occurrence, prefix, suffix, equality.", "quantifier": "all strings and arguments", "why_tests_cant": "quantifies over all strings", "anchors": ["std/string.zc: String.find, String.contains, String.starts_with, String.ends_with, String.eq"]}
{"id": "C13", "title": "split and join are inverse; trim and replace are exact", "statement": "s.split(d) returns the maximal d-free pieces of s in order, so that joining them with d gives s back and no piece contains d; trim removes exactly the leading and trailing space, tab, newline and carriage return; replace substitutes the leftmost non-overlapping occurrences of a non-empty target.", "quantifier": "all strings, delimiters, targets", "why_tests_cant": "boundary delimiters, empty pieces and overlaps over unbounded strings", "anchors": ["std/string.zc: String.split, String.trim, String.replace"]}
{"id": "C14", "title": "UTF-8 functions count and index code points", "statement": "On any well-formed UTF-8 string, utf8_len is the number of code points and utf8_at(i) the encoding of the i-th, and neither panics; on arbitrary bytes they never fail.", "quantifier": "all strings", "why_tests_cant": "all byte sequences, including truncated multi-byte sequences", "anchors": ["std/string.zc: String.utf8_len, String.utf8_at, String.utf8_seq_len"]}
{"id": "C15", "title": "Base64 encoding is RFC 4648", "statement": "encode(b) is the RFC 4648 base64 text of b: its length is 4*ceil(n/3), all characters are in the alphabet or padding, and an independent decoder recovers b.", "quantifier": "all byte strings", "why_tests_cant": "all lengths modulo 3 and all contents", "anchors": ["std/encoding/base64.zc: Base64.encode"]}
{"id": "C16", "title": "SHA-1 is FIPS 180-4 and independent of chunking", "statement": "Feeding a message in any split into update calls and finalising gives the FIPS 180-4 SHA-1 digest of the concatenation.", "quantifier": "all messages shorter than 2^61 bytes, all splits", "why_tests_cant": "buffer boundary conditions at every offset, 2^512 block states", "anchors": ["std/crypto/sha1.zc: Sha1.update, Sha1.final, Sha1._transform"]}
{"id": "C17", "title": "WebSocket frames round-trip", "statement": "A text sent with send and read with recv by the peer is delivered unchanged, for all three length encodings, masked or not.", "quantifier": "all texts, all masking keys", "why_tests_cant": "length encodings switch at 126 and 65536; contents include NUL", "anchors": ["std/net/websocket.zc: WebSocket.send, WebSocket.recv"]}
{"id": "C18", "title": "WebSocket handshake key is RFC 6455", "statement": "The accept header sent for client key k is base64(sha1(k ++ GUID)).", "quantifier": "all keys", "why_tests_cant": "depends on the correctness of SHA-1 and base64 on every input", "anchors": ["std/net/websocket.zc: WebSocket handshake", "std/crypto/sha1.zc", "std/encoding/base64.zc"]}
{"id": "C19", "title": "JSON stringify/parse round trip", "statement": "parse(stringify(v)) succeeds and gives back a value equal to v.", "quantifier": "all JSON values", "why_tests_cant": "recursive over unboundedly nested values and all string contents", "anchors": ["std/json.zc: JsonValue.parse, JsonValue.stringify, skip_ws, parse_value"]}
{"id": "C20", "title": "JSON parsing is memory safe and total", "statement": "Parsing any NUL-terminated text returns a value or an error and never reads past the terminator nor writes outside its buffers.", "quantifier": "all texts", "why_tests_cant": "all inputs, arbitrarily long strings and arbitrary truncation", "anchors": ["std/json.zc: parse_value, parse string buffer"]}
{"id": "C21", "title": "Path functions", "statement": "join inserts exactly one separator when needed; parent, file_name and extension of a joined path recover the components.", "quantifier": "all paths", "why_tests_cant": "separator corner cases over all strings", "anchors": ["std/path.zc: Path.join, Path.parent, Path.file_name, Path.extension"]}
{"id": "C22", "title": "URL parsing recovers the components", "statement": "Parsing scheme://host[:port][path][?query] recovers scheme, host, port, path and query, with the scheme's default port and path / when absent.", "quantifier": "all well-formed components", "why_tests_cant": "all combinations of optional parts and all texts", "anchors": ["std/net/url.zc: Url.parse"]}
{"id": "C23", "title": "Arena allocations are aligned, in bounds and pairwise disjoint", "statement": "Every successful allocation returns an 8-aligned range inside the arena, disjoint from all live earlier allocations; when space is insufficient the allocation fails. Restoring a mark gives back everything allocated since it was taken, and reset everything.", "quantifier": "all sequences of alloc, save, restore, reset with all sizes", "why_tests_cant": "size arithmetic overflow and arbitrary interleavings with save/restore", "anchors": ["std/arena.zc: Arena.alloc_bytes, Arena.alloc_n, Arena.save, Arena.restore, Arena.reset"]}
{"id": "C24", "title": "readln returns exactly the next line", "statement": "readln returns the bytes up to the next newline (or the end of input), consumes exactly those and the newline, returns null only at end of input, and is memory safe for lines of every length.", "quantifier": "all input streams", "why_tests_cant": "buffer growth at unbounded line lengths", "anchors": ["std/io.zc: readln"]}
{"id": "C25", "title": "Constant folding agrees with C arithmetic", "statement": "Whenever the constant evaluator succeeds, the value is the one the C expression has; it never crashes or has undefined behaviour.", "quantifier": "all constant expressions", "why_tests_cant": "all 64-bit operand combinations", "anchors": ["src/analysis/const_fold.c: eval_const_int_expr"]}
{"id": "C26", "title": "Lexing covers the source exactly and terminates", "statement": "Repeatedly taking tokens reaches the end of input in at most as many steps as there are bytes; token texts are consecutive, non-overlapping substrings of the source, separated only by whitespace and comments.", "quantifier": "all source texts", "why_tests_cant": "all byte strings, including unterminated literals at end of file", "anchors": ["src/lexer/token.c: lexer_next, lexer_init"]}
{"id": "C27", "title": "Token lines are right", "statement": "The line reported for a token is one plus the number of newlines before it in the source.", "quantifier": "all source texts", "why_tests_cant": "multi-line tokens, comments and directives in any order", "anchors": ["src/lexer/token.c: lexer_next"]}
{"id": "C28", "title": "Operators are lexed by maximal munch", "statement": "At an operator character the token is the longest operator of the language that is a prefix of the remaining input.", "quantifier": "all source texts", "why_tests_cant": "all operator adjacency combinations", "anchors": ["src/lexer/token.c: lexer_next"]}
{"id": "C29", "title": "Integer literals denote their value", "statement": "An integer literal in decimal, hexadecimal, octal or binary evaluates to its mathematical value.", "quantifier": "all literals", "why_tests_cant": "unbounded digit strings", "anchors": ["src/parser/parser_expr.c: parse_int_literal, is_valid_int_suffix"]}
{"id": "C30", "title": "Binary operators group by precedence, left to right", "statement": "Printing an expression tree with the parentheses required by the precedence table and parsing it again gives the same tree; operators of the same precedence group to the left.", "quantifier": "all expression trees", "why_tests_cant": "trees of unbounded size", "anchors": ["src/parser/parser_expr.c: get_token_precedence, parse_expr_prec"]}
{"id": "C31", "title": "The move checker has no false negatives", "statement": "If a function is accepted, no execution of it uses a non-Copy local after it was moved and before it was reassigned.", "quantifier": "all programs, all executions", "why_tests_cant": "all control-flow paths of all programs", "anchors": ["src/analysis/move_check.c: move_state_merge, mark_symbol_moved, check_use_validity", "src/analysis/typecheck.c: check_node, check_move_for_rvalue"]}
{"id": "C32", "title": "The missing-return check is sound", "statement": "If a function body is accepted as always returning, no execution falls off its end.", "quantifier": "all function bodies, all executions", "why_tests_cant": "all control-flow paths of all programs", "anchors": ["src/analysis/typecheck.c: block_always_returns, stmt_always_returns"]}
{"id": "C33", "title": "Deferred statements run exactly once, last-in first-out, on every exit path", "statement": "In the generated C, when a block is left by falling through, break, continue or return, the deferred statements registered in the scopes being left run exactly once each, most recent first, after the return value has been computed; nothing else about the execution changes.", "quantifier": "all programs of the statement language, all executions", "why_tests_cant": "all nestings of loops, blocks, defers and exits", "anchors": ["src/codegen/codegen_stmt.c: NODE_BLOCK, NODE_DEFER, NODE_BREAK, NODE_CONTINUE, NODE_RETURN, NODE_GUARD, NODE_WHILE", "src/codegen/codegen_utils.c: defer_stack, loop_defer_boundary"]}
{"id": "C34", "title": "Spell-check distance is the edit distance", "statement": "The distance used for suggestions equals the Levenshtein edit distance whenever the lengths differ by at most 3.", "quantifier": "all pairs of identifiers", "why_tests_cant": "all strings", "anchors": ["src/utils/utils.c: levenshtein"]}
{"id": "C35", "title": "The suggested identifier is a nearest visible one", "statement": "A 'did you mean' suggestion is a visible symbol at distance at most 3 and no visible symbol is closer; a suggestion is made whenever such a symbol exists.", "quantifier": "all scopes and names", "why_tests_cant": "all symbol tables", "anchors": ["src/parser/parser_utils.c: find_similar_symbol"]}
{"id": "C36", "title": "Struct definitions are emitted in dependency order", "statement": "The emitted order is a permutation of the declared types, and if by-value containment is acyclic every type is emitted after all types it contains by value.", "quantifier": "all sets of declarations", "why_tests_cant": "all dependency graphs", "anchors": ["src/codegen/codegen_main.c: topo_sort_structs, struct_depends_on"]}
{"id": "C37", "title": "Drop is propagated to exactly the types that need it", "statement": "After analysis a struct is marked Drop iff it declares Drop or transitively contains by value a struct that does; the analysis terminates.", "quantifier": "all sets of declarations, including recursive ones", "why_tests_cant": "all containment graphs", "anchors": ["src/parser/parser_utils.c: propagate_drop_traits"]}
{"id": "C38", "title": "Symbol lookup is lexically scoped", "statement": "Looking a name up returns the most recent declaration in the innermost enclosing scope, and leaving a scope restores every previous binding.", "quantifier": "all sequences of scope entries, exits and declarations", "why_tests_cant": "all nestings", "anchors": ["src/parser/parser_utils.c: enter_scope, exit_scope, add_symbol_with_token, find_symbol_entry"]}
{"id": "C39", "title": "Compiler allocations never overlap", "statement": "Every allocation is 8-aligned and disjoint from every other; resizing keeps the old contents.", "quantifier": "all allocation histories", "why_tests_cant": "block boundaries at every offset", "anchors": ["src/utils/utils.c: xmalloc, xrealloc, xcalloc"]}
{"id": "C40", "title": "Compiler flags survive quoting and re-splitting", "statement": "A flag appended to the flag string and split again for the C compiler comes back as one unchanged argument, and no flag is ever written past the end of its buffer.", "quantifier": "all lists of flags", "why_tests_cant": "all characters, all lengths and buffer positions", "anchors": ["src/utils/utils.c: append_flag", "src/main.c: main_append_flag", "src/utils/cmd.c: arg_list_add_from_string"]}
{"id": "C41", "title": "Build directives cannot inject shell commands", "statement": "Whatever a source file's build directives contain, every string handed to the shell consists only of 'pkg-config', its fixed options, and letters, digits, '-', '_', '.', and spaces.", "quantifier": "all source files", "why_tests_cant": "adversarial inputs", "anchors": ["src/utils/utils.c: scan_build_directives"]}
{"id": "C42", "title": "The language server frames messages correctly", "statement": "For any sequence of well-formed Content-Length framed messages the server dispatches exactly their bodies, in order, and stops at end of input.", "quantifier": "all message sequences", "why_tests_cant": "all header layouts and body contents", "anchors": ["src/lsp/lsp_main.c: lsp_main"]}
{"id": "C43", "title": "Semantic tokens decode to the sorted token list", "statement": "Decoding the relative encoding sent to the editor recovers the absolute positions of all distinct tokens in document order.", "quantifier": "all token sets", "why_tests_cant": "all positions", "anchors": ["src/lsp/lsp_semantic.c: lsp_semantic_tokens_full, compare_tokens, builder_push"]}
{"id": "C44", "title": "Position lookup finds an enclosing range", "statement": "Looking up a position returns a recorded range containing it, the most recently recorded one, and finds one whenever it exists.", "quantifier": "all indexes and positions", "why_tests_cant": "all sets of ranges", "anchors": ["src/lsp/lsp_index.c: lsp_find_at, lsp_index_add"]}
{"id": "C45", "title": "Type equality is an equivalence", "statement": "type_eq is reflexive, symmetric and transitive.", "quantifier": "all types", "why_tests_cant": "recursive over all types", "anchors": ["src/ast/ast.c: type_eq, is_integer_type"]}
{"id": "C46", "title": "Mangled names are valid C identifiers and distinct types get distinct names", "statement": "The mangled name of a generic argument contains only identifier characters, and different type arguments give different names.", "quantifier": "all type names", "why_tests_cant": "all strings", "anchors": ["src/parser/parser_utils.c: sanitize_mangled_name", "src/ast/ast.c: type_to_string"]}
{"id": "C47", "title": "Generic substitution replaces whole identifiers only", "statement": "Substituting a type parameter in raw text replaces exactly the occurrences that are whole identifiers outside string literals and changes nothing else.", "quantifier": "all texts, parameters and replacements", "why_tests_cant": "all texts", "anchors": ["src/parser/parser_utils.c: replace_in_string"]}
{"id": "C48", "title": "String literals are emitted with the right bytes", "statement": "The C string literal emitted for a source string denotes the same bytes as the source literal, and is syntactically closed.", "quantifier": "all string literals", "why_tests_cant": "all escapes and contents", "anchors": ["src/parser/parser_expr.c: escape_c_string"]}
{"id": "C49", "title": "Re-seeding the hash keeps maps usable", "statement": "Calling Time::randomize_hash at any point of a history does not change what maps answer.", "quantifier": "all histories with re-seeding at any point", "why_tests_cant": "interaction of a global with every live table", "anchors": ["std/time.zc: Time.randomize_hash", "std/core.zc: __zen_hash_seed", "std/map.zc: _map_hash_str"]}
{"id": "C50", "title": "Freeing a map releases all its keys", "statement": "After any history followed by free, every key string the map duplicated has been released.", "quantifier": "all histories", "why_tests_cant": "ownership over all histories and resizes", "anchors": ["std/map.zc: Map.put, Map._resize, Map.remove, Map.free"]}
{"id": "C51", "title": "JSON parsing implements RFC 8259", "statement": "Every valid JSON text is parsed to the value it denotes, and every other text is rejected.", "quantifier": "all texts", "why_tests_cant": "all nested texts with whitespace anywhere", "anchors": ["std/json.zc: JsonValue.parse, parse_value, skip_ws"]}
{"id": "C52", "title": "Token columns are right", "statement": "The column reported for a token is one plus the number of bytes between it and the start of its line.", "quantifier": "all source texts", "why_tests_cant": "multi-line tokens, comments and directives in any order", "anchors": ["src/lexer/token.c: lexer_next, skip_whitespace"]}
{"id": "C53", "title": "Words are whole, and keywords are exactly the reserved words", "statement": "A token that starts with a letter or underscore extends over the longest run of identifier characters, and is a keyword exactly when its text is one of the reserved words.", "quantifier": "all source texts", "why_tests_cant": "all words, including those with a keyword as a prefix", "anchors": ["src/lexer/token.c: lexer_next"]}
{"id": "C54", "title": "Literals extend to their closing delimiter", "statement": "A string token ends right after the first quote that closes it: unescaped for ordinary strings, the first triple quote for triple-quoted ones, and the first quote for raw ones; a decimal literal takes all its digits.", "quantifier": "all literal contents", "why_tests_cant": "all escape sequences and contents", "anchors": ["src/lexer/token.c: lexer_next"]}
{"id": "C55", "title": "Compound assignment evaluates its target once", "statement": "In l op= r the target l, including any call or increment written in it, is evaluated exactly once.", "quantifier": "all compound assignments", "why_tests_cant": "which side effects a target has is unbounded; a test with a plain variable never notices", "anchors": ["src/parser/parser_expr.c: parse_expr_prec (is_compound)"]}
{"id": "C56", "title": "An interpolated string is its pieces put together", "statement": "Evaluating an interpolated string yields the texts between the braces (doubled braces standing for one) and the texts of the inserted values, in order, whatever the values are; the result does not change later.", "quantifier": "all interpolated strings and all values inserted", "why_tests_cant": "all lengths of values, every split into pieces", "anchors": ["src/parser/parser_expr.c: create_fstring_block, parse_fstring_literal, parse_string_literal", "src/codegen/codegen_decl.c: _z_str, _z_arg"]}
{"id": "C57", "title": "A floating-point literal keeps its value", "statement": "The constant in the generated program has the value of the literal in the source.", "quantifier": "all decimal floating-point literals", "why_tests_cant": "infinitely many literals, of every magnitude", "anchors": ["src/parser/parser_expr.c: parse_float_literal", "src/codegen/codegen.c: codegen_literal_expr"]}
{"id": "C58", "title": "Build directives reach the C compiler", "statement": "The flags the build directives of a source file give, each on its own line and perhaps for one operating system, are passed to the C compiler, one argument each and in their order; nothing else in the source has an effect on the command line.", "quantifier": "all source files, operating systems and environments", "why_tests_cant": "every mix of code and directives, every value", "anchors": ["src/utils/utils.c: scan_build_directives, append_flag", "src/utils/cmd.c: arg_list_add_from_string"]}
{"id": "C59", "title": "HTTP server: handler and client see what was sent", "statement": "For each connection the server calls the handler with the method, path, headers and body of the request and sends the client one HTTP/1.1 message that carries the handler's status, headers and body; no bytes from the network crash it.", "quantifier": "all requests, all ways the network cuts them into segments, all handlers", "why_tests_cant": "every request and every segmentation of its bytes", "anchors": ["std/net/http.zc: Server.start, Request, Response", "std/net/tcp.zc: TcpStream.read, write"]}
{"id": "C60", "title": "fetch returns the server's answer", "statement": "fetch sends a GET request for the URL's path and query to the URL's host and returns the status, headers and body of the HTTP message the server answers with.", "quantifier": "all http URLs, all answers, all segmentations", "why_tests_cant": "every answer and every segmentation of its bytes", "anchors": ["std/net/http.zc: fetch", "std/net/url.zc: Url.parse"]}
{"id": "C61", "title": "Command runs the program with the arguments given", "statement": "Command runs the named program with exactly the arguments added, returns everything it prints, and reports the code it exits with.", "quantifier": "all program names, argument lists and outputs", "why_tests_cant": "every argument text, every output of every length", "anchors": ["std/process.zc: Command.arg, _build_cmd, output, status"]}
{"id": "C62", "title": "Regular expressions: find, count, split agree with the matches in the text", "statement": "match tells whether the text contains a match, match_full whether the whole text is one; find and find_at return the leftmost match (from a position) with its position in the text and its text; count is the number of successive matches and split the pieces between them; an invalid pattern matches nothing.", "quantifier": "all patterns, texts and positions", "why_tests_cant": "every pattern and text", "anchors": ["std/regex.zc: Regex.match, match_full, match_at, find, find_at, count, split, Match.as_string"]}
{"id": "C63", "title": "Files hold what was written", "statement": "Through any sequence of writes, appends, reads, size queries and removals, File::read_all returns exactly what was last written to the path, and a write that reports success is on the disk once the file is closed; read_dir lists every entry but . and .. with its name and whether it is a directory; no file makes reading unsafe.", "quantifier": "all histories of file operations, all contents, any buffering by the C library, any free space", "why_tests_cant": "every history and every content", "anchors": ["std/fs.zc: File.open, close, read_to_string, read_all, write_string, exists, metadata, remove_file, read_dir, current_dir", "std/sys/fs.zc"]}
{"id": "C64", "title": "Objects are destroyed exactly once", "statement": "An object whose type implements Drop is destroyed exactly once, whichever way control leaves the scopes of the variables that hold it (end of block, break, continue, return with or without a value) and however it was moved between variables, into calls and out of them; the drop method is never called for an object that was moved away or twice for the same one.", "quantifier": "all programs over such objects (let, declaration, assignment, move, nested calls and recursion, blocks, if, while, break, continue, return), all outcomes of conditions, cut off at any point", "why_tests_cant": "every program and every path through it", "anchors": ["src/codegen/codegen_stmt.c: NODE_FUNCTION, NODE_BLOCK, NODE_VAR_DECL, NODE_WHILE, NODE_BREAK, NODE_CONTINUE, NODE_RETURN", "src/codegen/codegen_utils.c: codegen_expression_with_move", "src/codegen/codegen.c: NODE_EXPR_CALL, assignment"]}
{"id": "C65", "title": "match runs the first arm that fits", "statement": "A match statement runs exactly the first arm one of whose patterns fits the matched value (a literal equal to it, a range that contains it, the string, the enum variant, or _) and whose guard holds, and no arm if there is none; patterns mean the same as the expressions spelled like them.", "quantifier": "all enums of the program, all arms, all alternatives, ranges, literals and strings, all matched values", "why_tests_cant": "every pattern text and every value", "anchors": ["src/parser/parser_stmt.c: parse_match", "src/codegen/codegen_stmt.c: emit_single_pattern_cond, emit_pattern_condition, codegen_match_internal", "src/parser/parser_utils.c: register_enum_variant, find_enum_variant", "src/parser/parser_struct.c: parse_enum"]}
{"id": "C66", "title": "Range loops visit exactly the range", "statement": "for i in a..b, a..<b and a..=b, with or without a step, runs its body exactly for the members of the range in order (a, a plus the step, and so on, up or down to the bound, which the inclusive form includes), until it breaks, and ends; the bounds are those on entry; repeat n runs its body n times.", "quantifier": "all integer types of the bounds and the step, all values of these types, all bodies", "why_tests_cant": "every pair of bounds of every pair of types, and every body", "anchors": ["src/parser/parser_stmt.c: parse_for, parse_repeat", "src/codegen/codegen_stmt.c: NODE_FOR_RANGE, NODE_REPEAT"]}
{"id": "C67", "title": "embed puts exactly the bytes of the file into the program", "statement": "embed \"f\" yields the bytes of the file f, all of them and nothing else, as a slice (with its length), as an array of the type and size asked for, or as a string; a missing file stops the compiler; no file or name makes the compiler unsafe, and only the word embed is the keyword.", "quantifier": "all files, names and requested types", "why_tests_cant": "every content of a file", "anchors": ["src/parser/parser_type.c: parse_embed", "src/parser/parser_decl.c: parse_var_decl"]}
{"id": "C68", "title": "@cfg includes a declaration exactly if its conditions hold", "statement": "A top-level declaration (function, struct, import, impl, raw block, constant, test and so on) with @cfg attributes is part of the program exactly if all of them hold for the names given with -D: NAME if it is defined, not(NAME) if not, any(...) and all(...) if any or all of the listed conditions hold; every other declaration is untouched.", "quantifier": "all lists of attributes, all sets of defined names, all programs", "why_tests_cant": "every combination of conditions, names and kinds of declarations", "anchors": ["src/parser/parser_core.c: parse_program_nodes", "src/codegen/codegen_decl.c: emit_protos, emit_globals, emit_struct_defs, emit_type_aliases, emit_global_aliases, emit_tests_and_runner", "src/codegen/codegen_main.c: codegen_node"]}
{"id": "C69", "title": "Print statements write their text and values in order to the right stream", "statement": "A print, println, eprint or eprintln statement, or one of its shorthands, writes its literal text and the value of each expression in braces, in the given or the default format and each evaluated once, from left to right to standard output or standard error, and then a newline if the form has one; a doubled brace stands for a brace.", "quantifier": "all forms, all texts, all expressions, types, formats and values, all states", "why_tests_cant": "every interleaving of text, expressions, formats, types and side effects", "anchors": ["src/parser/parser_stmt.c: process_printf_sugar, parse_statement", "src/parser/parser_expr.c: parse_primary", "src/codegen/compat.h: _z_str, _z_arg"]}
{"id": "C70", "title": "Closures capture what they use, by value or by reference", "statement": "A closure captures each variable of the enclosing function its body uses and each one in its capture list; one captured by value keeps the value it had when the closure was created, one captured by reference is the variable itself, and parameters, local and global variables have their ordinary meaning, in every order of assignments, creations and calls. The bracketed capture list means what it says.", "quantifier": "all capture lists, bodies, contexts and histories of assignments, creations, calls and the return of the enclosing function", "why_tests_cant": "every nesting of scopes and every history of creations, calls and assignments", "anchors": ["src/parser/parser_expr.c: analyze_lambda_captures, find_var_refs, find_declared_vars, parse_lambda", "src/codegen/codegen.c: codegen_var_expr, codegen_lambda_expr", "src/codegen/codegen_decl.c: emit_lambda_defs"]}
{"id": "C71", "title": "Threads that share variables under a mutex act one after the other", "statement": "In every interleaving of threads made by Thread::spawn that touch shared variables only between lock and unlock of a Mutex, the variables always have the values that some one-at-a-time order of the critical sections gives them; there is no data race and no use of freed memory, join returns only after the thread is done, threads never wait for the mutex for ever, and when all threads have ended every block of memory the library took has been given back. sleep_ms sleeps the given time.", "quantifier": "all programs of critical sections, spawns, joins and a final free of the mutex, all schedules and all failures of malloc and thread creation", "why_tests_cant": "the number of interleavings is unbounded and a test sees only a few of them", "anchors": ["std/thread.zc: Thread::spawn, Thread::join, Thread::detach, Thread::cancel, Mutex::new, Mutex::lock, Mutex::unlock, Mutex::free, sleep_ms, _z_thread_trampoline, _z_thread_spawn"]}
{"id": "C72", "title": "Await gives back what an async function returned", "statement": "However the threads are scheduled, an async function gets the arguments of its call, await waits for it and gives exactly the value it returned, whether the call itself or a variable holding it is awaited, and everything allocated for the call is freed once it has been awaited.", "quantifier": "all histories of calls, thread starts, returns and awaits, all result types and values, all parameter lists", "why_tests_cant": "the order of threads, calls and awaits and the values passed are unbounded", "anchors": ["src/codegen/codegen_stmt.c: codegen_node_single (NODE_FUNCTION, is_async)", "src/codegen/codegen.c: codegen_expression (NODE_AWAIT)", "src/codegen/codegen_utils.c: is_struct_return_type", "src/parser/parser_expr.c: parse_expr_prec (TOK_AWAIT)", "src/parser/parser_utils.c: parse_and_convert_args, is_primitive_type_name", "src/ast/ast.c: type_to_string, type_to_c_string"]}
{"id": "C73", "title": "Named and omitted arguments reach the right parameters", "statement": "In a call, an argument written with a name goes to the parameter of that name, an unnamed one to the parameter at its position, and a parameter without an argument gets the default its declaration gives, with the meaning the default has there; a call for which this is impossible is rejected.", "quantifier": "all parameter lists, all defaults built from numbers, names, operators, casts, calls, indexing and members, all calls, all scopes at the call", "why_tests_cant": "declarations, default expressions, calls and the names in scope at a call combine without bound", "anchors": ["src/parser/parser_expr.c: validate_named_arguments, find_function_definition, parse_primary (call with signature; call without)", "src/parser/parser_utils.c: ast_to_string, parse_and_convert_args", "src/parser/parser_decl.c: parse_function", "src/codegen/codegen.c: codegen_expression (NODE_EXPR_CALL)"]}
{"id": "C74", "title": "Option and Result hand over what they hold exactly once", "statement": "Whatever sequence of operations a program performs on options and results whose values own something: each operation gives the value that was put in (or panics, or gives the default, if there is none), and every value is dropped exactly once, by the variable it was handed to or by the option that still holds it at its end.", "quantifier": "all sequences of creating, testing, unwrapping (unwrap, expect, unwrap_or, or_else, forget) and ending options, and of variables ending", "why_tests_cant": "the sequences of operations and aliases between options and variables are unbounded", "anchors": ["std/option.zc: Some, None, is_some, forget, unwrap, unwrap_or, expect, or_else", "std/result.zc: Ok, Err, forget, unwrap, expect", "src/codegen/codegen_stmt.c: codegen_node_single (NODE_RETURN, NODE_VAR_DECL)", "src/codegen/codegen_utils.c: emit_move_invalidation"]}
{"id": "C75", "title": "for x in a collection visits every item once, in order", "statement": "`for x in v`, `for x in &v` and `for x in a` visit the items that were in the vector or array when the loop started, each once and in order, showing the body the current value of each; an assignment through the reference changes the item; break, continue and return work as in a while loop; what the body does to the collection takes effect as outside a loop.", "quantifier": "all vectors and arrays, all loop bodies (any operations on the collection depending on the visit, the item and the contents), both forms of the loop", "why_tests_cant": "bodies and collections are unbounded, and the failures need a particular capacity", "anchors": ["src/parser/parser_stmt.c: parse_for", "std/vec.zc: VecIter, VecIterRef, iterator, iter_ref, grow", "std/slice.zc: SliceIter, from_array"]}
{"id": "C76", "title": "Operators evaluate their operands once", "statement": "In every expression built from calls, operators, &&, ||, ??, assignments and compound assignments (op= and ??=), each operand is evaluated once, the right operand of &&, ||, ?? and ??= only when the left one does not settle the result, and a compound assignment writes to the place it read from.", "quantifier": "all expressions, all meanings of the functions and operators they use, all memories, and every order in which C may evaluate operands", "why_tests_cant": "expressions nest without bound and the difference shows only with side effects in particular operands", "anchors": ["src/parser/parser_expr.c: parse_expr_prec_impl (compound assignment)", "src/codegen/codegen.c: codegen_expression (NODE_EXPR_BINARY)"]}
{"id": "C77", "title": "The try operator goes on with the value or leaves with the error", "statement": "In a function returning a result type, e? evaluates e, is its value when it is a success, and otherwise leaves the function with that error at once, running the deferred statements and drops that every other way out of the function runs.", "quantifier": "all function bodies with blocks, conditionals, returns, defers and ?, all meanings of their statements and expressions, all result types", "why_tests_cant": "the error path is a second exit from every point of every body; tests rarely combine it with pending defers", "anchors": ["src/codegen/codegen.c: codegen_expression (NODE_TRY)", "src/codegen/codegen_stmt.c: codegen_node_single (NODE_BLOCK, NODE_RETURN, NODE_DEFER)"]}
{"id": "C78", "title": "A derived eq decides equality", "statement": "For a type with @derive(Eq), a == b is defined and true exactly when a and b have the same contents (numbers, strings, variants and payloads, arrays and nested structs), a != b is its negation, and equality is reflexive, symmetric and transitive.", "quantifier": "all struct and enum types, however nested, all values of them, all field names", "why_tests_cant": "types and values nest without bound; a missed field or payload shows only in values that differ there", "anchors": ["src/parser/parser_core.c: generate_derive_impls", "src/codegen/codegen.c: codegen_expression (NODE_EXPR_BINARY, == and !=)"]}
{"id": "C79", "title": "Derived JSON conversions are inverse to each other", "statement": "For a struct with @derive(ToJson, FromJson), from_json(to_json(v)) succeeds and is v, also when the JSON passes through stringify and parse; from_json of JSON that is not such a struct reports an error.", "quantifier": "all struct types, however nested, all values of them, all JSON values", "why_tests_cant": "types nest without bound, and integers, strings and names have too many values to try", "anchors": ["src/parser/parser_core.c: generate_derive_impls (FromJson, ToJson)", "std/json.zc: JsonValue::get, get_int, as_int, set"]}
{"id": "C80", "title": "Trait objects call the methods of their own type", "statement": "Calling a method on a trait object made from a value of type S runs the body that the implementation of the trait for S gives to the method, with the same arguments; an implementation without some method of the trait is rejected.", "quantifier": "all programs of struct implementations, all methods and parameter lists", "why_tests_cant": "programs and parameter lists are unbounded, and the tables are found by composed names", "anchors": ["src/codegen/codegen_decl.c: emit_trait_wrappers, emit_impl_vtables", "src/codegen/codegen_utils.c: extract_call_args, parse_original_method_name", "src/parser/parser_utils.c: parse_and_convert_args"]}
{"id": "C81", "title": "Operators and methods on structs call the right method once", "statement": "An operator on a struct calls, exactly once, the method of the left operand's type (its own, else from a trait) with the operands, by value or by place as the method declares; compound assignment and method calls likewise; the generated code is proportional to the program.", "quantifier": "all programs (method signatures and trait implementations), all expressions, all stores and method bodies", "why_tests_cant": "expressions nest without bound, and method bodies are arbitrary code with effects on the operands", "anchors": ["src/parser/parser_expr.c: get_operator_method, parse_expr_prec_impl (operator, unary, method and compound rewriting)", "src/codegen/codegen.c: codegen_expression (&_rval, ==)"]}
{"id": "C82", "title": "Imports read each file once", "statement": "A program consists of the definitions of its file and of every file it imports, directly or indirectly and under any spelling of the path: each exactly once, in order, with their attributes; cycles of imports end; a missing file is an error; aliases and selected names are registered.", "quantifier": "all projects (file systems, search paths, import graphs with cycles)", "why_tests_cant": "import graphs are unbounded and may be cyclic", "anchors": ["src/parser/parser_stmt.c: parse_import", "src/parser/parser_utils.c: is_file_imported, mark_file_imported, extract_module_name, register_selective_import", "src/parser/parser_core.c: parse_program_nodes", "src/main.c: main"]}
{"id": "C83", "title": "Indexing stays inside the array", "statement": "An index of a fixed array (of any number of dimensions) or of a slice finds that element, or the program stops; no program without raw pointers reads or writes outside an array or a slice through an index. A slice made from an array is that array: writes through one are seen through the other. A literal index out of range draws a warning at compile time.", "quantifier": "all programs of assignments, all memories, all index values", "why_tests_cant": "the indices are computed at run time and range over all integers", "anchors": ["src/codegen/codegen.c: codegen_expression (NODE_EXPR_INDEX, NODE_EXPR_CALL)", "src/codegen/codegen_decl.c: emit_preamble (_z_check_bounds, Slice structs)", "src/parser/parser_expr.c: parse_primary (index, warn_array_bounds)"]}
{"id": "C84", "title": "Sockets own their descriptors and read whole messages", "statement": "Every descriptor opened by connect, bind or accept is closed exactly once, by close or when the object goes out of scope, or at once when the call fails; closing twice is harmless and never closes a descriptor that now belongs to other code. read_exact gives exactly the next bytes of the stream however the kernel cuts it up, or an error. write reports how much was sent; a port out of range is an error.", "quantifier": "all histories of socket calls with every kernel answer; all ways a stream is cut into reads", "why_tests_cant": "depends on the kernel: descriptor reuse, failures, short reads", "anchors": ["std/net/tcp.zc: TcpStream, TcpListener", "std/net/udp.zc: UdpSocket", "std/net/socket.zc", "std/sys/net.zc"]}
{"id": "C85", "title": "An if expression has the value of the branch taken", "statement": "The value of an if expression is the value of the last expression of the branch its condition chooses; the condition and that branch run once, the other branch does not run, and what a branch defers runs only when that branch was taken. Nesting does not blow up the output.", "quantifier": "all if expressions, nested to any depth, with any meaning of the expressions and statements in them", "why_tests_cant": "depends on nesting, on the types of both branches and on what is deferred inside", "anchors": ["src/codegen/codegen.c: NODE_IF as an expression", "src/parser/parser_expr.c: parse_primary, if", "src/parser/parser_stmt.c: parse_if"]}
{"id": "C86", "title": "A program that passes the type checker has no type errors", "statement": "When zc check (or --typecheck) reports nothing, every assignment, initializer, argument, returned value, operator and condition has types that C allows; when a program has no type error it passes.", "quantifier": "all programs of declarations, assignments, calls, conditions and loops over integers, floats, strings, structs and pointers, of any size", "why_tests_cant": "quantifies over all programs; the compiler relies on the C compiler for what the checker misses", "anchors": ["src/analysis/typecheck.c: check_program, check_expr_unary, check_expr_binary, check_expr_call, check_type_compatibility, check_var_decl, check_block, check_node", "src/ast/ast.c: type_eq"]}
{"id": "C87", "title": "Using a generic struct at a type produces exactly the concrete structs it needs", "statement": "Each instance of a generic struct is written to the output once; using a generic struct at a type writes that instance and every instance its fields need, directly or not, with the type in place of the parameter in every field, and the compiler finishes.", "quantifier": "all programs of generic structs, plain structs and uses of types, any number of templates, mutually recursive or not, any field list", "why_tests_cant": "quantifies over all programs; which instances are found depends on how their mangled names are taken apart again", "anchors": ["src/parser/parser_utils.c: instantiate_generic, copy_fields_replacing, replace_type_str, replace_type_formal, type_from_string_helper, unmangle_ptr_suffix, register_template", "src/parser/parser_type.c: parse_type_base", "src/parser/parser_struct.c: parse_struct"]}
{"id": "C88", "title": "Formatted text and numbers as text come back right and stay right", "statement": "itos and utos give the numeral of the number; format, format_new, itos, itos_new and utos return a string that reads as the text asked for and keeps reading so; format_into stays within its buffer and reports truncation; println writes the text and a newline and returns the number of bytes.", "quantifier": "all numbers, all texts, all histories of calls before and after, all answers of the allocator", "why_tests_cant": "quantifies over all numbers and all call histories; sharing of static buffers shows only when results are held across calls", "anchors": ["std/io.zc: format, format_into, format_new, print, println, itos, itos_new, utos"]}
{"id": "C89", "title": "Environment variables behave as a map; sleeping and the clock are in milliseconds", "statement": "Env::get and get_dup return the value last set for the name in any history of set and unset, or the inherited one; set and unset refuse improper names and then change nothing. sleep waits for the time asked; Time::now is the wall clock in milliseconds and does not go back while the clock does not; from_secs is a thousand times the seconds.", "quantifier": "all initial environments, all histories of calls, all names and values; all 64-bit times", "why_tests_cant": "quantifies over all histories and all 64-bit durations", "anchors": ["std/env.zc: Env", "std/sys/env.zc: _z_setenv, _z_unsetenv", "std/time.zc: Time, Duration"]}
{"id": "C90", "title": "A slice shows the elements it covers, and raw memory operations touch only their range", "statement": "Iterating a slice yields the covered elements in order and stops; get returns the element or nothing; writes to the array are seen. swap, mem_zero, mem_copy change exactly the places named. alloc_n gives room for n elements; a freed Box is null and may be freed again.", "quantifier": "all element types and sizes, all memories, pointers, lengths and counts", "why_tests_cant": "quantifies over all memory contents, lengths and aliasings", "anchors": ["std/slice.zc: Slice, SliceIter", "std/mem.zc: alloc_n, Box, mem_zero, mem_copy, swap"]}
{"id": "C91", "title": "A tuple has the elements it was written with", "statement": "A tuple type becomes one C struct with a field for each element, of its type and in order; different tuple types are different structs; the struct comes after the types it uses. A tuple literal holds the values written, in order; destructuring takes them apart by position.", "quantifier": "all lists of element types, all literals, all sets of tuples and structs of a program", "why_tests_cant": "quantifies over all type names, sizes and literals", "anchors": ["src/parser/parser_utils.c: register_tuple", "src/parser/parser_type.c: parse_type_base, parse_tuple_literal", "src/parser/parser_expr.c: tuple literal", "src/parser/parser_struct.c: parse_enum", "src/codegen/codegen_decl.c: print_type_defs", "src/codegen/codegen_stmt.c: NODE_DESTRUCT_VAR"]}
{"id": "C92", "title": "A build leaves the program and nothing else, and run reports its exit status", "statement": "A rejected program changes no file and gives exit status 1. A successful build leaves the output file, keeps the C file exactly when asked, and changes no other file. Run executes the program just compiled, removes it, and exits with its exit status. Check changes nothing. Transpile leaves the C text under the name asked for.", "quantifier": "all modes, output names, file systems, answers of the phases and exit codes", "why_tests_cant": "quantifies over all prior contents of the file system and all exit codes", "anchors": ["src/main.c: main", "src/platform/os.c: z_run_command"]}
{"id": "C93", "title": "The semantic tokens of a file are its names, each once and in order", "statement": "For every syntax tree, the numbers the language server sends decode, by the rules of the protocol, to tokens of the file in the order of the text, at most one at a place. Every name of the file is among them.", "quantifier": "all syntax trees, all results qsort may give", "why_tests_cant": "quantifies over all trees and all sorted rearrangements", "anchors": ["src/lsp/lsp_semantic.c: traverse_node, compare_tokens, lsp_semantic_tokens_full", "src/lsp/lsp_project.c: lsp_project_update_file"]}
{"id": "C94", "title": "Renaming and finding symbols in the editor", "statement": "After every history of opened and changed files, the index of a file is that of its current text. References are all the places a name stands at. Rename edits exactly the places of the symbol. Go to definition, from any column of a use, gives the place of the definition.", "quantifier": "all projects, syntax trees, positions and new names", "why_tests_cant": "quantifies over all sets of files, all trees and all positions", "anchors": ["src/lsp/lsp_index.c: lsp_walk_node, lsp_find_at, lsp_index_add_def, lsp_index_add_ref", "src/lsp/lsp_project.c: lsp_project_update_file, lsp_project_find_definition, lsp_project_find_references", "src/lsp/lsp_analysis.c: lsp_goto_definition, get_symbol_at, lsp_rename", "src/lsp/cJSON.c: get_object_item"]}
{"id": "C95", "title": "The language server answers every request it offers", "statement": "Every request gets exactly one response, with its own id, in every state. After every session of opening and changing files the server has the last text of every file, has lost no other, and has published diagnostics once for each change.", "quantifier": "all states, sessions, ids, methods, addresses and positions", "why_tests_cant": "quantifies over all histories of messages and all ids", "anchors": ["src/lsp/json_rpc.c: handle_request, get_params", "src/lsp/lsp_analysis.c: lsp_check_file, lsp_goto_definition, lsp_hover, lsp_completion", "src/lsp/lsp_project.c: lsp_project_init, lsp_project_update_file", "src/lsp/cJSON.c: get_object_item"]}
{"id": "C96", "title": "Tests run and failed assertions are reported", "statement": "The tests of a program run in order, each once; the exit status is 0 exactly when every assertion that was reached held, and the first that did not is reported with its message and status 1. An assertion tests the whole condition that was written.", "quantifier": "all programs with tests, all states, conditions, messages and token sequences", "why_tests_cant": "quantifies over all programs, messages and conditions", "anchors": ["src/parser/parser_stmt.c: parse_test, parse_assert", "src/codegen/codegen_decl.c: emit_tests_and_runner, assert macro", "src/codegen/codegen_stmt.c: NODE_ASSERT", "src/codegen/codegen_main.c: main of a test program"]}
{"id": "C97", "title": "JSON of the language server is read and written faithfully", "statement": "Every JSON text is read as the value it denotes, with any white space and all escapes including surrogate pairs; every value is written as a JSON text that denotes it and is read back as it; no text makes the reader leave its buffer or its allocations.", "quantifier": "all texts, values, nesting depths, strings and both formats", "why_tests_cant": "quantifies over all texts and values", "anchors": ["src/lsp/cJSON.c: cJSON_Parse, parse_value, parse_string, utf16_literal_to_utf8, parse_hex4, parse_array, parse_object, print_value, print_string_ptr, print_array, print_object"]}
{"id": "C98", "title": "The line editor of the REPL edits the line as its keys say", "statement": "Characters, cursor keys, Home, End, Backspace, Ctrl+U, Ctrl+K, Up and Down act on the text and the cursor as in any line editor, a draft is given back after a look at the history, Ctrl+R finds the most recent entries with a text, Tab completes a unique name, the end of the input ends the session, and no sequence of bytes makes the editor leave its buffers.", "quantifier": "all histories, indentations and sequences of input bytes", "why_tests_cant": "quantifies over all key sequences and histories", "anchors": ["src/repl/repl.c: repl_readline, repl_complete", "src/platform/console.c: repl_read_char"]}
{"id": "C99", "title": "A REPL session runs what was entered and keeps it", "statement": "Every statement that is entered is run once, after the earlier ones and the declarations, in the order of entry; statements may span several lines; expressions are printed; a statement that fails is taken out of the history; the history is kept in a file and comes back at the next start; :undo, :delete and :load change the history as they say; unknown commands are reported; the session ends at the end of its input.", "quantifier": "all histories, lines, watch expressions, answers of the compiler and contents of the history file", "why_tests_cant": "quantifies over all sessions and histories", "anchors": ["src/repl/repl.c: run_repl, repl_get_code, is_header_line"]}
{"id": "C100", "title": "The command line has the effect it is documented to have", "statement": "Each option of a command line has its documented effect wherever it stands and whether its value is joined or not; without a command the program is built; unknown commands and missing values are reported; the first file is the program, further sources are parsed once each in order, other files go to the C compiler; the C compiler is called with the chosen name, the flags in order, the output name and the libraries after the files.", "quantifier": "all command lines of documented options and files, all file systems and import relations", "why_tests_cant": "quantifies over all combinations and orders of options", "anchors": ["src/main.c: main, main_append_flag", "src/utils/cmd.c: build_compile_arg_list, arg_list_add", "src/platform/os.c: z_get_executable_path"]}
{"id": "C101", "title": "A plugin block hands its text to the plugin it names", "statement": "The text between the braces of name! { ... }, or between plugin name and end, reaches the plugin as written; the block ends at its matching brace; the plugin that runs is the one imported under that name or alias; a block whose name was not imported is an error; reading a block never leaves its memory.", "quantifier": "all sources, all block sizes and contents, all sequences of imports and libraries", "why_tests_cant": "quantifies over all block texts and import histories", "anchors": ["src/parser/parser_stmt.c: parse_macro_call, parse_plugin", "src/parser/parser_utils.c: register_plugin, resolve_plugin", "src/plugins/plugin_manager.c: zptr_load_plugin, zptr_find_plugin, zptr_register_plugin", "src/codegen/codegen.c: NODE_PLUGIN"]}
{"id": "C102", "title": "A brainfuck block does what the Brainfuck program does", "statement": "The C text the brainfuck plugin writes for a program ends exactly when the program halts, with the same output, the same input consumed and the same tape; a program whose brackets do not match is reported; every run starts on a blank tape.", "quantifier": "all programs, all inputs, all tapes, runs of any length including endless ones", "why_tests_cant": "quantifies over all programs and all inputs, and over endless runs", "anchors": ["plugins/brainfuck.c: bf_transpile"]}
{"id": "C103", "title": "A regex block matches a text exactly when the pattern does", "statement": "The function the regex plugin makes of a pattern returns 1 for exactly the texts the regular expression matches: anywhere in the text unless the pattern is anchored, with the usual meaning of repetition; it never reads outside the text; a malformed pattern is reported.", "quantifier": "all patterns, all layouts of a pattern, all texts of any length", "why_tests_cant": "quantifies over all patterns and all texts", "anchors": ["plugins/regex.c: regex_transpile, emit_match_logic"]}
{"id": "C104", "title": "Composition gives a struct the fields and the methods of its mixins", "statement": "A struct with use T has the fields of T in that place, and a method of T called on it works on these fields; a method call runs the method of the type itself, else that of a trait it implements, else that of the first mixin that has it; mixins of mixins count, an unknown mixin is an error.", "quantifier": "all struct declarations with any members and mixins, all sets of functions and impls, all type sizes and alignments", "why_tests_cant": "quantifies over all declarations and all memory layouts", "anchors": ["src/parser/parser_struct.c: parse_struct", "src/codegen/codegen.c: codegen_expression (NODE_EXPR_CALL on a member)"]}
{"id": "C105", "title": "A comptime block is replaced with the output of its own program", "statement": "The text of a comptime block runs up to the matching brace; its declarations come first and its statements run in order; the block is replaced with what this program prints, whatever other compilers do at the same time in the same directory; a program that does not compile or exits with an error stops the compilation; no files are left behind.", "quantifier": "all sources, all blocks and declarations, all programs, any number of compilers and all interleavings of their steps", "why_tests_cant": "quantifies over all interleavings of several processes that share a directory", "anchors": ["src/parser/parser_stmt.c: run_comptime_block", "src/parser/parser_stmt.c: parse_statement (TOK_COMPTIME)", "src/parser/parser_stmt.c: parse_comptime"]}
{"id": "C106", "title": "The C declaration of a variable, parameter or function has its Zen type", "statement": "Every variable, field, parameter and function is declared in the generated C with the type it has in the Zen source: pointers, arrays of any dimension, slices, function pointers and qualifiers read in C as the same type, and stars and sizes written behind a type keep their order.", "quantifier": "all types of any depth, all names, all parameter lists", "why_tests_cant": "quantifies over all types, which nest without bound", "anchors": ["src/ast/ast.c: type_to_c_string", "src/codegen/codegen_utils.c: emit_c_decl", "src/codegen/codegen_utils.c: emit_func_signature", "src/codegen/codegen_decl.c: emit_type_aliases", "src/parser/parser_type.c: parse_type_formal"]}
{"id": "C107", "title": "Struct literals and destructuring are inverse to each other", "statement": "A struct literal has in every field the value written for it and zero in the others, evaluating each expression once and in the order written; a destructuring declaration gives every name the value of its field or tuple element; a guard goes on only with the variant asked for.", "quantifier": "all struct definitions, field lists in any order, values, patterns of any length, evaluation orders the C compiler may choose", "why_tests_cant": "quantifies over all literals and patterns and over the evaluation orders allowed by C", "anchors": ["src/codegen/codegen.c: codegen_expression (NODE_EXPR_STRUCT_INIT)", "src/parser/parser_decl.c: parse_var_decl", "src/codegen/codegen_stmt.c: codegen_node_single (NODE_DESTRUCT_VAR)"]}
{"id": "C108", "title": "A slice expression shows the elements between its bounds", "statement": "a[s..e] is a view of exactly the elements s to e-1 of a slice or pointer, with the length e-s; missing bounds are the ends; slices of slices compose; reading or writing an element of a slice reaches the element it stands for or the program stops; returning an array literal as a slice gives memory of its own and runs the defers.", "quantifier": "all memories, values, bounds and bound expressions, chains of slice expressions of any depth, element types, defer stacks", "why_tests_cant": "quantifies over all bounds, memories and nesting depths", "anchors": ["src/parser/parser_expr.c: parse_expr_prec (index and slice)", "src/codegen/codegen.c: codegen_expression (NODE_EXPR_SLICE, NODE_EXPR_INDEX, NODE_EXPR_CALL)", "src/codegen/codegen_stmt.c: codegen_node_single (NODE_RETURN)", "src/parser/parser_utils.c: register_slice"]}
{"id": "C109", "title": "match on an enum finds the variant and the values it was made with", "statement": "A value made by a variant constructor is matched by the first arm that names the variant (or the wildcard), and the names of the arm are bound to the values given to the constructor, wherever the enum is declared and whatever its variants are called or numbered; the warning about missing variants lists exactly the variants without an arm.", "quantifier": "all enum declarations, modules, variant names, payloads, lists of arms with alternatives and bindings", "why_tests_cant": "quantifies over all sets of enum declarations and all matches on them", "anchors": ["src/parser/parser_struct.c: parse_enum", "src/parser/parser_utils.c: register_enum_variant, find_enum_variant", "src/parser/parser_stmt.c: parse_match", "src/codegen/codegen_decl.c: emit_struct_defs (NODE_ENUM)", "src/codegen/codegen_stmt.c: codegen_match_internal, emit_pattern_condition"]}
{"id": "C110", "title": "The life of variables: initial values, static and autofree", "statement": "A variable declared without a value is zero; a static variable is set once and keeps its value from call to call; what an autofree variable holds when its scope is left, in whatever way, is freed, once, and nothing else is.", "quantifier": "all types, lists of declarations, function bodies and ways of leaving them, numbers of calls, heaps", "why_tests_cant": "quantifies over all function bodies and all sequences of calls", "anchors": ["src/codegen/codegen_stmt.c: codegen_node_single (NODE_VAR_DECL), is_int_type", "src/codegen/codegen_decl.c: emit_globals, _z_autofree_impl", "src/parser/parser_stmt.c: parse_statement (autofree, static)"]}
{"id": "C111", "title": "Inline assembly reaches the assembler as written, with its variables as operands", "statement": "The instructions of an asm block reach the assembler line by line as written, every {variable} in them stands for the operand of that variable, out, in and inout variables are outputs, inputs and both, and the clobbers are those listed.", "quantifier": "all instruction texts, lists of outputs, inputs and clobbers, token sequences", "why_tests_cant": "quantifies over all texts and operand lists", "anchors": ["src/parser/parser_stmt.c: parse_asm", "src/codegen/codegen_stmt.c: codegen_node_single (NODE_ASM)"]}
{"id": "C112", "title": "Opaque structs and opaque aliases hide their inside from other files", "statement": "Outside the file that defines it, a program that reads, writes or initialises fields of an opaque struct is rejected, and a variable of an opaque alias takes only values of that alias; in the defining file both are used freely.", "quantifier": "all expressions, definitions, files and types", "why_tests_cant": "quantifies over all expressions and types", "anchors": ["src/parser/parser_expr.c: check_opaque_alias_compat, parse_expr_prec_impl, parse_primary", "src/parser/parser_decl.c: parse_var_decl", "src/parser/parser_utils.c: instantiate_generic"]}
{"id": "C113", "title": "A Befunge block does what Befunge-93 says", "statement": "The code written for a befunge block runs the program in the block as Befunge-93 defines it: the playfield is the text of the block, every instruction has its effect on stack, pointer and output, and the block ends when the program ends.", "quantifier": "all texts of blocks, all numbers of steps", "why_tests_cant": "quantifies over all programs and runs of any length", "anchors": ["plugins/befunge.c: befunge_transpile"]}
{"id": "C114", "title": "Reading input puts the values typed into the variables named", "statement": "After readln(x, y) or ? \"prompt\" (x, y), the next line of input has been read and no more; each variable has the value typed for it, in order, in the notation of its type; the call gives the number of variables read, and variables for which nothing fitting was typed keep their values.", "quantifier": "all lists of variables of all built-in types, all values and all ways to type them, with any white space, all lines and inputs", "why_tests_cant": "quantifies over all inputs and all lists of variables", "anchors": ["src/parser/parser_expr.c: readln and ? in parse_primary / parse_expr_prec", "src/codegen/codegen_decl.c: _z_scan_helper, _z_readln_raw"]}
{"id": "C115", "title": "Loops, labelled jumps and conditions do what they say", "statement": "if, unless, guard, while, loop and repeat run the statements they contain as their conditions and counts say; break and continue leave or restart the innermost loop, or the loop whose label they name; every other statement runs where it stands.", "quantifier": "all programs made of these statements, all conditions and states, loops of any number of rounds", "why_tests_cant": "quantifies over all programs and over executions of any length", "anchors": ["src/parser/parser_stmt.c: parse_statement, parse_if, parse_while, parse_loop, parse_repeat, parse_unless, parse_guard, parse_block", "src/codegen/codegen_stmt.c: NODE_IF to NODE_REPEAT, NODE_BREAK, NODE_CONTINUE, NODE_LABEL"]}
{"id": "C116", "title": "A lisp block has the value its expressions have in lisp", "statement": "A block of the lisp plugin evaluates its expressions in order and has the value of the last one: numbers, variables, + - * / on any number of arguments, comparisons, cons, car, cdr, list, strings, if, let and calls mean what they mean in lisp, in any layout. A text with parentheses that do not match ends the compiler with an error.", "quantifier": "all lists of expressions, all layouts, all variables around the block and all functions of the program", "why_tests_cant": "quantifies over all lisp texts and values", "anchors": ["plugins/lisp.c: parse_atom, parse_lisp_list, parse_lisp_expr, lisp_transpile"]}
{"id": "C117", "title": "A forth block leaves the stack and writes the text its program has in forth", "statement": "A block of the forth plugin runs its words in order: numbers, arithmetic, bit and comparison operations, choose, dup, drop, swap, rot, if/else/then, do/loop with i, emit, the comma and words defined with : and ; mean what they mean in forth, in any layout. What emit and the comma write becomes the code of the block.", "quantifier": "all programs of definitions and words, all layouts, all stacks and all texts of numbers", "why_tests_cant": "quantifies over all forth programs, with unbounded loops and nesting", "anchors": ["plugins/forth.c: next_token, skip_tokens_until, eval_forth_token, process_forth_source, forth_transpile"]}
{"id": "C118", "title": "A sql block keeps and prints the rows its statements have in sql", "statement": "A block of the sql plugin runs its statements in order: CREATE TABLE makes an empty table, INSERT adds a row behind the others, SELECT * prints all rows of the table, a line each; with any blanks and comments between the words and any case of the keywords. What is behind two dashes is a comment, the types of the columns are those of sql, and a statement means what it says.", "quantifier": "all lists of statements, all names, values, layouts and cases of the keywords", "why_tests_cant": "quantifies over all sql blocks and all numbers of rows", "anchors": ["plugins/sql.c: sql_transpile, parse_create_table, parse_insert, parse_select, match_kw, skip_whitespace"]}
{"id": "C119", "title": "An error or a warning is shown where it is, and ends the compiler exactly if it must", "statement": "Every error and warning is shown in order with its file, line and column, the whole line of the source with a caret exactly below the first character of the token, and its hints; an error that is fatal is the last thing the compiler does, and the others are not; warnings are counted and quiet takes them away; with JSON output each report is one object with the same contents. The editor is told every error, at the right line and column, and the language server goes on after it.", "quantifier": "all sources, tokens, messages, hints and histories of reports", "why_tests_cant": "quantifies over all sources and places and all histories of reports", "anchors": ["src/diagnostics/diagnostics.c: zwarn_at, zwarn_with_suggestion, zpanic_at, zpanic_with_suggestion, zpanic_with_hints, zerror_at, zerror_with_suggestion, zerror_with_hints, emit_json", "src/lsp/lsp_analysis.c: lsp_on_error, lsp_check_file"]}
{"id": "C120", "title": "A tip is shown at most once, fits what happened, and never when quiet or after a warning", "statement": "While a program is compiled at most one tip is shown; it is the text of an entry of the file of facts for the construct at the place it names (or, at the end of a build on a terminal, a general one); none is shown with the options quiet or no-zen, without the file, or after a warning; every entry of the file can be shown.", "quantifier": "all files of facts, histories of triggers and warnings, and random draws", "why_tests_cant": "quantifies over all histories and all random draws", "anchors": ["src/zen/zen_facts.c: map_trigger_name, load_facts, zzen_at, zen_trigger_at, zen_trigger_global"]}
{"id": "C121", "title": "Output that does not go to a terminal has its colours removed and nothing else", "statement": "On a terminal a text is written as it is. Otherwise the changes of colour in it are removed and every other byte is written, in order, for texts of any length, and the number of bytes written is returned; the buffer is never left. So the C file holds what the compiler wrote to it, and a report in a log is what a terminal shows of it.", "quantifier": "all texts, contents of the buffer and sequences of calls", "why_tests_cant": "quantifies over all texts and all contents of the buffer", "anchors": ["src/utils/colors.c: strip_ansi_codes, zvfprintf", "src/utils/colors.h", "src/codegen/codegen.c: codegen_literal_expr"]}
{"id": "C122", "title": "A call of an undefined function is warned of, unless a file of settings lists it", "statement": "The compiler warns of a call exactly if the function is declared neither in the program nor as a C symbol, is not one of the runtime, no C header and nothing of the standard library is imported, and no file of settings lists it; the files are that of ZC_ROOT or else the installed one, then .zenc.json and zenc.json of the project, and their lists are joined. The warning names the function, and the header of those it knows.", "quantifier": "all files of settings, programs and names of functions", "why_tests_cant": "quantifies over all files and programs", "anchors": ["src/utils/config.c: append_whitelist, load_config_file, load_all_configs", "src/codegen/codegen.c: get_missing_function_hint, codegen_expression (calls)"]}
{"id": "C123", "title": "Completion offers the fields of the variable, and the names that can be used", "statement": "Behind the name of a variable and a dot the editor is offered exactly the fields of its struct, in order and with their types, also through a pointer. Elsewhere it is offered the keywords, the globals, structs and functions of the program, and the parameters and the variables declared above in the function of the cursor, and nothing else.", "quantifier": "all programs, texts and positions of the cursor", "why_tests_cant": "quantifies over all programs and positions", "anchors": ["src/lsp/lsp_analysis.c: find_local_in_func, resolve_local_type, lsp_completion"]}
{"id": "C124", "title": "The signature shown in a call, and the outline of a file", "statement": "Inside the parentheses of a call the editor is shown the signature of the function called: its name, the types of its parameters in order and its result; elsewhere nothing. The outline of a file lists its functions, structs with their fields, variables, constants and enums, in order, each at the place its name stands.", "quantifier": "all programs, texts and positions", "why_tests_cant": "quantifies over all texts, positions and programs", "anchors": ["src/lsp/lsp_analysis.c: lsp_signature_help, ast_to_symbol, lsp_document_symbol"]}
