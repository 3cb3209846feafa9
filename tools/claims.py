c("C01", "proved", "C01_vec_refines_lists C01_with_capacity_alloc C01_with_capacity_overflow_refuted",
  "Sizes are unbounded naturals in the refinement; the only place where the 64-bit product cap*size can wrap is refuted separately.")
c("C02", "partial", "C02_reverse_partial C02_reverse_empty_refuted",
  "Correct for every non-empty vector; on the empty vector len-1 wraps and the loop accesses memory out of bounds, so the full statement is false.")
c("C03", "proved", "C03_iteration")
c("C04", "proved", "C04_queue_fifo")
c("C05", "partial", "C05_clone_partial C05_clone_full_refuted",
  "Correct for every queue that is not full; false for every full queue (write past the end).")
c("C06", "partial", "C06_stack_lifo C06_clone_partial C06_clone_fresh_refuted",
  "The LIFO part is proved in full; clone is correct iff the stack has ever allocated.")
c("C07", "proved", "C07_map_refines")
c("C08", "partial", "C08_map_terminates_partial C08_map_remove_refuted C08_map_put_refuted",
  "Proved for histories with at most two removals; three suffice to make a call loop for ever.")
c("C09", "partial", "C09_iteration_partial C09_iteration_empty_refuted C09_slots",
  "Proved for maps that have allocated; on a never-filled map the iterator dereferences null.")
c("C10", "partial", "C10_set_refines C10_val_at C10_f64_refuted",
  "Proved for every element type whose == is equality; false for floating point elements.")
c("C49", "partial", "C49_reseed_partial C49_reseed_refuted", "Harmless only while the map is unallocated.")
c("C50", "partial", "C50_free_partial C50_free_refuted", "Strings are leaked at the second growth of the table.")
c("C11", "partial", "C11_strings_partial C11_self_append_refuted",
  "Proved for every program that never appends a string to itself; s.append(&s) loses the terminator.  Strings below 2^31 bytes.")
c("C12", "proved", "C12_find C12_tests", "Strings below 2^31 bytes (the model leaves out the int cast of the offset in ends_with).")
c("C13", "proved", "C13_split C13_split_unique C13_trim C13_replace C13_replace_unique", "Strings below 2^31 bytes.")
c("C14", "partial", "C14_utf8_partial C14_len_total C14_truncated_refuted",
  "Proved on all well-formed UTF-8; utf8_at and utf8_substr panic on a truncated sequence, so 'never fail on arbitrary bytes' is false.")
c("C15", "proved", "C15_base64 C15_base64_decodes")
c("C16", "proved", "C16_sha1 C16_sha1_hash C16_padding")
c("C17", "partial", "C17_send C17_recv_partial C17_roundtrip_partial C17_recv_total C17_large_refuted C17_nul_refuted C17_short_write_refuted",
  "Sending is correct for every text when writes are complete; receiving for every frame below 64 KiB without NUL, for every fragmentation and masking key; the three restrictions are shown necessary.")
c("C18", "proved", "C18_handshake", "Keys below 2^60 bytes; the write is complete.")
c("C19", "partial", "C19_roundtrip_partial C19_backspace_refuted C19_key_refuted C19_number_refuted",
  "Proved for values whose strings are below 4096 bytes and avoid the characters that are not re-read, whose keys need no escaping and whose numbers are printed exactly; each restriction is shown necessary.")
c("C20", "partial", "C20_parse_total_partial C20_overflow_refuted",
  "Total and memory safe while every quoted run is below 4096 characters; any longer string overflows the stack buffer.")
c("C51", "partial", "C51_valid_json_partial C51_garbage_refuted C51_unterminated_refuted C51_unicode_refuted",
  "Completeness proved for the RFC grammar without \\u, \\b and \\f escapes and strings below 4096 bytes; soundness is false.")
c("C21", "proved", "C21_join C21_components C21_file_name C21_parent C21_extension C21_recover", "Paths below 2^31 bytes.")
c("C22", "partial", "C22_parse_partial C22_no_scheme C22_ipv6_refuted C22_default_port_refuted",
  "Proved for all URLs whose host has no colon; IPv6 literals with a port are misparsed and only http/https have their own default port.")
c("C23", "partial", "C23_arena_partial C23_release C23_overflow_refuted C23_count_refuted C23_null_refuted",
  "Proved for all call sequences whose requests do not run past the end of the address space and an arena whose malloc succeeded; both restrictions are shown necessary.")
c("C24", "partial", "C24_readln C24_all_lines_partial C24_nul_refuted",
  "The memory returned is right for every input; a caller that sees it as a C string loses what follows a NUL byte.  Allocation succeeds.")
c("C25", "partial", "C25_fold_partial C25_array_size_partial C25_def_partial C25_crash_refuted C25_int_refuted C25_unsigned_refuted C25_def_negative_refuted C25_def_large_refuted C25_variable_refuted",
  "Agreement with C proved wherever the C expression is defined and has no literal from 2^63 on; the remaining cases are refuted.")
c("C26", "partial", "C26_lexing_partial C26_covers C26_peek C26_overread_refuted",
  "Proved for every source that does not end inside an escape; one that does is read past its end.")
c("C27", "partial", "C27_lines_partial C27_char_newline_refuted", "False after a character literal containing a raw newline.")
c("C52", "partial", "C52_columns_partial C52_block_comment_refuted", "False after a multi-line block comment; the exact cases are in the theorem.")
c("C28", "proved", "C28_munch")
c("C53", "proved", "C53_words")
c("C54", "proved", "C54_strings C54_triple C54_raw C54_chars C54_decimal")
c("C29", "partial", "C29_literal_partial C29_token C29_overflow_refuted C29_malformed_refuted",
  "Proved for every literal below 2^64; larger ones silently become 2^64-1 and some malformed ones are accepted.")

c("C30","partial","C30_round_trip_partial C30_precedence_partial C30_line_partial C30_unambiguous C30_total C30_paren_name_refuted C30_cast_minus_refuted C30_try_refuted C30_arrow_refuted C30_newline_refuted C30_assign_chain","Proved for every tree of the operator fragment (binary, prefix, postfix, cast, conditional, call, index, member, pipe): the printed tokens parse to the tree, every token sequence of the grammar parses to its unique tree. Missing: expressions in which '<' is followed by what reads as types and '>' (then it is parsed as a generic), '->' on plain names, and the refuted cases: parenthesised names before '*', '&', '(' are casts, '(T)-x' is a subtraction, 'x? - y' is rejected, '+ - * &' at the start of a line end the expression.")
c("C55","partial","C55_compound_refuted","Refuted: for every target the tree of l op= r contains each of its side effects twice.")
c("C34","proved","C34_distance","")
c("C35","proved","C35_nearest","")
c("C36","partial","C36_permutation C36_order_partial C36_const_refuted","Proved for every list of declarations and every type from which no containment cycle is reachable. Missing: a field type written with a leading const hides the dependency (refuted).")
c("C37","partial","C37_terminates C37_exact_partial C37_glue C37_glue_ends C37_array_refuted C37_instance_refuted","Proved for every list of parsed structs and their fields of struct type, with the drops the glue then runs. Missing: arrays of structs and instances of generic structs are not marked (refuted).")
c("C38","proved","C38_restore C38_lookup C38_all_symbols C38_shadow_warning","")
c("C42","partial","C42_framing_partial C42_any_input C42_long_header_refuted","Proved for every sequence of well-formed messages whose header lines fit the 512-byte line buffer; longer header lines are misread (refuted).")
c("C43","proved","C43_tokens","")
c("C44","proved","C44_lookup","")
c("C45","partial","C45_same_partial C45_equivalence_partial C45_refl_sym_partial C45_reflexive_refuted C45_symmetric_refuted C45_transitive_refuted","Proved on types without aliases, strings and unknown parts; refuted beyond.")
c("C46","partial","C46_identifier C46_fits C46_instance_identifier C46_injective_partial C46_instances_partial C46_collision_refuted C46_template_collision_refuted C46_overflow_refuted","Identifier part proved for all strings; distinctness proved for names and pointers whose names do not end in Ptr; refuted beyond.")
c("C47","partial","C47_total C47_replace_partial C47_two C47_backslash_refuted C47_char_literal_refuted C47_simultaneous_refuted","Proved for single-parameter text without backslashes or character literals holding quotes; the remaining cases are refuted.")
c("C48","partial","C48_quoted C48_unique C48_raw_partial C48_raw_refuted C48_open_refuted C48_unterminated_refuted","Proved for every literal in quotes or triple quotes that has a meaning; raw strings with backslashes, newlines or quotes are not raw (refuted), and unclosed literals are accepted or crash.")
c("C56","partial","C56_concat_partial C56_rejects C56_long_value_refuted C56_long_refuted C56_bool_refuted C56_ternary_refuted C56_overwritten_refuted","Proved while the inserted texts fit the fixed buffers; beyond that, and for booleans, the program has undefined behaviour, and a second evaluation overwrites the first result.")
c("C57","partial","C57_error C57_millionths_partial C57_small_refuted C57_precision_refuted","Proved for whole numbers of millionths; every other literal changes.")
c("C40","partial","C40_round_trip_partial C40_quotes_refuted C40_tab_refuted C40_blank_refuted C40_several_refuted C40_dropped_refuted C40_overflow_refuted C40_overflow_reachable_refuted","Proved for every list of command-line and directive flags without double quotes or control white space that fits its buffer; each excluded case is refuted, including a write past the buffer.")
c("C41","proved","C41_shell C41_only_directives","For every source, environment, operating system and pkg-config output.")
c("C58","partial","C58_directives_partial C58_environment_partial C58_in_string_refuted C58_framework_refuted","Proved for link, cflags, include, lib and define directives that fit and whose values have no dollar sign, double quote or control white space; environment variables are only covered by C41.")
c("C39","partial","C39_arrays_partial C39_no_panic_partial C39_layout_partial C39_huge_refuted C39_calloc_refuted","Proved for every history of allocations, resizings, copies, writes and reads with sizes below 2^62; beyond that size arithmetic wraps and allocations overlap (refuted).")
c("C33","partial","C33_semantics_partial C33_lifo_partial C33_bare_jump_refuted C33_slice_return_refuted C33_overflow_refuted C33_loop_nesting_refuted","The C statements generated for a function do exactly what the source says for every meaning of its parts, with defers run newest first once on every exit. Missing: goto, labelled jumps and match are not modelled. Found: a jump without braces under a guard runs unconditionally when defers wait; slice-literal returns skip defers; the 1025th pending defer is dropped; the 65th nested loop overruns an array.")
c("C32","partial","C32_generated_partial C32_language_partial C32_goto_refuted C32_guard_refuted","Proved for every accepted function without goto, for every meaning of its parts and any number of steps; goto over the return and a guarded default case are accepted although they can fall off the end (refuted).")
c("C31","partial","C31_sound_partial C31_loop_refuted C31_branch_refuted C31_unchecked_refuted C31_parameter_refuted C31_method_refuted C31_unseen_move_refuted C31_defer_refuted C31_left_side_refuted C31_shadow_refuted","Proved for every accepted function within stated syntactic limits, for all outcomes of conditions and any number of loop turns; outside the limits the check misses moves (each refuted by a program): loops, one-sided branches, do-while and range loops, parameters, methods, array elements and conditional arms, deferred uses, left sides, shadowing.")
c("C59","partial","C59_reply_partial C59_unambiguous C59_total C59_request_headers_refuted C59_status_refuted C59_segments_refuted C59_injection_refuted","For every request that arrives in one read of less than 4096 bytes and every handler that answers 200 or 404 with clean headers: the handler sees method and path, and the client gets one unambiguous HTTP message with the handler's headers and body. No input crashes the server. Found: request headers and body never reach the handler, other statuses become 500, a request in several segments is not answered, header values can inject headers.")
c("C60","partial","C60_fetch_partial C60_roundtrip_partial C60_headers_refuted C60_body_refuted C60_host_refuted C60_blank_refuted","For every http URL and every HTTP answer that arrives in one read of less than 4096 bytes without a NUL, fetch returns its status and body; end to end with the server. Found: headers lost, later segments, NULs and bytes after 4095 lost, port missing in Host, blanks in the path, out-of-range status undefined.")
c("C61","partial","C61_output_partial C61_run_partial C61_unstartable C61_blank_refuted C61_empty_refuted C61_injection_refuted C61_code_refuted C61_nul_refuted","For every program and argument list made of characters that mean nothing to the shell: run with exactly these arguments, all NUL-free output returned, code 0 exactly for exit code 0. Found: arguments are not quoted (blanks split, empty arguments vanish, a semicolon starts another program), the code is 256 times the exit code, NUL bytes cut lines.")
c("C62","partial","C62_match C62_find C62_find_at_partial C62_match_at C62_count_partial C62_split_partial C62_invalid C62_position_refuted C62_full_refuted C62_count_refuted C62_split_refuted","For every pattern and a library that returns leftmost matches: match, find and as_string are right. Found: find_at counts positions from its start, match_full accepts any text containing a match, count returns 1 + the position of the last match, split loses everything before it.")
c("C63","partial","C63_files_partial C63_closed C63_read_dir_partial C63_current_dir C63_nul_refuted C63_pipe_refuted C63_full_disk_refuted C63_dir_type_refuted C63_write_result","Refinement to a map from paths to texts for every history, every buffering, on a disk with room. Found: contents are cut at a NUL, reading a pipe overflows the buffer, a write that fails when the file is closed is reported as done, directories of unknown type are listed as files.")
c("C64","partial","C64_at_most_once C64_exactly_once_partial C64_only_created C64_shadow_refuted C64_lost_refuted C64_zeroed_refuted C64_limit_refuted","For every program without shadowed names and with at most 1024 such variables in scope, on every path: never dropped twice; exactly once if variables are not reassigned and results not thrown away. Found: return in a scope that shadows a name drops the inner object twice; assignment and discarded results leak; return calls drop on a zeroed object; the 1025th variable is not dropped.")
c("C65","partial","C65_first_partial C65_guard_refuted C65_pattern_refuted C65_option_refuted C65_name_refuted C65_overflow_refuted","First fitting arm, for every list of arms without guards over plain literals, ranges, strings and variants. Found: guards are parsed and never generated; 017 is octal in a pattern only; strings with a bar or two dots do not compile; matching a user enum named Option or Result always runs the first arm; Type_Variant names collide; 1024 bytes of patterns overflow a buffer.")
c("C66","partial","C66_range_partial C66_same_type C66_repeat C66_inclusive_refuted C66_mixed_types_refuted C66_step_refuted C66_end_refuted","Exactly the range, for all types, steps and bodies, if the number after the range fits the type and the comparison keeps the values. Found: an inclusive range to the largest value of its type overflows or never ends; 0..n with n beyond int overflows, as the variable has the type of the start; -1..n with n unsigned visits nothing; a negative step in a variable counts up; a downward inclusive range to 0 over an unsigned type never ends; the end is evaluated anew before each turn.")
c("C67","partial","C67_bytes_partial C67_char_array_refuted C67_array_size_refuted C67_zero_refuted C67_name_refuted C67_prefix_refuted","The initialiser denotes exactly the bytes of every file below 2^31 bytes, as slice, array and string. Found: as [char; n] the initialiser is not C; the size of the array is ignored; a string ends at a zero byte; a name of 256 characters overflows a buffer; a variable whose name begins with embed cannot initialise another.")
c("C68","partial","C68_condition_partial C68_select_partial C68_any_refuted C68_ignored_refuted C68_trait_refuted C68_global_refuted C68_import_refuted","The condition evaluates to the conjunction of the attributes, and preprocessing the generated file gives the file of the selected program, for functions, impl blocks, structs, enums, traits and globals of different names. Found: any and all never accept a plain name (the code tests the wrong token); raw blocks, tests and aliases ignore @cfg; on a trait implementation an #if is left open; of two globals of one name only the last is generated; an import passes its condition to the first declaration only and replaces that one's own.")
c("C69","partial","C69_print_partial C69_open_refuted C69_braces_refuted C69_long_refuted C69_format_refuted C69_method_pointer_refuted C69_char_pointer_refuted C69_guess_refuted C69_const_refuted C69_triple_refuted","Proved for statements whose pieces are text and balanced expressions and whose generated code fits the buffer. Found: doubled braces are not braces, and an open one makes the compiler read past the string; 8192 bytes of text overflow a buffer; escaped quotes before a format eat its first characters; a pointer to a struct with to_string prints the address of the text; a pointer to a struct whose name contains char is printed as a string; an expression of unknown type beginning with a digit or minus is printed with %d; a const i8 prints as a character; the ! and ? shorthands print quotes of a multi-line string. The expression parser, evaluator, C string decoding and the conversions of fprintf are oracles.")
c("C70","partial","C70_captures_partial C70_history_partial C70_list C70_limit_refuted C70_unknown_refuted C70_nested_refuted C70_outlives_refuted C70_unseen_refuted C70_inner_refuted C70_parameter_refuted C70_const_refuted C70_function_refuted C70_ctx_refuted C70_assign_refuted","Proved for closures whose body has only constructs the analysis looks into and in which no name has two meanings, with at most 32 captures, created outside of other closures. Found: a closure in a closure reads its own uninitialised context instead of the enclosing one; a reference outlives the function; variables used only in casts, conditionals, struct literals, print statements or inner closures are not captured; a name declared in an inner block is not captured for the rest of the body; a parameter with the name of an explicit capture is not read; a constant in the closure does not hide an outer variable; variables named like a function, or ctx, cannot be captured; unknown C names are captured as int; more than 32 captures overflow; assigning to a variable captured by value is accepted. Moves and destructors of captured values are not modelled.")
c("C71","partial","C71_serial C71_stuck C71_new_refuted C71_twice_refuted C71_unlock_refuted C71_cancel_refuted C71_sleep_partial C71_sleep_refuted C71_detach C71_cancel","Proved for programs with one mutex that never use it after freeing it, join only threads that were not joined before, and free the mutex when all others are done (these conditions are stated on the one-at-a-time semantics). Found: Mutex::new does not check malloc; joining twice, joining after detach and unlocking a mutex of another thread are undefined behaviour that no type or flag prevents; a thread cancelled in a critical section leaves the mutex locked and its closure allocated; sleep_ms is undefined for more than 2147483 ms and a negative time sleeps over 35 minutes. Memory is sequentially consistent in the model; the POSIX functions are its instructions.")
c("C72","partial","C72_await_partial C72_fields_partial C72_params_refuted C72_comma_refuted C72_float_refuted C72_pointer_refuted C72_alias_refuted C72_variable_refuted C72_name_refuted C72_failure_refuted C72_twice_refuted","Proved for results of integer types, 128-bit integers, structs with ordinary names and pointers to numbers, without failures. Found: float and double results lose their fraction; strings and pointers to anything but numbers come back as the address of an internal box, which leaks; so does an alias of a number; awaiting a variable cuts i64, u32, u64, usize and isize to 32 bits; struct names beginning with int, uint, i8 and so on do not compile; failures of malloc and pthread_create are ignored; awaiting twice is undefined; more than 16 parameters or 1023 bytes of them overflow buffers; types with a comma are cut. The bodies of the functions are not modelled: what they return is part of the history.")
c("C73","partial","C73_default_partial C73_binding_partial C73_accept_partial C73_unchecked_refuted C73_scope_refuted C73_lost_refuted C73_overflow_refuted","Proved for functions whose definition precedes the call and for defaults that can be printed and parsed back (proved with the parser of C30). Found: names are not checked inside the function itself, for functions of impl blocks and for functions defined later, so swapped names pass silently; names in a default mean the locals of the caller; a conditional, \"?\" or postfix increment in a default is lost or rejected at the call, \"?.\" becomes \".\"; a long default overruns a 4096 byte buffer. String, float and struct literals in defaults are not modelled.")
c("C74","partial","C74_ownership_partial C74_exactly_once_partial C74_leak_refuted C74_twice_refuted C74_unwrap_twice_refuted C74_forget_refuted","Proved for programs that use up every option at most once and leave none with a value in it. Found: an option that ends with a value in it never drops it; expect, unwrap_or and or_else leave the value in the option too, so a second use makes it drop twice; after unwrap the option still answers is_some, and a second unwrap returns a zeroed value instead of panicking. unwrap_ref is not modelled.")
c("C75","partial","C75_for_in_partial C75_read_only C75_array C75_growth_refuted C75_shrink_refuted","Proved for bodies that keep the number of items between its value at the start and the capacity (in particular all that only read or overwrite), and for arrays. Found: a push in the body that grows the vector leaves the iterator with a freed block, for every full vector of two items or more; items removed in the body are still visited.")
c("C76","partial","C76_operands_partial C76_twice_refuted C76_coalesce_twice_refuted C76_capture_refuted","Proved for compound assignments whose target only reads and for programs with no variable called _l. Found: a[f()] += x calls f twice, reading one element and writing another; ??= likewise; a ?? _l sees the temporary of the generated code instead of the variable.")
c("C77","partial","C77_meaning_partial C77_deferred_refuted C77_variant_order_refuted C77_option_refuted","Proved where nothing is deferred at the ? and the operand type lists its variants as the function type does. Found: an error leaves by a bare C return, skipping every pending defer and drop (a leak or a lock never released); an operand enum with Ok and Err in the other order has successes returned as errors; ? does not exist for Option although the manual promises it.")
c("C78","partial","C78_eq_partial C78_equivalence_partial C78_payload_refuted C78_array_refuted C78_null_refuted C78_text_partial C78_text_refuted","Proved for every type without arrays and enum payloads, on values without null strings (and NaN, for reflexivity). Found: enum payloads are never compared; array fields are compared by address, so such a struct differs from its own copy; a null string is undefined behaviour; a method text of 4096 bytes or a comparison of 256 bytes overruns an array in the compiler.")
c("C79","partial","C79_roundtrip_partial C79_text_partial C79_wide_refuted C79_missing_refuted C79_method_partial C79_method_refuted","Proved for every struct type and value whose integers fit an int (and, through text, within C19). Found: an i64, u32, u64 or usize field of 2^31 or more makes from_json undefined behaviour; from_json never reports an error and leaves a missing nested struct unassigned; fourteen Vec<String> fields or a field name of 62 letters overrun arrays in the compiler.")
c("C80","partial","C80_dispatch_partial C80_missing_refuted C80_selfless_refuted C80_arguments_partial C80_many_refuted C80_letters_refuted C80_implementations_refuted","Proved for programs without colliding symbols, at most 1024 implementations, methods with self, fewer than 16 further parameters and 1024 bytes of declaration. Found: a missing method is a call of a null pointer; methods without self or returning Self are undefined behaviour; 17 parameters overrun an array; the letters self in any parameter drop an argument.")
c("C81","partial","C81_meaning_partial C81_size_refuted C81_chain_refuted C81_literal_refuted C81_pointer_refuted C81_compound_refuted C81_traits_refuted C81_long_refuted","Proved for all expressions in which the compiler can make the pointers needed. Found: each operator or method call in a chain doubles the text of its left operand, so n of them give 2^n bytes of C; literals and conditionals are not accepted by pointer; a pointer on the right is not dereferenced; compound assignment neither makes pointers nor sees traits; long struct names overrun a 256-byte buffer.")
c("C82","partial","C82_terminates C82_once_partial C82_missing C82_main_refuted C82_attributes_refuted C82_alias_refuted C82_many_refuted C82_modules_refuted C82_resolve C82_long_path_refuted C82_module_name C82_module_text C82_names_partial","Termination, completeness, uniqueness and order are proved for all projects, attributes from the second definition of a file on. Found: the first definition of an imported file loses its @cfg and other attributes; importing the main file duplicates it; an alias or names for a file already read are dropped; more than 32 names overrun an array; modules of the same file name in different directories share a prefix.")
c("C83","partial","C83_index_partial C83_view C83_element_slice_refuted C83_wide_index_refuted C83_warning_partial C83_warning_refuted","Proved for every typed program without raw pointers in which slices are indexed under the name of a variable. Found: a slice that is an array element, a field or the result of a call is indexed without any check; an index wider than 64 bits is reduced before the check; a literal index is reduced to an int before the warning.")
c("C84","partial","C84_descriptors C84_close_twice C84_accept_closed C84_read_exact C84_read_exact_succeeds C84_write_refuted C84_write_partial C84_port_refuted C84_made","Ownership of descriptors and read_exact are proved in full. Found: write may send only a part and report success; ports are taken modulo 65536. Not modelled: DNS, the text of addresses, signals.")
c("C85","partial","C85_value_partial C85_body_partial C85_no_else_refuted C85_types_refuted C85_defer_refuted C85_defer_twice_refuted C85_size_refuted","Proved for branches of one type with else and without defer. Found: without else an unset variable is read; the second branch is converted to the type of the first; a defer in a branch runs at the end of the function even if the branch was not taken, and 2^n times below n ifs; the output doubles with each level. Not modelled: return, break and continue inside branches.")
c("C86","partial","C86_sound_partial C86_complete_partial C86_operators_refuted C86_compound_refuted C86_return_refuted C86_void_pointer_refuted C86_shift_refuted C86_refuses_refuted","Soundness and completeness against the constraints of ISO C on a fragment, with the list of what the checker does not look at and of what it refuses needlessly. Found: % on floats, ! and && on structs, comparing structs, assigning to or indexing a number, all assignment operators and the type of returned values pass unchecked; void* converts to and from anything; let x: f64 = 1 and arithmetic on aliases are refused. Not modelled: arrays, vectors, casts, match, lambdas.")
c("C87","partial","C87_once C87_instances_partial C87_underscore_refuted C87_capital_refuted C87_nested_refuted C87_pointer_refuted C87_struct_pointer_refuted C87_suffix_refuted C87_self_refuted C87_growing_refuted","Proved in full: no instance is written twice. Proved for templates whose fields mention templates at their own parameter, used at arguments of one plain word: exactly the needed instances, the right fields, termination. Found: a field Vec<T> of a struct used at int32_t (or at any name with an underscore) is never instantiated; so is anything at a struct named by one capital letter; Vec<Vec<T>> and Vec<T*> in a template leave T in the output; Point* becomes PointPtr; a struct named Matrix_T is renamed; a template cannot mention an instance of itself; growing instances overflow a 256-byte buffer. Not modelled: methods, enums, several parameters, arrays.")
c("C88","partial","C88_itos C88_utos C88_reads_partial C88_truncated_refuted C88_shared_refuted C88_into C88_println C88_println_error_refuted","Numerals, format_into and println in full; results read right up to 1023 bytes, allocated ones for ever, the others until the next call of the same function. False otherwise: longer texts are cut silently, two results of itos are one string, a refused println reports 0. What the C library makes of a format is not modelled.")
c("C89","partial","C89_get C89_refuses C89_equals_refuted C89_pointer_refuted C89_sleep_partial C89_sleep_refuted C89_now C89_secs_partial C89_secs_refuted","Histories refine a finite map for all proper names. False: get of a name with an equals sign finds part of another value; the string get returns may not be read after any later set; sleeping 71 minutes 34.968 seconds or more waits for less (4294968 ms for 704 microseconds); from_secs wraps. The POSIX functions are modelled as in the GNU C library; randomize_hash and Windows are not.")
c("C90","partial","C90_iterate C90_get C90_view C90_long_refuted C90_swap C90_zero C90_copy_partial C90_copy_refuted C90_alloc_partial C90_alloc_refuted C90_box_refuted","Proved for every memory and aliasing. False: a slice may be longer than its array and then reads outside; copying between ranges that overlap is undefined; alloc_n wraps the size from 2^64 bytes on and the last element is outside; a Box still reports non-null after free and a second free is undefined.")
c("C91","partial","C91_fields_partial C91_variant C91_distinct_partial C91_separator_refuted C91_nested_refuted C91_pointer_refuted C91_long_refuted C91_seventeen_refuted C91_order_partial C91_order_refuted C91_literal_partial C91_literal_refuted C91_long_string_refuted C91_typed_partial C91_typed_long_refuted C91_eof_refuted C91_destructure","Fields, names and literals are proved for element names apart from the separator, bounded sizes and plain elements. False: names with two underscores and nested tuples (more fields than elements), pointer elements (the struct name has a star in it), types over 255 bytes, literals over sixteen elements, string elements of 254 bytes, typed elements of 256 bytes (memory errors), tuples of structs of the program (used before they are declared), any element that is not a literal or variable, and characters (the value becomes 0), and a typed literal the file ends in (the compiler does not finish).")
c("C92","partial","C92_reject C92_check C92_build C92_cc_fails C92_overwrites_refuted C92_run_partial C92_signal C92_status_refuted C92_absolute_refuted C92_transpile","Rejecting, checking, building and transpiling are proved; run is proved for relative output names and exit codes other than 128. False: exit code 128 is reported as 0 (the wait status is taken apart twice), an absolute output name makes run execute another file, and a file of the user that has the name of the temporary C file is overwritten and removed. Output names up to 1019 bytes; no links.")
c("C93","partial","C93_decodes C93_answers C93_complete_partial C93_first_refuted C93_members_refuted C93_constructs_refuted C93_second_refuted C93_ties","Decoding, order and soundness are proved for all trees. Completeness is proved for trees whose lists of declarations, fields, variants and methods have one element at most. It is false otherwise: only the first declaration of a file, the first field, variant and method are visited, and nothing inside constructs such as if and while.")
c("C94","partial","C94_update C94_hover_refuted C94_references C94_index_partial C94_methods_refuted C94_rename_partial C94_scope_refuted C94_case_refuted C94_goto_partial C94_goto_itself C94_goto_other_partial C94_goto_refuted","Updating and references by name are proved; the index is sound, and complete for constructs the walk enters; the edits of a rename are exactly the ranges with that name when no addresses differ in case alone; go to definition is proved within one file. False: names below constructs the walk does not enter (methods of an impl, operands of unary operators, ...) are missed; rename changes everything with the same name whatever its definition; edits of files whose addresses differ in case alone land in one of them; go to definition across files can land in the wrong file; a name of 256 bytes overflows a buffer.")
c("C95","partial","C95_answered C95_rename C95_initialize C95_root C95_known_partial C95_unknown_file_refuted C95_signature_refuted C95_unknown_method_refuted C95_string_id_refuted C95_big_id_refuted C95_session C95_changes_refuted C95_close_refuted","Sessions, initialize, outline, references, tokens and rename are proved for ids that fit an int; definition, hover and completion for known files. False: these three are not answered for an unknown file; signature help is offered and never answered; other requests (shutdown) get no answer; string ids come back as 0 and large ids as 2147483647; of several changes in one notification the first is taken; closing a file does not give up its text.")
c("C96","partial","C96_run_partial C96_main_refuted C96_neither C96_percent_refuted C96_double_refuted C96_defer_refuted C96_condition_partial C96_comma_refuted C96_parse_partial C96_parenthesis_partial C96_cut_refuted","Proved for programs without main and messages without a percent sign. False: with a main no test ever runs; the message is a printf format (a percent sign is undefined behaviour, two are one); deferred statements do not run when an assertion fails; a condition with a comma outside parentheses (a struct or array literal) is cut at it by the macro; an assertion that begins with a parenthesised operand, such as assert (n) - 2 == 6, tests only what is inside.")
c("C97","partial","C97_read_partial C97_deep_refuted C97_write C97_round_trip C97_safe C97_junk_refuted C97_digits_refuted C97_nul_refuted","Proved for values nested at most 1000 deep whose strings have no NUL; numbers are those strtod reads back from their text. False: deeper values are written but not read; what follows the value is not looked at; an escape with four characters that are not hexadecimal digits is accepted as NUL; a string is cut at an escaped NUL.")
c("C98","partial","C98_edit C98_safe C98_control C98_search C98_tab_partial C98_tab_refuted C98_delete_refuted C98_search_backspace_refuted C98_search_arrow_refuted C98_utf8_refuted C98_eof_refuted","Editing, history and safety are proved for all inputs. Tab is proved for lines not taken from the history and below 1023 bytes. False: Tab does nothing on a recalled line; the Delete key types a tilde; Backspace in a search changes the line found; cursor keys do not end a search; Backspace takes one byte of a longer character; the end of the input is not reported.")
c("C99","partial","C99_code C99_statement_partial C99_twice_refuted C99_second_refuted C99_lines_refuted C99_kept_partial C99_kept_refuted C99_long_refuted C99_header_refuted C99_expression_refuted C99_unknown_refuted C99_init_refuted C99_delete C99_load_partial C99_load_long_refuted C99_unwatch C99_commands_partial C99_watch_refuted C99_eof_refuted","The program made from a history, the first statement of a session, the history file and the commands :undo, :delete, :load are proved. False: each statement is run twice; the history is freed after the first statement, so that a second one is undefined behaviour; a statement of two lines runs nothing and one of three is undefined behaviour; only seven bytes decide whether a line is an expression; a statement whose name starts like a declaration is moved out of main; an unknown command is run as a statement; lines are cut at 1022 bytes; start file lines with # are dropped; a watch of 500 bytes overflows a buffer; the end of the input never ends the session. Missing: :show, :edit, :vars, :type, :time, :c.")
c("C100","partial","C100_options_partial C100_no_command C100_dot_refuted C100_command_refuted C100_level_refuted C100_missing_refuted C100_two_words_refuted C100_compile_partial C100_library_refuted C100_compiler_refuted C100_linked C100_files","Proved for option lists that fit the buffers of flags and have no quotes in them. False: a first option with a dot in it is taken for the program; a mistyped command is dropped and the program built; -O alone takes the next file for its level; a missing value at the end is not reported except for -o; options of the C compiler with a separate value lose it to the files; on Linux the standard library is looked for below the executable file and so only found in the working directory; a C compiler with a blank in its path is taken apart and a name of 64 bytes cut.")
c("C101","partial","C101_safe C101_safe_end C101_body_partial C101_text_partial C101_end_partial C101_layout_refuted C101_lost_refuted C101_import_partial C101_alias_refuted C101_unknown C101_unknown_refuted","Proved: memory safety and termination for every source; all tokens in order when they fit in 8190 bytes, so all non-blank characters of a block without comments; the alias of an import reaches its plugin if later libraries have other names. False: layout and comments are lost, tokens that do not fit are left out silently, two libraries with one internal name are confused, and an unknown plugin in the form with end becomes a C comment.")
c("C102","partial","C102_brackets C102_run_partial C102_again_refuted C102_tape_refuted C102_unmatched_refuted","Proved for every program whose brackets match and whose head stays on the 30000 cells, as a simulation in both directions. False: the tape is static, so a second run starts on what the first left; leaving the tape is undefined behaviour; unmatched brackets are not reported but emitted as C that is not one block.")
c("C103","partial","C103_safe C103_sound C103_exact_partial C103_search_refuted C103_greedy_refuted C103_repeat_refuted C103_open_refuted C103_quote_refuted","Proved: no read outside the text for any pattern; accepted texts match; the exact language for anchored patterns in which each repetition may take all it can get. False: there is no search, no giving back of characters, no repetition after anything but a set, no report of an open set, and quotes and backslashes give C that does not compile.")
c("C104","partial","C104_fields_partial C104_width_refuted C104_unknown_refuted C104_many_refuted C104_call_partial C104_temp_refuted C104_deep_refuted C104_first_partial C104_later_refuted C104_layout_refuted","Proved: names and types of all fields for up to eight mixins defined before; the resolution of methods; a mixin that comes first lies at its own offsets. False: a mixin after another field is looked for at the start of the struct; bit widths are lost; the ninth mixin overflows an array; undefined mixins vanish silently; methods of mixins of mixins and on call results are not found; a packed mixin is laid out differently, and assigning a whole mixin may overwrite later fields.")
c("C105","partial","C105_text C105_order_partial C105_impl_refuted C105_shared_refuted C105_scope_refuted C105_output_partial C105_clean_partial C105_left_refuted C105_collide_refuted","Proved: the extent of the block, the order of declarations and statements without impl, and that with distinct random numbers every schedule gives each compiler its own output and removes its files on success. False: impl blocks are dropped silently; comptime functions are declared after the functions of the block that may call them; two or more statements of output land in a C block of their own; a failing program leaves its files; equal random numbers mix up the outputs (nothing checks that the name is free).")
c("C106","partial","C106_decl_partial C106_type_partial C106_fun_partial C106_suffix_partial C106_size C106_ptr_array_refuted C106_fn_array_refuted C106_const_refuted C106_negative_refuted C106_alias_refuted C106_nested_refuted","Proved against the inside-out reading of C declarators for base types, slices, closures, pointers to these, fixed arrays of these, function pointers returning these and pointers to function pointers, and functions returning them. False: a pointer to a fixed array, an array of function pointers, a function pointer returning a function pointer, a function returning a pointer to a function pointer and a typedef of an array are not C declarations of their type; a const pointer is written as a pointer to const; arrays of opaque array types have their sizes exchanged; a negative size makes the compiler recurse for ever.")
c("C107","partial","C107_literal_partial C107_pattern_partial C107_bind_partial C107_roundtrip_partial C107_tuple_partial C107_names C107_guard_partial C107_seventeen_refuted C107_equals_refuted C107_arity_refuted C107_fall_refuted C107_variant_refuted C107_order_refuted C107_splat_refuted","Proved: the values of a literal for expressions whose value does not depend on the order, for every order; patterns of up to sixteen fields; the values bound; the round trip; tuples; guards whose else block leaves. False: the order of evaluation is left to the C compiler; the seventeenth field overflows an array; any operator is taken for the equals sign; a tuple pattern may have fewer names; the else block of a guard may fall through and then an empty value is used; guards on variants of other enums do not compile; a one-value vector literal evaluates it once per lane.")
c("C108","partial","C108_cut_partial C108_element C108_bounds C108_outside C108_start_refuted C108_reversed_partial C108_range_refuted C108_open_refuted C108_capture_refuted C108_wide_refuted C108_type_partial C108_array_refuted C108_name_refuted C108_pass C108_return_partial C108_defer_partial C108_defer_refuted","Proved for every chain of slice expressions in range whose bounds do not use the names _arr, _start and _len. False: bounds are not checked against the sliced value, so the checked index reads outside; an open end on a pointer gives an empty slice; bounds that use those names are captured; bounds are reduced to 32 bits; fixed arrays cannot be sliced at all, nor can slices of int (the C text does not compile); a function that returns an array literal as a slice skips its defers.")
c("C109","partial","C109_match_partial C109_constructor C109_names C109_total_partial C109_none_refuted C109_explicit_refuted C109_underscore_refuted C109_module_refuted C109_qualified_refuted C109_nine_refuted C109_warning_partial C109_alternatives_refuted","Proved for every set of enums with distinct names, without explicit values and underscores in variant names, and every list of arms. False: explicit values shift the tags patterns are tested against but not the tags of the values, so later variants are missed; a variant with an underscore in its name binds the payload of another one; enums of one name in two modules share one table, and the tags of the one read last are used; a pattern that names the module does not compile; a ninth binding overflows an array; a match without a fitting arm used as a value has none; alternatives are reported as missing.")
c("C110","partial","C110_zero_partial C110_zero_refuted C110_value C110_static_partial C110_static_refuted C110_autofree_partial C110_alias_refuted C110_flag_refuted C110_return_refuted C110_zero_value","Proved: numbers, floats, bools, structs, arrays and slices start as zero, global variables of every type do; a static variable without drop finds in every call what the call before left, whatever the function does and declares; distinct live blocks in autofree variables are freed once on every way out. False: local pointers, strings, function values, vectors and opaque aliases have no value, a void pointer without one does not compile; a static variable whose type has drop starts again in every call, because the word static goes to its drop flag; an autofree variable whose type has drop has its drop flag freed; two autofree variables with one block free it twice; a function that returns its autofree variable returns a freed block. The drop glue itself is C64.")
c("C111","partial","C111_block_partial C111_basic_partial C111_escape_refuted C111_no_output_refuted C111_mode_refuted C111_long_refuted C111_many_refuted C111_digit_refuted C111_unknown_refuted C111_lines_partial C111_bare_partial C111_bare_refuted","Proved for every block of strings with an output: through the C string literal and the template rules of GNU C the assembler gets the text with the right operands, percent signs included; and for every block without operands. False: a block with inputs or clobbers but no output does not compile, because the colon of the missing list is not written; an input in the first list becomes an output; escapes in the strings are passed on as two characters; a digit right behind a placeholder changes the operand; names of 64 bytes, a seventeenth operand and code of 4096 bytes overflow buffers; an unknown placeholder is not reported; instructions without quotes lose blanks and lines. Braces and bars as dialect alternatives are not described.")
c("C112","partial","C112_field_partial C112_inside C112_literal C112_field_refuted C112_alias_partial C112_alias_inside C112_alias_refuted","Proved for all expressions whose variables and functions have types the parser knows: an accepted one reads a field of an opaque struct in its own file only, and there nothing is rejected; literals likewise; a declaration with an opaque alias outside its file takes that alias only and none of its values leaves it. False: values of unknown type, opaque aliases of an opaque struct, destructuring and every instance of an opaque generic struct are not checked; inside the file, and behind a pointer anywhere, a declaration takes values of any type. Assignments, arguments and returned values are not checked by this code and not modelled.")
c("C113","partial","C113_load C113_run_partial C113_string_refuted C113_stack_refuted C113_bridge_refuted C113_missing_refuted C113_quote_refuted","Proved: the playfield is the text behind its first newlines, cut at 80 by 25; and a run of any number of steps prints the same and ends with the language, as long as every step is one the plugin handles. False: in a string instructions are carried out and blanks left out; an empty stack is read in front of the array and a full one written behind it, where the language gives zeros; a bridge at the edge lands one cell early; g, p, & , ~ and ? do nothing; a single quote anywhere gives C code that does not compile. How the text of a block reaches the plugin is C101.")
c("C114","partial","C114_scan_partial C114_short_partial C114_stop_partial C114_end C114_many_refuted C114_size_refuted C114_range_refuted C114_byte_refuted C114_string_refuted","Proved for up to 16 variables of types int, i32, u32, uint, rune, char, f32, f64 and (with a prompt) string: all values, short lines, a wrong word where a number is due, end of input. False: i16, u16, i64, u64, usize, isize, 128-bit integers and bool are read with the conversion for int (undefined behaviour); numbers outside int, also for u32; i8, u8 and byte take one character instead of the number; readln(s) writes over the pointer; more than 16 variables overflow an array of the compiler; a blank line counts as -1. How the text of a floating-point number is read is a parameter.")
c("C115","partial","C115_loops_partial C115_label_refuted C115_inner_refuted C115_quote_refuted C115_repeat_refuted C115_else_refuted C115_twice_refuted C115_outside","Proved for all programs without labelled jumps, from the tokens to the execution of the C code, with counts of repeat that do not change and names that do not start with else. False: the documented break L and continue L do not compile, or leave the innermost loop if a variable L exists; with a quote they become a goto to a label that is never written; repeat asks for its count in every round; behind an if, a call to a function whose name starts with else is taken for the word else. Not modelled: a labelled jump to a label __break_L the program has itself.")
c("C116","partial","C116_lisp_partial C116_extra_refuted C116_compare_refuted C116_list_refuted C116_string_refuted C116_let_refuted C116_binding_refuted C116_octal_refuted C116_print_refuted C116_unclosed C116_closer C116_missing","Proved for any expressions with arithmetic and < on two arguments, cons, car, cdr, if, calls, and let whose bindings do not look at its own names. False: a third argument of + - * / is dropped; > and == call functions that do not exist; list and strings are nil; the bindings of let see each other and themselves uninitialised; a binding without parentheses makes the compiler run for ever; a leading 0 makes a number octal; print is not an expression. Not modelled: defun, effects of functions, what print writes.")
c("C117","partial","C117_forth_partial C117_nested_refuted C117_zero_refuted C117_unknown C117_redefined_refuted C117_long_refuted C117_underflow_refuted C117_overflow_refuted C117_carried C117_recursion_refuted C117_index","Proved for every program whose execution terminates within the bounds (256 numbers on the stack, 32 loops inside each other, 128 definitions of 511 characters, 8191 bytes written), where no if is inside an if and no word is defined twice. False: an if inside a branch that is not taken ends that branch; a division by 0 leaves the dividend; a new definition changes the words before it; names longer than 31 are not found; an empty stack gives 0 and a full one drops numbers silently; a word that calls itself never ends. The stack and the words pass from one block to the next, and an unknown word is written as it stands (the words of load_prelude are never loaded). Not modelled: floating point, memory words, strings.")
c("C118","partial","C118_sql_partial C118_elsewhere_refuted C118_full_refuted C118_where_refuted C118_comment_refuted C118_type_refuted C118_missing_refuted C118_backslash_refuted C118_long_refuted C118_again_refuted C118_unknown C118_number C118_adjacent C118_call_refuted","Proved for all blocks of CREATE TABLE with TEXT, STRING, INT and INTEGER columns, INSERT with as many values as columns and SELECT *, with names below 64 and 32 characters, where each table keeps 128 rows. False: the tables of one block cannot be used in another; rows behind 128 are lost silently; WHERE and LIMIT are ignored; statements behind two dashes run; VARCHAR is a column of numbers and T one of strings; a string that is not given, a string that ends with a backslash and long names are undefined; the rows stay from one run of the block to the next. The values are C expressions, given by an oracle, and the C code is kept as a tree.")
c("C119","partial","C119_compiler_partial C119_editor_partial C119_caret C119_thousand_refuted C119_tab_refuted C119_quiet C119_json_partial C119_json_count_refuted C119_long_refuted C119_suggestion_refuted C119_nowhere_refuted C119_hints_refuted C119_before_refuted","Proved for all histories of reports whose tokens have the line and column of their place (C27, C52), with texts that fit the buffers, and without zerror_with_suggestion in the compiler, which no code calls. False: from line 1000 on and behind tabs the caret is to the left of the token; with JSON output warnings are not counted and messages are cut at 1023 bytes; zerror_with_suggestion calls a null pointer in the compiler; a fatal error without a place reads a null pointer; hints of 4095 bytes with one more behind them overflow their buffer. The colours are seen as a terminal does, and the object is kept as its members (its text is that of C97).")
c("C120","partial","C120_one_partial C120_silent C120_each C120_ten_refuted C120_entry_refuted C120_json_refuted C120_unknown","Proved for all files whose entries have a known trigger and a text, all histories and all draws. False: an entry behind the first ten of its trigger is never shown (the file that comes with the compiler has more than fifty general ones); an entry without a text is undefined when drawn; one without a trigger is shown for goto; and a tip is written as text in JSON mode too.")
c("C121","partial","C121_words_partial C121_calls_partial C121_same C121_safe C121_visible_partial C121_literal_refuted C121_full_refuted C121_zero_refuted C121_memory_refuted","Proved for all texts made of words and changes of colour, in one or many calls. False: printf and fprintf are replaced in the whole compiler, so the C file is treated as well, and a string literal of the program that holds an escape byte and a bracket loses the bytes up to the next m, or its closing quote if there is none; a write that fails is reported as a success; a byte 0 ends the text; without memory a long text is dropped.")
c("C122","partial","C122_warned_partial C122_list C122_hint C122_named_refuted C122_std_refuted C122_long_refuted","Proved for all files and programs, for calls without named arguments and names that fit the buffers. False: a call that names its arguments is not checked; any imported file with /std/ in its path hides every undefined function; with a long ZC_ROOT another file is read. Not modelled: the text of the files (C97) and the lookups of the symbol tables (C38).")
c("C123","partial","C123_fields_partial C123_names_partial C123_above_refuted C123_shadow_refuted C123_many_refuted C123_outside_refuted C123_long_refuted C123_type_refuted","Proved for all programs and positions, for names that fit the buffers and functions with fewer than 1024 statements. False: a variable declared on the line just above the cursor is not offered (its line is counted from 1, that of the cursor from 0); of two variables of one name the outer is always taken; with 1023 statements or more no variable is offered; a column behind the end of the text reads outside it, and long names overflow.")
c("C124","partial","C124_help_partial C124_only C124_behind C124_nested_refuted C124_long_refuted C124_outline","Proved for all texts and positions behind arguments without parentheses, for signatures that fit the buffers; a signature is never shown elsewhere, and none behind the end of the text. The outline is proved for all files whose tokens stand at the names. False: behind an argument that is itself a call nothing is shown; types of 1024 bytes overflow. Missing: parentheses in strings and comments count as calls.")
