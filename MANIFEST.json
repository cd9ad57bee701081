{
 "claims": [
  {
   "property": "C01",
   "status": "proved",
   "theorems": [
    "C01_add_exact",
    "C01_subtract_exact",
    "C01_multiply_exact",
    "C01_translated_words",
    "C01_translated_words_unary"
   ],
   "note": ""
  },
  {
   "property": "C02",
   "status": "partial",
   "theorems": [
    "C02_increment_is_plus_one",
    "C02_decrement_is_minus_one_partial",
    "C02_decrement_big",
    "C02_decrement_refuted",
    "C02_translated_words"
   ],
   "note": "False as stated: C02_decrement_refuted (x - 1 on an arbitrary-precision x answers 1 - x). C02_decrement_big says it is right only for 1; for all other numbers both directions are proved."
  },
  {
   "property": "C03",
   "status": "proved",
   "theorems": [
    "C03_order",
    "C03_equals_non_number"
   ],
   "note": ""
  },
  {
   "property": "C04",
   "status": "partial",
   "theorems": [
    "C04_floor_division_partial",
    "C04_zero_divisor_fails",
    "C04_floor_division_refuted"
   ],
   "note": "False as stated when translated: the most negative word divided by -1 is undefined behaviour (C04_floor_division_refuted). Proved for every other pair, in both modes."
  },
  {
   "property": "C05",
   "status": "partial",
   "theorems": [
    "C05_rem_partial",
    "C05_rem_big_big",
    "C05_rem_refuted"
   ],
   "note": "False as stated: two arbitrary-precision operands answer 0 (C05_rem_refuted, C05_rem_big_big says so for all of them), and the most negative word with -1 when translated. Proved for every other pair."
  },
  {
   "property": "C06",
   "status": "partial",
   "theorems": [
    "C06_and_bits",
    "C06_xor_bits",
    "C06_left_shift_exact",
    "C06_left_shift_negative_fails",
    "C06_logical_right_shift",
    "C06_to_32_bits",
    "C06_big_receivers_refuted",
    "C06_right_shift_hosted_refuted"
   ],
   "note": "False as stated for arbitrary-precision receivers (C06_big_receivers_refuted) and for >>> under plain Python (C06_right_shift_hosted_refuted). The other theorems cover all word receivers, counts and bit positions."
  },
  {
   "property": "C07",
   "status": "proved",
   "theorems": [
    "C07_integer_op_double",
    "C07_double_op_integer"
   ],
   "note": ""
  },
  {
   "property": "C08",
   "status": "partial",
   "theorems": [
    "C08_equals_transitive_numbers",
    "C08_equals_symmetric_numbers",
    "C08_equals_transitive_doubles",
    "C08_equals_reflexive",
    "C08_equals_symmetric",
    "C08_equals_transitive_partial",
    "C08_equals_transitive_refuted",
    "C08_equals_total_refuted",
    "C08_equals_symmetric_refuted"
   ],
   "note": "False as stated: = is not transitive over mixed integers and doubles (C08_equals_transitive_refuted), under plain Python not symmetric between an integer and a double (C08_equals_symmetric_refuted), and fails for double receivers with other objects (C08_equals_total_refuted). Reflexive and, translated, symmetric on all numbers; transitive on all integers, on all doubles (C08_equals_transitive_doubles), and symmetric and transitive in both modes on doubles together with integers up to 2^53 (C08_equals_transitive_numbers, C08_equals_symmetric_numbers)."
  },
  {
   "property": "C09",
   "status": "partial",
   "theorems": [
    "C09_min",
    "C09_max",
    "C09_abs_partial",
    "C09_abs_refuted"
   ],
   "note": "False as stated when translated: abs of the most negative word is negative (C09_abs_refuted). Proved for every other integer."
  },
  {
   "property": "C10",
   "status": "proved",
   "theorems": [
    "C10_round_trip",
    "C10_reads_numerals",
    "C10_reads_plus"
   ],
   "note": ""
  },
  {
   "property": "C11",
   "status": "partial",
   "theorems": [
    "C11_to_do_partial",
    "C11_down_to_do_partial",
    "C11_to_by_do_partial",
    "C11_to_by_do_double",
    "C11_down_to_do_double",
    "C11_to_by_do_double_hosted",
    "C11_down_to_do_double_hosted",
    "C11_infinite_limit",
    "C11_to_do_refuted",
    "C11_to_array_partial",
    "C11_to_array_refuted"
   ],
   "note": "False as stated: C11_to_do_refuted (a loop to 2^63-1, or down to -2^63, never ends). The partial theorems prove the exact trip sequence for every other limit. With a Double as limit the translated VM compares as <= does and Python compares exactly (C11_to_by_do_double_hosted)."
  },
  {
   "property": "C12",
   "status": "proved",
   "theorems": [
    "C12_reads_see_last_write"
   ],
   "note": ""
  },
  {
   "property": "C13",
   "status": "partial",
   "theorems": [
    "C13_store_succeeds_partial",
    "C13_store_refuted"
   ],
   "note": "False as stated: C13_store_refuted. C13_store_succeeds_partial gives the condition under which a store is accepted."
  },
  {
   "property": "C14",
   "status": "partial",
   "theorems": [
    "C14_out_of_range_rejected_partial",
    "C14_small_indices_wrap",
    "C14_out_of_range_refuted"
   ],
   "note": "False as stated: C14_out_of_range_refuted; C14_small_indices_wrap gives exactly what indices in (-length, 0] do; everything else is rejected."
  },
  {
   "property": "C15",
   "status": "partial",
   "theorems": [
    "C15_put_all_value",
    "C15_put_all_block_iff_uniform",
    "C15_put_all_block_refuted"
   ],
   "note": "False as stated for blocks: C15_put_all_block_refuted; C15_put_all_block_iff_uniform is the exact characterisation."
  },
  {
   "property": "C16",
   "status": "proved",
   "theorems": [
    "C16_copy_independent",
    "C16_extension_independent"
   ],
   "note": ""
  },
  {
   "property": "C17",
   "status": "partial",
   "theorems": [
    "C17_from_values_iff_no_nil_mix",
    "C17_from_objects_and_integers",
    "C17_from_values_refuted"
   ],
   "note": "False as stated: C17_from_values_refuted; C17_from_values_iff_no_nil_mix is the exact characterisation."
  },
  {
   "property": "C18",
   "status": "proved",
   "theorems": [
    "C18_do_indexes",
    "C18_do_reads_each_position",
    "C18_do_visits_elements"
   ],
   "note": ""
  },
  {
   "property": "C19",
   "status": "partial",
   "theorems": [
    "C19_field_reads_last_write_partial",
    "C19_never_a_wrong_value",
    "C19_field_reads_refuted"
   ],
   "note": "False as stated: C19_field_reads_refuted (33rd numeric field reads nil). Proved in full for at most 32 numeric fields; C19_never_a_wrong_value covers any number."
  },
  {
   "property": "C20",
   "status": "partial",
   "theorems": [
    "C20_only_failure_partial",
    "C20_write_one_kind",
    "C20_write_after_message",
    "C20_write_refuted"
   ],
   "note": "False as stated: C20_write_refuted. C20_only_failure_partial characterises the only failure; C20_write_one_kind and C20_write_after_message are the unconditional cases."
  },
  {
   "property": "C21",
   "status": "partial",
   "theorems": [
    "C21_increment_is_read_add_write_partial",
    "C21_increment_answers_partial",
    "C21_increment_refuted"
   ],
   "note": "False as stated: C21_increment_refuted. Whenever the increment answers it equals read-add-write on every state; it answers for all numbers but the largest Integer."
  },
  {
   "property": "C22",
   "status": "proved",
   "theorems": [
    "C22_lookup_finds_nearest",
    "C22_nearest_is_unique"
   ],
   "note": ""
  },
  {
   "property": "C23",
   "status": "partial",
   "theorems": [
    "C23_ast_send_transparent",
    "C23_ast_histories_run",
    "C23_bc_send_transparent_partial",
    "C23_bc_send_fails_exactly",
    "C23_bc_send_refuted"
   ],
   "note": "Full in the AST interpreter (C23_ast_*). False as stated in the bytecode interpreter: C23_bc_send_refuted; C23_bc_send_fails_exactly is the exact characterisation of the failure."
  },
  {
   "property": "C24",
   "status": "partial",
   "theorems": [
    "C24_ast_cache_bounded_partial",
    "C24_bc_cache_unbounded_refuted"
   ],
   "note": "Proved for the AST interpreter; false for the bytecode interpreter: C24_bc_cache_unbounded_refuted (cache_size is always computed as 0)."
  },
  {
   "property": "C25",
   "status": "partial",
   "theorems": [
    "C25_methods_refuted",
    "C25_methods_partial",
    "C25_root_methods"
   ],
   "note": "False as stated: C25_methods_refuted. C25_methods_partial: own methods first, in order, then only inherited ones."
  },
  {
   "property": "C26",
   "status": "partial",
   "theorems": [
    "C26_stack_arguments_partial",
    "C26_generic_arguments_partial",
    "C26_cached_arguments_partial",
    "C26_bc_arguments_partial",
    "C26_arguments_refuted"
   ],
   "note": "False as stated: C26_arguments_refuted; the iff theorems characterise exactly when the array is right."
  },
  {
   "property": "C27",
   "status": "proved",
   "theorems": [
    "C27_symbols_unique",
    "C27_symbols_keep_name"
   ],
   "note": ""
  },
  {
   "property": "C28",
   "status": "proved",
   "theorems": [
    "C28_arity_from_spelling"
   ],
   "note": ""
  },
  {
   "property": "C29",
   "status": "partial",
   "theorems": [
    "C29_global_primitive",
    "C29_bytecode_read",
    "C29_cached_read_partial",
    "C29_first_read_partial",
    "C29_last_assignment_wins",
    "C29_other_names_untouched",
    "C29_unknown_reported_refuted"
   ],
   "note": "Proved in full for global:, the bytecode interpreter's reads, last-assignment-wins and independence of names, including cached reads. False as stated for AST and trivial-method reads of a name whose class load failed before (C29_unknown_reported_refuted): Python's None is answered; C29_cached_read_partial gives the exact condition."
  },
  {
   "property": "C30",
   "status": "partial",
   "theorems": [
    "C30_failed_load_refuted",
    "C30_has_global_exact",
    "C30_failed_load_partial"
   ],
   "note": "False as stated: hasGlobal: answers true after a failed load (C30_failed_load_refuted). C30_has_global_exact characterises hasGlobal:; C30_failed_load_partial lists what a failed load does leave alone."
  },
  {
   "property": "C31",
   "status": "partial",
   "theorems": [
    "C31_concatenate",
    "C31_length",
    "C31_equals",
    "C31_substring",
    "C31_char_at",
    "C31_whole_substring_partial",
    "C31_whole_substring_refuted",
    "C31_parts_of_concatenation",
    "C31_predicates",
    "C31_symbol_round_trip"
   ],
   "note": "Every listed operation is characterised exactly (substring, charAt:, concatenation, =, predicates, symbol round trip). One clause is false: substring(1,length) of the empty string answers the out-of-bounds text (C31_whole_substring_refuted); proved for non-empty strings."
  },
  {
   "property": "C32",
   "status": "proved",
   "theorems": [
    "C32_queue_is_bag",
    "C32_exactly_once",
    "C32_sorted_drain",
    "C32_empty_pop"
   ],
   "note": ""
  },
  {
   "property": "C33",
   "status": "proved",
   "theorems": [
    "C33_tokens_iff_grammar",
    "C33_tokens_unique",
    "C33_round_trip",
    "C33_end_means_nothing_left"
   ],
   "note": "Exact: the tokens read are those of the grammar in LexSpec.v (both directions), the grammar is unambiguous, and any rendering with non-empty separators reads back. The grammar records two oddities of the lexer: words beginning with primitive_ are not identifiers, and foo:=3 reads as the keyword foo: and =."
  },
  {
   "property": "C34",
   "status": "proved",
   "theorems": [
    "C34_literal",
    "C34_every_string"
   ],
   "note": "All strings, all choices of escapes; unknown escapes denote nothing (in the definition of denotes)."
  },
  {
   "property": "C35",
   "status": "partial",
   "theorems": [
    "C35_terminates_partial",
    "C35_unclosed_string_diverges",
    "C35_termination_refuted"
   ],
   "note": "False as stated: an unclosed string literal makes the lexer loop forever (C35_unclosed_string_diverges, C35_termination_refuted). C35_terminates_partial: every other text terminates, so the condition is exact."
  },
  {
   "property": "C36",
   "status": "proved",
   "theorems": [
    "C36_peek",
    "C36_current_token",
    "C36_double_peek_rejected"
   ],
   "note": ""
  },
  {
   "property": "C37",
   "status": "proved",
   "theorems": [
    "C37_lines_in_order",
    "C37_lines_are_the_text",
    "C37_line_shape",
    "C37_seek",
    "C37_seek_ends"
   ],
   "note": ""
  },
  {
   "property": "C38",
   "status": "partial",
   "theorems": [
    "C38_ast_reads_the_tree_partial",
    "C38_bc_emits_the_tree_partial",
    "C38_ast_round_trip_partial",
    "C38_bc_round_trip_partial",
    "C38_one_tree_partial",
    "C38_ast_super_reaches_into_arguments",
    "C38_bc_message_to_one_is_lost",
    "C38_bc_rejects_message_to_one",
    "C38_super_operand_leaks",
    "C38_ast_refuted",
    "C38_bc_refuted"
   ],
   "note": "False as stated in three cases, each proved: AST \"super key: a sel\" makes the inner message a super send, BC \"x + 1 sel\" stops before sel, and in both \"a + super + b\" makes the second message a super send. For every other way of writing a tree the AST parser answers that tree and the BC parser emits its postfix form, and printing then parsing is the identity."
  },
  {
   "property": "C39",
   "status": "partial",
   "theorems": [
    "C39_innermost",
    "C39_undeclared",
    "C39_read",
    "C39_write_partial",
    "C39_write_unknown",
    "C39_read_total"
   ],
   "note": "The bytecode compiler: lookup, reads, writes and rejected writes, for every nesting. For the AST compiler see C49_ast_method_partial and C49_ast_blocks_partial, whose nodes read and write the variables the sources name. A field write right after a dup may be fused with the increment before it, which C43 and C44 cover."
  },
  {
   "property": "C40",
   "status": "proved",
   "theorems": [
    "C40_slots_private",
    "C40_ast_variables",
    "C40_bc_variables",
    "C40_nested_blocks_see_variables",
    "C40_nested_blocks_set_variables",
    "C40_entered_frames_shaped",
    "C40_outer_reads",
    "C40_call_result_on_stack"
   ],
   "note": ""
  },
  {
   "property": "C41",
   "status": "partial",
   "theorems": [
    "C41_heights_partial",
    "C41_never_stuck_partial"
   ],
   "note": "Every method and nested block method the compiler produces, over every machine. Sources considered: no local called self, no literal #ArraySizeLiteralPlaceholder, no parameters on blocks of inlined control structures; everything else the parser produces."
  },
  {
   "property": "C42",
   "status": "proved",
   "theorems": [
    "C42_forward",
    "C42_backward"
   ],
   "note": "Forward jumps of every kind, short and long, and backward jumps; that every jump of compiled code, also after inlining, goes where it should is part of C43."
  },
  {
   "property": "C43",
   "status": "partial",
   "theorems": [
    "C43_parameter_refuted",
    "C43_method_partial",
    "C43_blocks_partial",
    "C43_local_self_refuted",
    "C43_placeholder_refuted",
    "C43_program_partial"
   ],
   "note": "Whole methods and all nested block methods, over every machine (any behaviour of sends, globals, variables, fields, blocks and non-local returns). Sources considered: no local called self, no literal #ArraySizeLiteralPlaceholder, no parameters on blocks of inlined control structures; everything else the parser produces. For a local called self and for the placeholder symbol the statement is false (refuted theorems); of blocks with parameters in inlined control structures, the ones both compilers refuse with an assertion are shown in C43_parameter_refuted. The increment of a field by one instruction is assumed to do what get, inc and set do. C43_program_partial lifts it to whole programs: all calls, with all methods and blocks run as bytecodes, agree with evaluation of the sources."
  },
  {
   "property": "C44",
   "status": "partial",
   "theorems": [
    "C44_peephole_partial"
   ],
   "note": "With and without the four rewrites a method and all its block methods have the same outcome over every machine, when both compile. Sources considered: no local called self, no literal #ArraySizeLiteralPlaceholder, no parameters on blocks of inlined control structures; everything else the parser produces."
  },
  {
   "property": "C45",
   "status": "partial",
   "theorems": [
    "C45_source_partial",
    "C45_compiled_partial",
    "C45_receiver_refuted",
    "C45_condition_refuted",
    "C45_loop_locals_refuted",
    "C45_escaped_refuted",
    "C45_loop_message"
   ],
   "note": "C45_source_partial: for every program, invocation and start state, evaluating the control structures in place (what C43 shows the bytecodes do) has the same end, answer, globals, output and objects as evaluating them as messages, every literal block in an activation of its own, by the True/False/Block primitives (core library for ifNil: etc., False>>ifTrue: and ifFalse:ifTrue:, whose source is not in the repository). C45_compiled_partial: the same for compiled bytecode programs, in both directions. The full statement is false of the code in four ways, each proved with a compiled program: receivers that are not Booleans (C45_receiver_refuted), loop conditions that are neither true nor false (C45_condition_refuted), locals of loop bodies survive from round to round (C45_loop_locals_refuted), ^ in an inlined block whose method has ended (C45_escaped_refuted). The theorem excludes exactly these: the first, second and fourth are Stuck in the message run, the third by tidy_method. Sources as in C43 (ok_src)."
  },
  {
   "property": "C46",
   "status": "partial",
   "theorems": [
    "C46_denotes",
    "C46_compiled_partial"
   ],
   "note": "Names in the source nesting against names among the activations left after inlining, at any depth, and that compiled block methods run by the latter. Sources considered: no local called self, no literal #ArraySizeLiteralPlaceholder, no parameters on blocks of inlined control structures; everything else the parser produces. For the AST interpreter's handle_inlining and handle_outer_inlined see C49_ast_method_partial and C49_ast_blocks_partial (levels of nodes after inlining)."
  },
  {
   "property": "C47",
   "status": "partial",
   "theorems": [
    "C47_ast_returns_partial",
    "C47_ast_no_stray",
    "C47_ast_marked",
    "C47_marked",
    "C47_compiled_partial",
    "C47_compiled_no_stray",
    "C47_returns_partial",
    "C47_no_stray",
    "C47_escaped_partial",
    "C47_block_receiver_refuted"
   ],
   "note": "Bytecode run time (marks, exceptions, catching methods) against a semantics with an explicit stack of activations; for all programs, histories and depths, with bodies evaluated from sources (C47_returns_partial) or run as compiled bytecodes with the marks the compiler computes (C47_marked, C47_compiled_partial). False in one respect: C47_block_receiver_refuted (when the receiver of the home activation is itself a block, escapedBlock: goes to the self around that block). AST interpreter: C47_ast_returns_partial, C47_ast_no_stray, C47_ast_marked, for whole programs run as nodes; there escapedBlock: goes to the receiver of the home activation even when it is a block. Partial because of the restrictions on sources (as in C43 and C49)."
  },
  {
   "property": "C48",
   "status": "partial",
   "theorems": [
    "C48_ast_methods_partial",
    "C48_ast_setter_refuted",
    "C48_ast_many_refuted",
    "C48_methods_partial",
    "C48_blocks_partial",
    "C48_setter_unary_refuted",
    "C48_setter_receiver_refuted",
    "C48_setter_many_refuted",
    "C48_setter_three_refuted",
    "C48_unknown_global_refuted",
    "C48_global_many_refuted",
    "C48_global_three_refuted"
   ],
   "note": "Methods and blocks the bytecode compiler replaces by trivial ones: invoking them has the outcome of running their bytecodes, and (methods) of evaluating their source. False for setters that store the receiver (unary: NotImplementedError; binary: the argument is stored), for setters with three or more arguments (the argument before the right one is stored), for globals with three or more arguments (TypeError) and for unknown globals in methods whose receiver is a block: refuted theorems. AST: C48_ast_methods_partial, with at most two arguments besides the receiver; with more it is always an AttributeError (C48_ast_many_refuted), and a setter whose body answers the assigned value answers the receiver (C48_ast_setter_refuted)."
  },
  {
   "property": "C49",
   "status": "partial",
   "theorems": [
    "C49_ast_method_partial",
    "C49_ast_blocks_partial",
    "C49_method_partial",
    "C49_blocks_partial",
    "C49_condition_refuted",
    "C49_dec_refuted",
    "C49_inc_refuted",
    "C49_super_refuted",
    "C49_array_refuted",
    "C49_setter_refuted",
    "C49_trivial_refuted",
    "C49_escaped_return_refuted",
    "C49_unknown_global_refuted",
    "C49_known_global_refuted",
    "C49_assign_self_refuted",
    "C49_plus_block_refuted",
    "C49_self_assign_refuted",
    "C49_program_partial",
    "C49_escaped_receiver_refuted"
   ],
   "note": "False as stated: fourteen C49_*_refuted theorems give methods on which the interpreters differ (non-Boolean conditions, - 1 and + (1) on non-numbers, super sends without a method, literal arrays, [^ f := x], trivial methods with three parameters, escaped returns (two ways), unknown globals in blocks nested in inlined ones) or that only the bytecode compiler accepts. C49_method_partial and C49_blocks_partial prove agreement for every method and block both compilers accept, from every state from which the run does not meet one of these points (quiet). C49_ast_method_partial and C49_ast_blocks_partial say what the AST interpreter does without that condition. C49_program_partial: whole programs, compiled by both compilers, have the same outcome (or both run on for ever) in both interpreters, for every program, invocation, argument list and state from which the program run with care (sources evaluated, stuck at the known differences) is not stuck; it also needs the number messages + and - to be primitives and variables to be assigned one at a time. Nodes are executed as what they are rewritten to at run time; that the rewriting, also under recursion, changes nothing is C68."
  },
  {
   "property": "C50",
   "status": "partial",
   "theorems": [
    "C50_program_arguments",
    "C50_options_only",
    "C50_usage",
    "C50_forms_exhaustive",
    "C50_search_order",
    "C50_program_directory_first_partial",
    "C50_root_directory_refuted"
   ],
   "note": "Argument splitting, usage/exit, class path order and program arguments proved for all argument lists. One clause is false: for a program in the root directory (\"/Foo.som\") the directory is dropped (C50_root_directory_refuted); proved for every non-empty directory part."
  },
  {
   "property": "C51",
   "status": "partial",
   "theorems": [
    "C51_ast_loop_same_kinds_partial",
    "C51_ast_loop_other_kinds_fail",
    "C51_ast_loop_refuted"
   ],
   "note": "False as stated: C51_ast_loop_refuted; same kinds proved, other kinds always fail."
  },
  {
   "property": "C52",
   "status": "partial",
   "theorems": [
    "C52_super_send_partial",
    "C52_perform_partial",
    "C52_super_refuted"
   ],
   "note": "False as stated for unknown selectors: C52_super_refuted. Known selectors proved in full."
  },
  {
   "property": "C53",
   "status": "partial",
   "theorems": [
    "C53_line_partial",
    "C53_end_of_input",
    "C53_lines_refuted"
   ],
   "note": "False as stated: when one read delivers several lines they are answered as one (C53_lines_refuted). Proved: a line delivered in any pieces whose newline ends a piece."
  },
  {
   "property": "C54",
   "status": "partial",
   "theorems": [
    "C54_position_partial",
    "C54_end_offset",
    "C54_position_refuted"
   ],
   "note": "Right after every token (C54_position_partial); false as stated at the end of the input, where the last line is counted twice (C54_position_refuted, C54_end_offset is exact)."
  },
  {
   "property": "C55",
   "status": "partial",
   "theorems": [
    "C55_comparisons_mixed",
    "C55_comparisons_mixed_refuted",
    "C55_less_transitive",
    "C55_trichotomy",
    "C55_comparisons",
    "C55_min_max",
    "C55_min_max_mixed",
    "C55_as_integer_partial",
    "C55_cut_off_unique",
    "C55_as_integer_refuted",
    "C55_round_partial",
    "C55_nearest_unique",
    "C55_round_refuted",
    "C55_sqrt_partial",
    "C55_sqrt_square",
    "C55_sqrt_translated",
    "C55_sqrt_square_refuted",
    "C55_sqrt_refuted",
    "C55_computed_trichotomy"
   ],
   "note": "Comparisons and asInteger are proved for all doubles; round for all finite doubles except +-0.49999999999999994, which round to +-1 (C55_round_refuted). sqrt answers the Integer root of every square t*t with t <= 2^53, so of every square word (C55_sqrt_square, C55_sqrt_translated); run by Python the square of 2^53+1 already answers 2^53 (C55_sqrt_square_refuted). Below 2^52 anything else answers one of the two doubles around the root; from 2^52+1 on sqrt can answer an Integer for a non-square (C55_sqrt_refuted). Results beyond the word range are an unchecked conversion in the translated VM (C55_as_integer_refuted). min: and max: answer one of the two, also with a NaN or an Integer (C55_min_max, C55_min_max_mixed). Integers up to 2^53 and doubles compare by their exact values in both modes (C55_comparisons_mixed, C55_less_transitive, C55_trichotomy); beyond 2^53 the integer is rounded first (C55_comparisons_mixed_refuted)."
  },
  {
   "property": "C56",
   "status": "partial",
   "theorems": [
    "C56_ast_method_partial",
    "C56_bc_method_partial",
    "C56_ast_class_partial",
    "C56_bc_class_partial",
    "C56_missing_period"
   ],
   "note": "Proved for all class definitions whose expressions avoid the three cases of C38, and in which a side without fields does not start with a method named |. C56_missing_period: the AST parser also accepts statements without a period between them, the BC parser does not."
  },
  {
   "property": "C57",
   "status": "proved",
   "theorems": [
    "C57_literal",
    "C57_smallest_word_is_big"
   ],
   "note": ""
  },
  {
   "property": "C58",
   "status": "proved",
   "theorems": [
    "C58_parallel_hierarchy",
    "C58_class_side_inherits_class"
   ],
   "note": "For every class library, conforming or not, and every history of requests."
  },
  {
   "property": "C59",
   "status": "partial",
   "theorems": [
    "C59_fields_partial",
    "C59_methods_partial",
    "C59_first_directory_partial",
    "C59_superclass_partial",
    "C59_one_class_per_name_partial",
    "C59_shell_class_partial",
    "C59_order_independent_partial",
    "C59_system_class_side_fields_refuted",
    "C59_system_superclass_refuted",
    "C59_put_superclass_refuted",
    "C59_superclass_any_state"
   ],
   "note": "Proved for every library whose system class files name the superclasses the VM assigns (as any usable core library does) and whose files have matching names or are checked for it. C59_superclass_partial also needs that no file names Block1-3, true, false or system as superclass, since start-up binds these anew. False for the eleven system classes in two ways: class-side fields declared in their files have no slot (C59_system_class_side_fields_refuted, for all libraries), and the superclass in the file is ignored (C59_system_superclass_refuted). With system global:put: among the requests the superclass is whatever was put under its name (C59_put_superclass_refuted), with the fields of that class first (C59_superclass_any_state, for every state); the other theorems are about programs that do not use it."
  },
  {
   "property": "C60",
   "status": "partial",
   "theorems": [
    "C60_load_again",
    "C60_same_class_later",
    "C60_others_untouched",
    "C60_load_ends_partial",
    "C60_cyclic_superclasses_refuted",
    "C60_no_class_iff_no_file",
    "C60_nil_superclass_refuted",
    "C60_put_keeps_classes",
    "C60_put_keeps_globals",
    "C60_put_answers",
    "C60_put_same_class_refuted"
   ],
   "note": "C60_load_ends_partial gives termination exactly for finite chains of superclasses still to be loaded; C60_cyclic_superclasses_refuted: with cyclic superclasses loading never ends, for all libraries. C60_nil_superclass_refuted: a user class with superclass nil always fails with an internal error. With system global:put: among the requests classes and the other globals still stay as they are (C60_put_keeps_classes, C60_put_keeps_globals) and a name denotes what was last put there (C60_put_answers), so not always the same class (C60_put_same_class_refuted)."
  },
  {
   "property": "C61",
   "status": "partial",
   "theorems": [
    "C61_inst_var_at_partial",
    "C61_inst_var_at_put_succeeds",
    "C61_inst_var_at_put_partial",
    "C61_inst_var_named_partial",
    "C61_named_as_in_methods_partial",
    "C61_named_as_in_methods_refuted",
    "C61_unknown_name_refuted",
    "C61_out_of_range_partial",
    "C61_out_of_range_refuted"
   ],
   "note": "Proved for at most 32 fields holding Integers or Doubles in some object (as C19: the layout's bit mask). Refuted: with duplicate field names methods and instVarNamed: see different fields; an unknown name answers the last field; instVarAt: with 1-n..0 wraps around instead of being rejected."
  },
  {
   "property": "C62",
   "status": "partial",
   "theorems": [
    "C62_no_fields_partial",
    "C62_object_size_refuted"
   ],
   "note": "True for objects without fields; for all others the answer is never the number of fields (C62_object_size_refuted: TypeError, or the number of reference fields minus 5)."
  },
  {
   "property": "C63",
   "status": "partial",
   "theorems": [
    "C63_primitives",
    "C63_logic",
    "C63_no_others",
    "C63_boolean_receiver",
    "C63_other_receiver_partial",
    "C63_other_receiver_fails",
    "C63_other_receiver_refuted"
   ],
   "note": "Proved for Boolean receivers after every history, and for other receivers when the first receiver of the send was not a Boolean. False otherwise: once a send has been executed with a Boolean, every other receiver fails the assertion, even one that understands the message (C63_other_receiver_fails, C63_other_receiver_refuted). That ordinary sends to Booleans do what the primitives do is a hypothesis; C63_primitives shows it of the primitives, False>>ifTrue: being a method of the core library. not, and:, &&, or: and || follow their truth tables (C63_logic)."
  },
  {
   "property": "C64",
   "status": "partial",
   "theorems": [
    "C64_ast_statement_partial",
    "C64_bc_statement_partial",
    "C64_class_names",
    "C64_session_partial",
    "C64_empty_line_refuted",
    "C64_unbalanced_refuted",
    "C64_open_string_refuted"
   ],
   "note": "Sessions: proved for all lines that are not empty, over any behaviour of compiling and running a class. Statements: the text compiled is read by both parsers as run: it = ( | tmp | tmp := e. ... ) for every way of writing an expression e for which C38 holds. False: an empty line ends the session (C64_empty_line_refuted); a line that is not an expression can be accepted (C64_unbalanced_refuted); a line with an open string makes the lexer run forever (C64_open_string_refuted)."
  },
  {
   "property": "C65",
   "status": "partial",
   "theorems": [
    "C65_argument_array",
    "C65_send_partial",
    "C65_provided_partial",
    "C65_provided_classes",
    "C65_interpreters",
    "C65_provided_refuted",
    "C65_undefined_refuted",
    "C65_perform_partial"
   ],
   "note": "Proved for every primitive made for the number of arguments of its selector (C65_send_partial), which all provided primitives are except two (C65_provided_partial). False: restart of a block, and invokeOn:with: in the AST interpreter, always fail with a Python AttributeError (C65_provided_refuted); an undefined primitive fails that way with up to two arguments, and with more leaves no answer (C65_undefined_refuted); perform:withArguments: fails with more than two arguments (C65_perform_partial). Which classes are given primitives, and where the interpreters differ: C65_provided_classes, C65_interpreters."
  },
  {
   "property": "C66",
   "status": "partial",
   "theorems": [
    "C66_right_number_partial",
    "C66_more_than_two_refuted",
    "C66_none_given_refuted",
    "C66_one_too_many_partial",
    "C66_one_given_refuted",
    "C66_two_given_partial",
    "C66_two_given_refuted",
    "C66_two_of_many_refuted",
    "C66_interpreters_refuted",
    "C66_block_class_partial"
   ],
   "note": "The cases cover every number of arguments and parameters. Refused: one argument and no parameter; two and fewer, if a nested block uses a variable or there are too few locals. Right numbers up to two run as the send does. False: otherwise the body runs, with nil for the parameters left over (C66_none_given_refuted, C66_one_given_refuted, C66_two_of_many_refuted) or with locals overwritten (C66_two_given_refuted); the bytecode interpreter can give the argument to another parameter than the AST interpreter (C66_interpreters_refuted); three or more arguments are refused even if right (C66_more_than_two_refuted); a block with three or more parameters understands no message (C66_block_class_partial)."
  },
  {
   "property": "C67",
   "status": "partial",
   "theorems": [
    "C67_report_partial",
    "C67_report_end",
    "C67_percent_refuted",
    "C67_percent_named_refuted",
    "C67_double_percent_refuted"
   ],
   "note": "Proved for every source and every number of tokens read, when neither the line nor the names in the message have a percent sign; at the end of the source always. False in general: the source line is made part of the format, so with a single % on the line (the modulo operator) every report fails with a TypeError, ValueError or KeyError, which neither main.py nor the handlers of the shell catch there; %% is quoted as %."
  },
  {
   "property": "C68",
   "status": "partial",
   "theorems": [
    "C68_rewriting",
    "C68_specialized_partial"
   ],
   "note": "Proved for every program, every VM that keeps its globals, every history of calls and every depth of recursion, when specialized messages take any receiver and arguments (C68_rewriting). With messages that do not (C51, C63), a call ends the same or with such a message given what it does not take (C68_specialized_partial). What a specialized node does with what it takes is C51 and C63."
  },
  {
   "property": "C69",
   "status": "partial",
   "theorems": [
    "C69_listing",
    "C69_compiled_partial",
    "C69_execution_partial",
    "C69_succeeds_partial",
    "C69_faithful_partial",
    "C69_class",
    "C69_ast",
    "C69_trivial_refuted",
    "C69_hidden_refuted"
   ],
   "note": "False in two ways: a trivial method (literal, global or field returned, field set) has no get_number_of_bytecodes, so option -d ends with AttributeError at the first one (C69_trivial_refuted), and a block that needs no context is listed as <incorrect bytecode>, so methods with different code have the same listing (C69_hidden_refuted). Proved: what is written is the listing (C69_listing, C69_class, C69_ast), compiled methods decode, are executed from line to line, and have a listing unless a trivial method is in it; plain methods with the same listing have the same code (bytes, selectors, globals and nested blocks; values of constants are shown by str() and are not covered). Compiled methods are those of C41 (no unused parameters in inlined blocks)."
  },
  {
   "property": "C70",
   "status": "partial",
   "theorems": [
    "C70_encode",
    "C70_decode",
    "C70_round_trip",
    "C70_output_partial",
    "C70_short_write_refuted",
    "C70_breakpoint_refuted",
    "C70_argument_refuted",
    "C70_argument_partial",
    "C70_load_partial",
    "C70_load_any",
    "C70_half_refuted",
    "C70_undecodable_refuted",
    "C70_newlines_refuted",
    "C70_line_partial",
    "C70_line_refuted"
   ],
   "note": "Modelled for Python 3 (UTF-8 locale). Proved: UTF-8 encoding and decoding are exact and inverse; every history of outputs writes its texts completely and in order if the system takes all bytes (C70_output_partial); readable files are answered as their text whatever the reads (C70_load_partial), and whatever happens the reading ends, the file is closed and the answer is nil or a beginning of the text (C70_load_any); lines cut between characters are read as their text. False: a short write loses the rest silently (C70_short_write_refuted); halt prints through another buffer (C70_breakpoint_refuted); an argument that is not UTF-8 cannot be printed (C70_argument_refuted); a read error in the middle gives half a file (C70_half_refuted); undecodable files raise instead of nil (C70_undecodable_refuted); CR and CR LF are changed (C70_newlines_refuted); a line whose 32nd byte is within a character is refused and its rest taken as a line (C70_line_refuted)."
  },
  {
   "property": "C71",
   "status": "partial",
   "theorems": [
    "C71_identical",
    "C71_equivalence",
    "C71_texts",
    "C71_symbols",
    "C71_hash_partial",
    "C71_moves_partial",
    "C71_answers_partial",
    "C71_number_hash_refuted",
    "C71_moved_hash_refuted",
    "C71_moved_double_refuted"
   ],
   "note": "Proved: what == answers on everything a program can have (C71_identical), that it is an equivalence, = and hashcode of strings and symbols (C71_texts, C71_symbols), equal hashcodes of identical objects other than integers (C71_hash_partial), and that every history of moves leaves the program with the same objects as a memory that keeps the objects themselves, up to Integers and Doubles of the same value (C71_moves_partial, C71_answers_partial). False for numbers: equal and identical integers have different hashcodes (C71_number_hash_refuted); an integer read from an array or field has a new hashcode at each read (C71_moved_hash_refuted); a Double read twice from an array or field is not == to itself (C71_moved_double_refuted). Simplification: whether a field stores a number without its object is arbitrary at every write rather than computed from the layout; compute_hash is any function of the text, compute_identity_hash any function of the object."
  },
  {
   "property": "C72",
   "status": "partial",
   "theorems": [
    "C72_program",
    "C72_one_end",
    "C72_exit_at_once",
    "C72_exit_status_partial",
    "C72_exit_status_refuted",
    "C72_startup",
    "C72_missing_class",
    "C72_wrong_name",
    "C72_everywhere",
    "C72_reports_refuted",
    "C72_session_ast",
    "C72_session_bc_partial",
    "C72_session_bc_refuted",
    "C72_unreportable_refuted",
    "C72_usage",
    "C72_no_interpreter",
    "C72_embedded_refuted"
   ],
   "note": "Proved for every program that ends, on both interpreters and both ways to run the VM: status, outputs and last report are those of an execution on an explicit stack (C72_program, C72_one_end), exit: ends it at once from any depth (C72_exit_at_once), wrong class names 1, missing system classes 200, usage 0, no interpreter 1; sessions of the shell with the AST interpreter (C72_session_ast), with the bytecode interpreter if no statement fails (C72_session_bc_partial). False: the status is n mod 256, so exit: 256 looks like success (C72_exit_status_refuted); after a failed statement the bytecode interpreter takes activations it has left for active, so ^ in their blocks is an internal error instead of escapedBlock: (C72_session_bc_refuted); a syntax error whose report fails ends the session (C72_unreportable_refuted); translated, the report of a syntax error has no line end (C72_reports_refuted); with avoid_exit, as in the project's tests, exit: does not end the program (C72_embedded_refuted). Not modelled: programs that run for ever, signals, failing writes (C70)."
  },
  {
   "property": "C73",
   "status": "partial",
   "theorems": [
    "C73_ast_ends",
    "C73_bc_ends",
    "C73_method_ends",
    "C73_text_ends_partial",
    "C73_ast_accepts",
    "C73_bc_accepts",
    "C73_ast_method_accepts",
    "C73_bc_method_accepts",
    "C73_refuses",
    "C73_ast_rest_ignored",
    "C73_bc_rest_ignored",
    "C73_one_end",
    "C73_source",
    "C73_bc_sound",
    "C73_bc_reads_partial",
    "C73_ast_reads_partial",
    "C73_ast_reads_what_bc_reads_partial",
    "C73_ast_sound_refuted",
    "C73_ast_reads_refuted",
    "C73_bc_reads_refuted"
   ],
   "note": "Proved for every list of tokens, both parsers: a class or a syntax error (C73_ast_ends, C73_bc_ends; for texts without an unclosed string C73_text_ends_partial), accepted exactly the languages ast_source and bc_source (C73_ast_accepts, C73_bc_accepts, methods too), one end, what follows ignored. source is the language of the trees of C38/C56 (C73_source); the bytecode parser accepts nothing outside it (C73_bc_sound). False: an unclosed string is read for ever (C35_termination_refuted); the AST parser also accepts statements without a period between them (C73_ast_sound_refuted) and refuses self := (C73_ast_reads_refuted); the bytecode parser refuses x + 1 abs (C73_bc_reads_refuted). These are the only differences: C73_bc_reads_partial, C73_ast_reads_partial, C73_ast_reads_what_bc_reads_partial. Number literals too long and the limits of the generators (C40, C43) are errors after parsing and not part of this."
  },
  {
   "property": "C74",
   "status": "partial",
   "theorems": [
    "C74_messages_partial",
    "C74_unary_messages_partial",
    "C74_programs_partial",
    "C74_always_agree",
    "C74_always_end_together",
    "C74_written_alike",
    "C74_read_alike",
    "C74_messages_refuted",
    "C74_unary_messages_refuted",
    "C74_programs_refuted"
   ],
   "note": "Proved for every program, start and run length: C74_always_agree (only + - * < <= > >= == max: min: asDouble, no condition at all) and C74_programs_partial (every send of the translated run meets agree1/agree0). Per message: C74_messages_partial, C74_unary_messages_partial; text: C74_written_alike, C74_read_alike. False in general: C74_messages_refuted and C74_unary_messages_refuted give for each condition a send on which the two differ (smallest word by -1, zero divisors of //, int = double above 2^53, shifts, bitXor: and 32-bit conversions of a BigInteger, rem: of two BigIntegers, asInteger of large doubles), C74_programs_refuted a whole program. round is shown to agree below 2^63 - 1 only. sin, cos, to: and loops of blocks are not messages of these programs."
  },
  {
   "property": "C75",
   "status": "partial",
   "theorems": [
    "C75_mixed",
    "C75_add",
    "C75_subtract",
    "C75_multiply",
    "C75_divide",
    "C75_divide_by_zero",
    "C75_remainder",
    "C75_remainder_by_zero",
    "C75_sqrt",
    "C75_int_sqrt",
    "C75_as_double",
    "C75_big_quotient",
    "C75_quotient_partial",
    "C75_quotient_words",
    "C75_quotient_refuted",
    "C75_unique",
    "C75_root_unique",
    "C75_exact",
    "C75_monotone",
    "C75_monotone_add",
    "C75_monotone_multiply",
    "C75_commutes",
    "C75_nan",
    "C75_infinite",
    "C75_two_infinities",
    "C75_computed",
    "C75_closed",
    "C75_computed_rounds"
   ],
   "note": "Proved for all doubles in both modes: + - * // (C75_add, C75_subtract, C75_multiply, C75_divide), % (C75_remainder), sqrt of a Double (C75_sqrt) and of every Integer (C75_int_sqrt: the root of its asDouble is rounded once), asDouble of every integer (C75_as_double), // with a BigInteger (C75_big_quotient); the specification determines the answer (C75_unique, C75_root_unique), exact results are answered exactly (C75_exact), commutation (C75_commutes), order kept (C75_monotone, C75_monotone_add, C75_monotone_multiply), mixed operands with integers up to 2^53 (C75_mixed), special values (C75_nan, C75_infinite, C75_two_infinities, C75_divide_by_zero, C75_remainder_by_zero). // of two words is // of their asDouble (C75_quotient_words), so rounded once up to 2^53 (C75_quotient_partial) and false above: 9007199254740993 // 3 is exact but answers 3002399751580330.5 (C75_quotient_refuted). sin and cos are not modelled."
  },
  {
   "property": "C76",
   "status": "partial",
   "theorems": [
    "C76_tokens",
    "C76_literal",
    "C76_negative_literal_partial",
    "C76_negative_zero_refuted",
    "C76_from_string",
    "C76_from_string_whole",
    "C76_same_number",
    "C76_monotone",
    "C76_whole",
    "C76_every_double",
    "C76_huge"
   ],
   "note": "Proved for every Double token of the lexer (C76_tokens) and for fromString: of such texts with or without a sign; every finite double but the negative zero is denoted by a literal (C76_every_double). False in one respect: a literal with a minus sign is computed as 0.0 - value, so -0.0, and negative numbers so small that they round to zero, denote the positive zero (C76_negative_zero_refuted), while fromString: answers the negative one; otherwise a negative literal is the nearest double (C76_negative_literal_partial). Python's float() is modelled as correctly rounded; exponents, spaces, underscores, inf and nan in fromString: are not modelled."
  }
 ]
}