{"id": "C01", "title": "Integer +, - and * are exact", "statement": "Sending +, - or * to an integer with an integer argument answers an object whose mathematical value is exactly the sum, difference or product of the operands' values, whichever of the two run-time representations (machine word or arbitrary precision) either operand has; machine-word results never wrap around: the answer is a machine-word integer exactly when both operands are and the true result fits.", "quantifier": "all pairs of integers, of unbounded size and either representation", "why_tests_cant": "the operand space is infinite and the interesting cases (overflow at each edge of the 64-bit range, mixed representations) are vanishingly rare in samples", "anchors": ["src/som/vmobjects/integer.py:Integer.prim_add,prim_subtract,prim_multiply", "src/som/vmobjects/biginteger.py:BigInteger.prim_add,prim_subtract,prim_multiply", "src/som/primitives/integer_primitives.py:_plus,_minus,_multiply"]}
{"id": "C02", "title": "Specialised x + 1 and x - 1 agree with the general messages", "statement": "An expression x + 1 or x - 1 whose literal operand lets the compiler emit a dedicated increment/decrement answers, for every number x, the same value that sending + or - with argument 1 answers.", "quantifier": "all numbers x: integers of either representation and doubles", "why_tests_cant": "needs every x; the discrepancy found (x - 1 on an arbitrary-precision x answers 1 - x) only shows on values above 2^63", "anchors": ["src/som/vmobjects/integer.py:Integer.prim_inc,prim_dec", "src/som/vmobjects/biginteger.py:BigInteger.prim_inc,prim_dec", "src/som/vmobjects/double.py:Double.prim_inc,prim_dec", "src/som/interpreter/bc/interpreter.py:interpret (inc, dec)", "src/som/interpreter/ast/nodes/specialized/int_inc_node.py:IntIncrementNode"]}
{"id": "C03", "title": "Integer comparisons are the mathematical order", "statement": "<, <=, >, >=, =, <> and ~= between integers answer true exactly when the mathematical relation holds between their values, regardless of representation; in particular exactly one of a < b, a = b, b < a holds, <> is the negation of =, and comparing for equality with a non-number answers false instead of failing.", "quantifier": "all pairs of integers of either representation, and all non-number arguments of = and <>", "why_tests_cant": "a total order is a statement about all pairs and triples of an infinite set", "anchors": ["src/som/vmobjects/integer.py:Integer.prim_less_than..prim_unequals", "src/som/vmobjects/biginteger.py:BigInteger.prim_less_than..prim_unequals", "src/som/primitives/integer_primitives.py:_less_than,_equals,_unequals"]}
{"id": "C04", "title": "Integer / and % satisfy the floored division law", "statement": "For integers a and b with b not 0, q = a / b and r = a % b satisfy a = q*b + r with r between 0 (inclusive) and b (exclusive), whatever the signs and representations; dividing by zero fails and does not answer a value.", "quantifier": "all pairs of integers of either representation", "why_tests_cant": "sign combinations and the edges of the machine word (the most negative word divided by -1) are not covered by sampling an infinite domain", "anchors": ["src/som/vmobjects/integer.py:Integer.prim_int_div,prim_modulo", "src/som/vmobjects/biginteger.py:BigInteger.prim_int_div,prim_modulo"]}
{"id": "C05", "title": "rem: is the truncated remainder", "statement": "a rem: b answers the remainder of truncated division: it has the sign of a (or is 0), its magnitude is below |b|, and a minus it is a multiple of b; for every combination of integer representations.", "quantifier": "all pairs of integers of either representation with b not 0", "why_tests_cant": "all sign and representation combinations of an infinite domain; the BigInteger/BigInteger case, which answers 0 for every argument, is only reached with huge operands", "anchors": ["src/som/vmobjects/integer.py:Integer.prim_remainder", "src/som/vmobjects/biginteger.py:BigInteger.prim_remainder", "src/rlib/llop.py:int_mod", "src/rlib/arithmetic.py:divrem"]}
{"id": "C06", "title": "Bit operations act on the two's-complement bits", "statement": "&, bitXor:, <<, >>>, as32BitSignedValue and as32BitUnsignedValue answer the integer whose two's-complement bits are the corresponding bitwise function of the operands' bits; << never loses bits (the answer is a * 2^n exactly), and as32BitUnsignedValue / as32BitSignedValue answer the representative of the value modulo 2^32 in [0, 2^32) respectively [-2^31, 2^31).", "quantifier": "all integers, shift counts and bit positions", "why_tests_cant": "bit-level laws quantify over all positions of unbounded integers", "anchors": ["src/som/vmobjects/integer.py:Integer.prim_and,prim_as_32_bit_signed_value", "src/som/vmobjects/biginteger.py:BigInteger.prim_and,prim_as_32_bit_signed_value", "src/som/primitives/integer_primitives.py:_left_shift,_unsigned_right_shift,_bit_xor,_as_32_bit_unsigned_value", "src/rlib/llop.py"]}
{"id": "C07", "title": "Mixed integer/double arithmetic is double arithmetic on the converted integer", "statement": "An arithmetic or ordering message between an integer and a double answers exactly what the same message between the integer converted to double and the double answers, in either operand order.", "quantifier": "all integers of either representation and all doubles including infinities and NaN", "why_tests_cant": "coercion must commute with every operation on every pair", "anchors": ["src/som/vmobjects/integer.py:Integer._to_double", "src/som/vmobjects/biginteger.py:BigInteger._to_double", "src/som/vmobjects/double.py:Double._get_float"]}
{"id": "C08", "title": "= on numbers is an equivalence", "statement": "= on numbers is reflexive (except on NaN), symmetric and transitive, and never fails: comparing any number with any object answers true or false.", "quantifier": "all numbers and all objects", "why_tests_cant": "transitivity over mixed integer/double triples fails only above 2^53; totality fails for double receivers with non-number arguments", "anchors": ["src/som/vmobjects/integer.py:Integer.prim_equals", "src/som/vmobjects/biginteger.py:BigInteger.prim_equals", "src/som/vmobjects/double.py:Double.prim_equals,_get_float"]}
{"id": "C09", "title": "min:, max: and abs", "statement": "a min: b and a max: b answer one of the two operands, respectively not larger and not smaller than both; abs answers the non-negative value with the same magnitude.", "quantifier": "all pairs of integers of either representation", "why_tests_cant": "edge of the machine word: the absolute value of the most negative word", "anchors": ["src/som/primitives/integer_primitives.py:_min,_max,_abs", "src/som/vmobjects/integer.py:Integer.prim_abs", "src/som/vmobjects/biginteger.py:BigInteger.prim_abs"]}
{"id": "C10", "title": "fromString: inverts asString", "statement": "Integer fromString: (i asString) answers an integer equal to i.", "quantifier": "all integers of either representation", "why_tests_cant": "round trips over unbounded decimal expansions", "anchors": ["src/som/primitives/integer_primitives.py:_from_string,_as_string", "src/som/vmobjects/integer.py:Integer.prim_as_string", "src/som/vmobjects/biginteger.py:BigInteger.prim_as_string"]}
{"id": "C11", "title": "to:, to:do:, to:by:do: and downTo:do: enumerate exactly the interval", "statement": "a to: b answers the array a, a+1, ..., b; a to: b do: runs the block once for each of these in ascending order, downTo:do: in descending order, to:by:do: for a, a+s, a+2s, ... not exceeding b, and each answers the receiver; with an empty interval the block never runs.", "quantifier": "all start and limit values (integer and double limits) and all positive steps", "why_tests_cant": "loop trip counts are unbounded; the failure at the top of the machine-word range needs a limit of 2^63-1", "anchors": ["src/som/primitives/integer_primitives.py:_to", "src/som/primitives/bc/integer_primitives.py:_to_do,_to_by_do,_down_to_do", "src/som/interpreter/ast/nodes/specialized/to_do_node.py:IntToIntDoNode", "src/som/interpreter/ast/nodes/specialized/to_by_do_node.py:IntToIntByDoNode", "src/som/interpreter/ast/nodes/specialized/down_to_do_node.py:IntDownToIntDoNode"]}
{"id": "C12", "title": "An array is a fixed-size store: reads see the last write", "statement": "After any history of at:put:, putAll:, copy and extension operations on an array, at: i answers the value most recently stored at i (nil if none), length never changes, and the internal specialisation for integers, doubles, booleans, empty and partially empty arrays is not observable.", "quantifier": "all array sizes, all values, all finite histories of operations", "why_tests_cant": "specialisation switches depend on the whole history of stored kinds; the number of histories is unbounded", "anchors": ["src/som/vmobjects/array.py:Array,_ObjectStrategy,_LongStrategy,_DoubleStrategy,_BoolStrategy,_EmptyStrategy,_PartiallyEmptyStrategy"]}
{"id": "C13", "title": "at:put: accepts every value", "statement": "Storing any object at any valid index of any array succeeds.", "quantifier": "all reachable arrays, valid indices and values", "why_tests_cant": "depends on the history that selected the array's internal specialisation", "anchors": ["src/som/vmobjects/array.py:_DoubleStrategy.set_idx,_BoolStrategy.set_idx,_LongStrategy.set_idx"]}
{"id": "C14", "title": "Out-of-range array accesses are rejected", "statement": "at: and at:put: with an index outside 1..length never read or modify an element.", "quantifier": "all arrays and all integers as index", "why_tests_cant": "the accepted wrap-around indices differ between internal specialisations", "anchors": ["src/som/primitives/array_primitives.py:_at,_at_put", "src/som/vmobjects/array.py:get_idx,set_idx"]}
{"id": "C15", "title": "putAll: fills every slot", "statement": "putAll: v with a non-block v makes every element v; putAll: with a block evaluates the block exactly length times, in order, and element i becomes the i-th result.", "quantifier": "all arrays, all values, and all sequences of block results", "why_tests_cant": "needs every sequence of block results; losing a result requires two results of different kinds", "anchors": ["src/som/primitives/array_primitives.py:_put_all", "src/som/vmobjects/array.py:_ArrayStrategy._set_all_with_value,_set_all_with_block,_set_remaining_with_block_as_*"]}
{"id": "C16", "title": "Copies are independent", "statement": "copy and copyAndExtendWith-style extension answer a new array with the same elements (plus the extra one); later stores into either array do not affect the other.", "quantifier": "all arrays, all later histories on both arrays", "why_tests_cant": "aliasing shows only under interleaved later writes", "anchors": ["src/som/vmobjects/array.py:copy,copy_and_extend_with", "src/som/primitives/array_primitives.py:_copy"]}
{"id": "C17", "title": "Arrays built from given elements contain exactly those elements", "statement": "A literal array, the argument array passed to doesNotUnderstand:arguments: and other arrays built from a sequence of objects contain exactly these objects in order.", "quantifier": "all finite sequences of objects", "why_tests_cant": "the internal kind is chosen by scanning all elements; mixtures with nil break it", "anchors": ["src/som/vmobjects/array.py:_determine_strategy,Array.from_values,from_objects,from_integers"]}
{"id": "C18", "title": "do: and doIndexes: visit every slot once, in order", "statement": "doIndexes: evaluates its block with 1..length in ascending order, once each; do: evaluates its block with each element in index order, once each.", "quantifier": "all arrays and blocks", "why_tests_cant": "trip counts are unbounded", "anchors": ["src/som/primitives/array_primitives.py:_do_indexes,_do"]}
{"id": "C19", "title": "An object field reads back the last value written", "statement": "For any set of objects of a class and any interleaved history of field writes to them, reading field i of object o answers the last value written to that field of that object, or nil if none; writing one field never changes another field of any object.", "quantifier": "all numbers of fields and objects, all values, all interleaved histories", "why_tests_cant": "storage layout is shared by all instances and migrates with the kinds of values stored by any of them; faults need more than 32 numeric fields or particular cross-object histories", "anchors": ["src/som/vmobjects/object_with_layout.py:ObjectWithLayout.get_field,set_field", "src/som/interpreter/objectstorage/object_layout.py:ObjectLayout", "src/som/interpreter/objectstorage/storage_location.py"]}
{"id": "C20", "title": "Field writes never fail", "statement": "Writing any value into any declared field of any object succeeds, whatever was stored before in that field of other instances.", "quantifier": "all reachable object populations, fields and values", "why_tests_cant": "fails only for an instance whose layout is older than its class's", "anchors": ["src/som/interpreter/objectstorage/object_layout.py:ObjectLayout.with_initialized_field", "src/som/vmobjects/object_with_layout.py:ObjectWithLayout.set_field"]}
{"id": "C21", "title": "In-place field increment equals read, add one, write", "statement": "The dedicated field-increment used for f := f + 1 has the same result and effect as reading the field, adding 1 and writing it back.", "quantifier": "all objects, fields and field contents", "why_tests_cant": "content-dependent: unset fields, overflow, arbitrary-precision and non-number contents", "anchors": ["src/som/vmobjects/object_with_layout.py:ObjectWithLayout.inc_field", "src/som/interpreter/objectstorage/storage_location.py", "src/som/compiler/bc/method_generation_context.py:optimize_inc_field"]}
{"id": "C22", "title": "Message lookup finds the nearest definition", "statement": "Sending selector s to an instance of class C runs the method for s defined in the nearest class on C's superclass chain that defines s, no matter which other lookups happened before.", "quantifier": "all class hierarchies, selectors, and histories of earlier lookups", "why_tests_cant": "lookups mutate per-class tables; every history must be transparent", "anchors": ["src/som/vmobjects/clazz.py:Class.lookup_invokable", "src/som/interpreter/objectstorage/object_layout.py:ObjectLayout.lookup_invokable"]}
{"id": "C23", "title": "Call-site caches are transparent", "statement": "Whatever receivers a call site has seen, in whatever order, and whatever field-layout changes happened in between, a send at that site runs the same method (or the same doesNotUnderstand:) that an uncached lookup would find.", "quantifier": "all call sites, all finite histories of receivers and layout changes", "why_tests_cant": "cache contents depend on the entire history at the site", "anchors": ["src/som/interpreter/ast/nodes/message/generic_node.py:_AbstractGenericMessageNode", "src/som/interpreter/ast/nodes/dispatch.py", "src/som/interpreter/bc/interpreter.py:_lookup,_update_object_and_invalidate_old_caches", "src/som/vmobjects/method_bc.py:drop_old_inline_cache_entries"]}
{"id": "C24", "title": "Call-site caches are bounded", "statement": "A call site never keeps more than INLINE_CACHE_SIZE specialised entries; beyond that it switches to a generic lookup.", "quantifier": "all finite histories of receivers at a call site", "why_tests_cant": "needs unboundedly many receiver classes", "anchors": ["src/som/interpreter/ast/nodes/message/generic_node.py:_specialize", "src/som/interpreter/bc/interpreter.py:_lookup"]}
{"id": "C25", "title": "Asking a class for its methods is not affected by running programs", "statement": "The list answered by the methods message of a class consists of the methods defined by that class, independent of messages sent before.", "quantifier": "all class hierarchies and histories of sends", "why_tests_cant": "history-dependent", "anchors": ["src/som/vmobjects/clazz.py:Class.lookup_invokable,get_instance_invokables_for_disassembler", "src/som/primitives/class_primitives.py"]}
{"id": "C26", "title": "doesNotUnderstand: receives the selector and the arguments in order", "statement": "When no method is found, the receiver is sent doesNotUnderstand:arguments: with the selector and an array of exactly the passed arguments in order, in both interpreters and at every arity.", "quantifier": "all selectors, arities and argument values", "why_tests_cant": "arity and argument kinds are unbounded", "anchors": ["src/som/interpreter/bc/interpreter.py:send_does_not_understand", "src/som/interpreter/ast/nodes/dispatch.py:CachedDnuNode,GenericDispatchNode._send_dnu"]}
{"id": "C27", "title": "Symbols are unique per name", "statement": "Two symbols are identical exactly when their names are equal, at every point of any execution.", "quantifier": "all strings and all histories of symbol creation", "why_tests_cant": "history-dependent interning table", "anchors": ["src/som/vm/symbols.py:symbol_for", "src/som/vmobjects/symbol.py:Symbol"]}
{"id": "C28", "title": "A selector's arity follows from its spelling", "statement": "A selector consisting of operator characters takes one argument; otherwise it takes as many arguments as it has colons.", "quantifier": "all strings accepted as selectors", "why_tests_cant": "quantifies over all spellings", "anchors": ["src/som/vmobjects/symbol.py:Symbol._determine_number_of_signature_arguments"]}
{"id": "C29", "title": "Globals hold the last value assigned", "statement": "After any history of global assignments and reads, reading a global answers the last value assigned to that name, names never assigned are reported as unknown, and assignments to other names have no effect.", "quantifier": "all names, values and histories, including reads cached in compiled code", "why_tests_cant": "reads are cached in compiled methods; every interleaving of caching and assignment matters", "anchors": ["src/som/vm/universe.py:get_global,set_global,has_global,get_globals_association", "src/som/vmobjects/method_trivial.py:GlobalRead", "src/som/interpreter/ast/nodes/global_read_node.py"]}
{"id": "C30", "title": "A failed class lookup leaves no trace", "statement": "After asking the system to load a class that does not exist, the name is still reported as an unknown global.", "quantifier": "all names and histories", "why_tests_cant": "history-dependent", "anchors": ["src/som/vm/universe.py:load_class", "src/som/primitives/system_primitives.py:_load,_has_global"]}
{"id": "C31", "title": "String primitives obey the algebra of strings", "statement": "concatenate:, length, charAt:, primSubstringFrom:to:, =, asSymbol/asString and the is... predicates agree with the corresponding functions on character sequences for every string and index; in particular substring(1,length) is the string, lengths add under concatenation, and substrings of a concatenation are recovered.", "quantifier": "all strings and all index pairs", "why_tests_cant": "unbounded strings and index pairs", "anchors": ["src/som/primitives/string_primitives.py"]}
{"id": "C32", "title": "Priority queue used for jump patching is a correct heap", "statement": "After any sequence of insertions, removals answer the entries in non-decreasing address order, and every inserted entry is removed exactly once.", "quantifier": "all sequences of insertions and removals", "why_tests_cant": "unbounded sequences; array-embedded heap invariants", "anchors": ["src/rlib/min_heap_queue.py:heappush,heappop,_siftdown,_siftup"]}
{"id": "C33", "title": "Lexing loses nothing and invents nothing", "statement": "The token sequence of a source text, whatever whitespace and comments separate the tokens, determines and is determined by the non-separator characters: rendering any token sequence with arbitrary separators and lexing it again gives the same token sequence.", "quantifier": "all token sequences and all separator choices", "why_tests_cant": "all texts", "anchors": ["src/som/compiler/lexer.py:Lexer.get_sym,_skip_white_space,_skip_comment"]}
{"id": "C34", "title": "String literals denote their characters", "statement": "A string literal whose characters are escaped as the language prescribes denotes exactly the original string.", "quantifier": "all strings", "why_tests_cant": "all character sequences including quotes, backslashes and line breaks", "anchors": ["src/som/compiler/lexer.py:_lex_string,_lex_escape_char,_lex_string_char"]}
{"id": "C35", "title": "Lexing always terminates", "statement": "Reading the tokens of any source text terminates with the end-of-input token (or an error).", "quantifier": "all texts", "why_tests_cant": "non-termination cannot be observed by a test; it happens on an unterminated string literal", "anchors": ["src/som/compiler/lexer.py:Lexer"]}
{"id": "C36", "title": "Looking ahead does not consume input", "statement": "Peeking at the next token any allowed number of times leaves the sequence of tokens subsequently read unchanged.", "quantifier": "all texts and positions", "why_tests_cant": "all interleavings of peek and read", "anchors": ["src/som/compiler/lexer.py:Lexer.peek"]}
{"id": "C37", "title": "Source text is delivered completely and in order", "statement": "Reading a source stream line by line yields the text exactly once, in order.", "quantifier": "all texts", "why_tests_cant": "all texts, with and without trailing newlines", "anchors": ["src/rlib/string_stream.py:StringStream", "src/som/compiler/lexer.py:_fill_buffer"]}
{"id": "C38", "title": "Unary binds tighter than binary, binary tighter than keyword, left to right", "statement": "Parsing any expression yields the unique tree in which unary messages bind tightest, then binary messages associating to the left, then one keyword message collecting all its parts; printing a tree with the required parentheses and parsing it gives the tree back.", "quantifier": "all expression trees", "why_tests_cant": "the set of expressions is infinite and recursive", "anchors": ["src/som/compiler/bc/parser.py:_messages,_formula,_binary_operand,_keyword_message", "src/som/compiler/ast/parser.py"]}
{"id": "C39", "title": "A name refers to its innermost declaration", "statement": "A variable name in a method or block denotes the local or argument of that name declared in the innermost enclosing scope that declares it, otherwise a field, otherwise a global; reading and writing agree on this.", "quantifier": "all nestings of scopes and names", "why_tests_cant": "nesting depth is unbounded", "anchors": ["src/som/compiler/ast/method_generation_context.py:get_variable,get_context_level", "src/som/compiler/bc/method_generation_context.py:find_var", "src/som/compiler/lexical_scope.py"]}
{"id": "C40", "title": "Every variable has its own slot and every argument arrives in it", "statement": "Distinct variables of a method activation never share storage, all slots lie inside the allocated frame, and after entering a method with any arguments, reading an argument variable (from the method itself or from a nested block) answers the argument passed in that position and reading an unassigned local answers nil.", "quantifier": "all numbers of arguments and locals, all patterns of access from nested blocks, all argument values", "why_tests_cant": "2^n patterns of which variables are captured by nested blocks", "anchors": ["src/som/compiler/method_generation_context.py:prepare_frame,_separate_variables", "src/som/interpreter/ast/frame.py:create_frame_1,create_frame_2,create_frame_3,create_frame_args", "src/som/interpreter/bc/frame.py:create_frame"]}
{"id": "C41", "title": "The operand stack never over- or underflows", "statement": "Executing a compiled method never pops an empty operand stack nor pushes beyond the size recorded at compile time, and different paths to the same instruction agree on the stack height.", "quantifier": "all methods, all executions", "why_tests_cant": "all programs and all paths", "anchors": ["src/som/compiler/bc/method_generation_context.py:add_bytecode,compute_stack_depth", "src/som/compiler/bc/bytecode_generator.py"]}
{"id": "C42", "title": "Jumps land where the compiler meant", "statement": "For any offset between 0 and 65535 the encoded jump, short or long, transfers control to the intended instruction, and offsets outside are rejected at compile time.", "quantifier": "all offsets", "why_tests_cant": "long jumps need huge methods", "anchors": ["src/som/compiler/bc/method_generation_context.py:patch_jump_offset_to_point_to_next_instruction,emit_backwards_jump_offset_to_target", "src/som/compiler/bc/bytecode_generator.py:compute_offset", "src/som/interpreter/bc/interpreter.py:interpret (jumps)"]}
{"id": "C43", "title": "Compiled bytecode computes the value of the expression", "statement": "Running the bytecode emitted for a method body has the same effects in the same order, and the same result, as evaluating the body according to the language: receiver and arguments left to right, each exactly once, then the send; assignment answers the value; a method without explicit return answers self.", "quantifier": "all method bodies, all initial states, all behaviours of the messages sent", "why_tests_cant": "compiler correctness is a statement about all programs", "anchors": ["src/som/compiler/bc/parser.py", "src/som/compiler/bc/bytecode_generator.py", "src/som/compiler/bc/method_generation_context.py", "src/som/interpreter/bc/interpreter.py:interpret"]}
{"id": "C44", "title": "Bytecode peephole optimisations preserve behaviour", "statement": "The bytecode rewrites done while emitting (dropping duplicate pushes before pops, fusing field increments, returning fields directly) do not change the result or effects of any method.", "quantifier": "all instruction sequences they apply to and all states", "why_tests_cant": "applies to all contexts", "anchors": ["src/som/compiler/bc/method_generation_context.py:optimize_dup_pop_pop_sequence,optimize_inc_field,optimize_return_field,remove_last_pop_for_block_local_return"]}
{"id": "C45", "title": "Inlined control structures behave like the messages", "statement": "ifTrue:, ifFalse:, ifTrue:ifFalse:, ifNil:, ifNotNil:, and:, or:, &&, ||, whileTrue: and whileFalse: with literal blocks, which the compiler inlines, behave as the corresponding messages with block arguments: same branch taken, same result, branches not taken are not evaluated, loop bodies run as often as the condition says.", "quantifier": "all conditions, branches and loop lengths", "why_tests_cant": "all programs; unbounded loops", "anchors": ["src/som/compiler/bc/method_generation_context.py:inline_then_branch,inline_then_else_branches,inline_while,inline_andor", "src/som/interpreter/ast/nodes/specialized/literal_if.py", "src/som/interpreter/ast/nodes/specialized/literal_and_or.py", "src/som/interpreter/ast/nodes/specialized/literal_while.py", "src/som/vmobjects/method_bc.py:_inline_into,adapt_after_outer_inlined"]}
{"id": "C46", "title": "Inlining a block keeps every variable reference", "statement": "After inlining a block into its enclosing method, every variable reference in the inlined code and in blocks nested in it still denotes the variable it denoted before.", "quantifier": "all nestings of blocks and variables", "why_tests_cant": "unbounded nesting", "anchors": ["src/som/compiler/method_generation_context.py:inline_locals,get_inlined_local,merge_into_scope", "src/som/compiler/lexical_scope.py:add_inlined_locals,drop_inlined_scope", "src/som/vmobjects/method_bc.py:adapt_after_outer_inlined", "src/som/interpreter/ast/nodes/variable_node.py:handle_inlining,handle_outer_inlined"]}
{"id": "C47", "title": "^ in a block returns from the home method", "statement": "Evaluating ^ v in a block makes the activation of the method in which the block was created answer v, abandoning every activation in between and no other; if that activation is no longer running, its receiver is sent escapedBlock: instead.", "quantifier": "all call depths, block nestings and activation histories, including recursion", "why_tests_cant": "all dynamic call graphs", "anchors": ["src/som/interpreter/bc/interpreter.py:_do_return_non_local", "src/som/interpreter/control_flow.py:ReturnException", "src/som/vmobjects/method_bc.py:_interp_with_nlr", "src/som/interpreter/ast/nodes/return_non_local_node.py", "src/som/interpreter/ast/frame.py:mark_as_no_longer_on_stack,is_on_stack"]}
{"id": "C48", "title": "Trivial methods behave like their bodies", "statement": "Methods recognised as returning a literal, a global or a field, or setting a field, behave exactly as executing their body would, at every arity.", "quantifier": "all such methods, receivers and arguments", "why_tests_cant": "all arities and argument positions", "anchors": ["src/som/vmobjects/method_trivial.py", "src/som/compiler/bc/method_generation_context.py:assemble_trivial_method"]}
{"id": "C49", "title": "Both interpreters agree", "statement": "A program gives the same answers and effects in the AST interpreter and in the bytecode interpreter.", "quantifier": "all programs", "why_tests_cant": "all programs", "anchors": ["src/som/interpreter/ast", "src/som/interpreter/bc"]}
{"id": "C50", "title": "Command-line arguments are split into class path, options and program arguments", "statement": "Arguments after the program name reach the program unchanged and in order; the directory part of a program path is searched before the given class path.", "quantifier": "all argument lists", "why_tests_cant": "unbounded argument lists", "anchors": ["src/som/vm/universe.py:handle_arguments,_get_path_class_ext", "src/rlib/osext.py:path_split"]}
{"id": "C51", "title": "A loop send behaves the same every time it is executed", "statement": "In the AST interpreter, executing the same to:do:, to:by:do: or downTo:do: expression repeatedly runs the same loop as the first time for the operands of that execution, whatever kinds of numbers earlier executions saw.", "quantifier": "all sequences of executions of one expression with Integer receivers and Integer or Double limits", "why_tests_cant": "the expression rewrites itself on first execution; failures need particular sequences of operand kinds at one call site", "anchors": ["src/som/interpreter/ast/nodes/specialized/to_do_node.py:IntToIntDoNode,IntToDoubleDoNode", "src/som/interpreter/ast/nodes/specialized/to_by_do_node.py", "src/som/interpreter/ast/nodes/specialized/down_to_do_node.py", "src/som/interpreter/ast/nodes/message/uninitialized_node.py:UninitializedMessageNode._specialize"]}
{"id": "C52", "title": "Super sends and perform: find the right method or report the message", "statement": "A super send in a method of class C runs the nearest definition above C, independent of the receiver, on every execution; perform: runs what an ordinary send would run; if there is no definition the receiver is sent doesNotUnderstand:arguments:.", "quantifier": "all class hierarchies, selectors and histories of earlier sends", "why_tests_cant": "depends on the whole hierarchy and on earlier lookups that mutate tables and caches", "anchors": ["src/som/interpreter/bc/interpreter.py:_do_super_send", "src/som/interpreter/ast/nodes/message/super_node.py", "src/som/primitives/object_primitives.py:_perform"]}
{"id": "C53", "title": "The shell reads one statement per line", "statement": "Each line of input reaches the shell as one statement without its newline, no matter in which pieces the input arrives.", "quantifier": "all inputs and all ways the operating system splits them into reads", "why_tests_cant": "depends on how reads split the input", "anchors": ["src/rlib/osext.py:raw_input,_read_raw"]}
{"id": "C54", "title": "Reported source positions are right", "statement": "After any number of tokens has been read, the character offset reported is the number of characters read so far, and the reported line and column denote that offset.", "quantifier": "all source texts and all positions in them", "why_tests_cant": "The position is maintained across line buffers, comments and strings spanning lines; only an invariant over all readings shows it never drifts.", "anchors": ["src/som/compiler/lexer.py:get_source_coordinate,get_number_of_characters_read,_fill_buffer"]}
{"id": "C55", "title": "Double conversions and comparisons are exact", "statement": "asInteger of a finite Double is its value with the fraction cut off, round is the nearest integer with halves away from zero, and <, <=, >, >=, =, <> compare the exact values, every comparison with NaN being false except <>; sqrt of an Integer answers an Integer exactly when the argument is a perfect square.", "quantifier": "all binary64 values, all mixed Integer/Double operands, all integers", "why_tests_cant": "The answers depend on rounding and representation boundaries among 2^64 doubles and unboundedly many integers.", "anchors": ["src/som/vmobjects/double.py:prim_less_than,prim_greater_than,prim_equals", "src/som/primitives/double_primitives.py:_round,_as_integer", "src/som/primitives/integer_primitives.py:_sqrt"]}
{"id": "C56", "title": "Methods and classes are read as declared", "statement": "A class definition is read as exactly its name, superclass name, instance and class fields and methods in their order, each method with its selector, parameters, locals and statements; nothing is dropped, reordered or invented.", "quantifier": "all class definitions of the grammar", "why_tests_cant": "class definitions nest without bound", "anchors": ["src/som/compiler/parser.py:class_def,_superclass,_instance_fields,_class_fields,method,_pattern", "src/som/compiler/bc/parser.py:_block_body", "src/som/compiler/ast/parser.py:_block_body"]}
{"id": "C57", "title": "Integer literals denote the number they spell", "statement": "An integer literal in a source file, with or without a minus sign, denotes the integer its decimal digits spell, however long it is.", "quantifier": "all digit sequences, both signs, both execution modes", "why_tests_cant": "unboundedly many literals and the boundary between word and big representation", "anchors": ["src/som/compiler/parser.py:_literal_integer", "src/rlib/arithmetic.py:string_to_int"]}
{"id": "C58", "title": "Classes and metaclasses form parallel hierarchies", "statement": "After start-up and any sequence of loading classes and defining shell classes, including ones that fail, every class a program can reach has a metaclass that is an instance of Metaclass, carries the class's name with ' class' added, and inherits from the metaclass of its superclass; the metaclass of Object inherits from Class; every class inherits from Object and every metaclass from Class and Object.", "quantifier": "all class libraries, all histories of load and shell requests, all reachable classes", "why_tests_cant": "the property is about every class of every library after every order of loading, including failed loads", "anchors": ["src/som/vm/universe.py:_initialize_object_system,new_metaclass_class,new_system_class,_initialize_system_class,load_class,load_shell_class", "src/som/compiler/class_generation_context.py:assemble,assemble_system_class"]}
{"id": "C59", "title": "A class is what its file and its superclasses' files declare", "statement": "The fields of a loaded class are those of its superclass followed by its own, on both sides, and instances have exactly one slot for each; its superclass is the one its file names; its methods are the last definitions in the file, replaced by the VM's primitives exactly where these are installed; none of this depends on what was loaded before, in which order, or which loads failed.", "quantifier": "all class libraries that start, all histories, all named and shell classes, all selectors", "why_tests_cant": "unboundedly deep hierarchies and all loading orders", "anchors": ["src/som/compiler/class_generation_context.py:set_super_class,assemble,assemble_system_class", "src/som/vm/universe.py:load_class,_load_system_class,_load_primitives,_make_block_class", "src/som/vmobjects/clazz.py:set_instance_fields,set_instance_invokables,add_primitive,load_primitives"]}
{"id": "C60", "title": "Loading a class is idempotent, ends, and leaves everything else alone", "statement": "Asking for a class again answers the same class and changes nothing; no load, successful or not, alters an existing class or a global that has a value; loading ends; it answers nil exactly when the class path has no such file.", "quantifier": "all class libraries, all states, all histories of requests", "why_tests_cant": "all histories, all hierarchies, cyclic ones included", "anchors": ["src/som/vm/universe.py:load_class,_load_class,load_shell_class", "src/som/compiler/sourcecode_compiler.py:compile_class_from_file", "src/som/compiler/parser.py:_superclass"]}
{"id": "C61", "title": "Reflective field access reaches the fields it names", "statement": "instVarAt: i answers what the i-th field of the object holds and instVarAt: i put: v makes it v and changes no other field of any object, whatever was assigned before by methods or reflectively; instVarNamed: answers the field methods of the class see under that name; numbers and names that denote no field are rejected.", "quantifier": "all classes (any number of fields), all histories of assignments and reflective accesses over any number of objects, all numbers and names", "why_tests_cant": "object layouts are shared and change with the history of assignments in all objects of the class", "anchors": ["src/som/primitives/object_primitives.py:_inst_var_at,_inst_var_at_put,_inst_var_named", "src/som/vmobjects/object_with_layout.py:get_field_index,get_field,set_field", "src/som/vmobjects/clazz.py:lookup_field_index"]}
{"id": "C62", "title": "objectSize answers the number of fields", "statement": "objectSize answers the number of fields of the receiver, for every object, whatever has been assigned to its fields.", "quantifier": "all classes, all histories of assignments, all objects", "why_tests_cant": "all layouts reached by all histories", "anchors": ["src/som/primitives/object_primitives.py:_object_size", "src/som/vmobjects/object_with_layout.py:get_number_of_fields"]}
{"id": "C63", "title": "A conditional send behaves like the message every time it is executed", "statement": "In the AST interpreter a send of ifTrue:, ifFalse: or ifTrue:ifFalse: whose arguments are not block literals does what the message means for the receiver at hand, no matter which receivers and arguments the same send has been executed with before.", "quantifier": "all sends, all histories of executions of the send, all receivers and arguments", "why_tests_cant": "the node rewrites itself on first execution, so the answer may depend on the whole history", "anchors": ["src/som/interpreter/ast/nodes/specialized/if_true_false.py:IfNode,IfTrueIfFalseNode", "src/som/interpreter/ast/nodes/message/uninitialized_node.py:_specialize", "src/som/primitives/true_primitives.py", "src/som/primitives/false_primitives.py"]}
{"id": "C64", "title": "The shell evaluates each line with the last value as it", "statement": "Each line entered in the shell is compiled as one expression and evaluated with it being the value of the last statement that completed (nil at first). A line that does not compile or fails is reported and leaves it as it was; a line that is not an expression is rejected. The session goes on until quit, the end of the input or an exit, and then answers it.", "quantifier": "all sessions, all lines, all ways the input is split into reads, all behaviours of the statements", "why_tests_cant": "sessions and statements are unbounded, and the result depends on the whole history", "anchors": ["src/som/vm/shell.py:Shell.start", "src/som/vm/universe.py:load_shell_class", "src/rlib/osext.py:raw_input"]}
{"id": "C65", "title": "A primitive gets the receiver and the arguments of the send, and answers in their place", "statement": "Sending a message that a primitive implements calls the primitive once with the receiver and all arguments in the order of the send, and its answer is the value of the send; in the bytecode interpreter the answer replaces the receiver and the arguments on the stack. Every primitive the VM provides can be called with the number of arguments its selector takes. A method declared primitive that the VM does not provide prints a warning naming the selector and answers an object. perform: and perform:withArguments: call the primitive just as the send does.", "quantifier": "all primitives (any function), all selectors, all receivers, arguments, stacks and VM states; all primitives provided in both interpreters", "why_tests_cant": "the primitive, the number of arguments and the stack below them are arbitrary; tests call only some primitives, with few arguments, and never one that is not provided", "anchors": ["src/som/vmobjects/primitive.py:Primitive", "src/som/vmobjects/primitive.py:UnaryPrimitive", "src/som/vmobjects/primitive.py:BinaryPrimitive", "src/som/vmobjects/primitive.py:TernaryPrimitive", "src/som/vmobjects/primitive.py:empty_primitive", "src/som/primitives/"]}
{"id": "C66", "title": "A call with the wrong number of arguments is refused", "statement": "When perform:, perform:withArguments: or a primitive that evaluates a block (ifTrue:, whileTrue:, do:, to:do: and so on) calls a method or block with a number of arguments other than its number of parameters, the call fails and the body does not run; with the right number the body runs just as when the message is sent. Both interpreters do the same. A block with any number of parameters can be sent messages.", "quantifier": "all methods and blocks (any number of parameters and locals, any use of them by nested blocks), all receivers, all numbers and values of arguments", "why_tests_cant": "what happens depends on the layout chosen for the variables, for which there are unboundedly many cases, and no test calls with a wrong number", "anchors": ["src/som/primitives/object_primitives.py:_perform_with_arguments", "src/som/vmobjects/method_ast.py:AstMethod", "src/som/vmobjects/method_bc.py:BcMethod", "src/som/interpreter/ast/frame.py", "src/som/interpreter/bc/frame.py", "src/som/vmobjects/block_ast.py:AstBlock.get_class", "src/som/vm/universe.py:_make_block_class"]}
{"id": "C67", "title": "Reports of syntax errors", "statement": "When a source has a syntax error, the user gets one report: file, line, column, what is wrong, and the line of the source. The line and the column are where the parser stopped reading, the quoted line is the line named, the token found and the tokens expected are those of the error.", "quantifier": "every source text, every point where the parser stops (any number of tokens read, or the end of the source), every complaint the parsers can raise, every file name", "why_tests_cant": "Tests raise a few errors on a few lines. The report is made by formatting a text that contains the offending source line, so whether it can be made at all depends on every character of that line.", "anchors": ["src/som/compiler/parse_error.py: ParseError, ParseErrorSymList", "src/som/compiler/symbol.py: symbol_as_str", "src/som/compiler/lexer.py: get_raw_buffer, get_source_coordinate", "src/som/compiler/parser.py: _expect, _expect_one_of", "src/main.py"]}
{"id": "C68", "title": "Nodes rewriting themselves", "statement": "In the AST interpreter reads, writes, globals and messages replace themselves in the program, the first time they are executed, by a faster form. No call differs for it: each ends with the same answer or exception and leaves the same state as if the program never changed, also when a method is entered again while the nodes of an outer activation of it are being executed or replaced. No replacement fails.", "quantifier": "every program, every history of calls, every depth of recursion, every behaviour of the rest of the VM that does not remove globals", "why_tests_cant": "Which nodes have been replaced, by whom they are held and who their parent is depends on the order of all executions so far, including calls that re-enter a method in the middle of evaluating its arguments; tests see a few of these orders.", "anchors": ["src/rtruffle/node.py: adopt_child, adopt_children, replace", "src/rtruffle/abstract_node.py: _replace_child_with", "src/som/interpreter/ast/nodes/variable_node.py: UninitializedReadNode, UninitializedWriteNode", "src/som/interpreter/ast/nodes/global_read_node.py: _UninitializedGlobalReadNode", "src/som/interpreter/ast/nodes/message/uninitialized_node.py: UninitializedMessageNode", "src/som/interpreter/ast/nodes/sequence_node.py", "src/som/vmobjects/method_ast.py"]}
{"id": "C69", "title": "Listings of methods (option -d)", "statement": "With option -d every method of a loaded class is listed: a line for every instruction, in the order of the code, with its address, its name and its operands, and the listing of a block where the block is made. Execution is always at a listed address, and it goes on at the next line or at the jump target the line gives. Two methods with the same listing have the same code. The listing does not end in an exception.", "quantifier": "every method the compiler makes, every block nested in it, every table of methods of a class, every execution of a compiled method on any state of the VM", "why_tests_cant": "Whether a listing stays in step with the instructions, and whether its jump targets are those the interpreter uses, depends on every instruction length and operand of every compiled method; tests list a few methods or none.", "anchors": ["src/som/compiler/bc/disassembler.py: dump, dump_method, dump_bytecode", "src/som/compiler/ast/disassembler.py: dump, dump_method", "src/som/interpreter/bc/bytecodes.py: bytecode_length, bytecode_as_str", "src/som/vm/universe.py: _load_class, error_print, error_println", "src/som/vmobjects/method_trivial.py"]}
{"id": "C70", "title": "Text enters and leaves unchanged", "statement": "What a program prints on the standard output and the standard error is written there completely, in order, as UTF-8, and nothing else; printing succeeds for every string. loadFile: answers the text of a file, or nil if it cannot be read. A line typed into the shell is read as its text, in whatever pieces it arrives.", "quantifier": "every text, every history of printString:, printNewline, errorPrint:, errorPrintln: and halt, every number of bytes the system takes at a write, every file, every way the reads of it succeed or fail, every way a line is cut into pieces", "why_tests_cant": "Tests print and read a few short texts on a system that behaves. Writes may be short, reads may fail in the middle, and characters have several bytes, which a buffer boundary can separate.", "anchors": ["src/rlib/string_stream.py: encode_to_bytes, decode_str", "src/som/vm/universe.py: std_print, std_println, error_print, error_println", "src/som/primitives/system_primitives.py: _print_string, _print_newline, _error_print, _error_println, _load_file", "src/som/primitives/object_primitives.py: _halt", "src/rlib/streamio.py: readall_from_stream", "src/rlib/osext.py: raw_input"]}
{"id": "C71", "title": "Identity, equality and hash codes fit together", "statement": "== answers true exactly for the same object, or for integers that are the same number, and is an equivalence. = of strings and symbols compares their texts, and equal ones have the same hashcode; symbols are identical exactly if they are equal. Whatever is identical has the same hashcode. An object stays the same object, with the same hashcode, however often it is handed on, stored in an array or a field, copied and read back.", "quantifier": "every history of making objects, handing them on, storing them in arrays (at:put:, putAll:, copy) and fields and reading them back, every layout change in between, every pair of objects the program then has", "why_tests_cant": "Arrays and objects store numbers without the objects that held them, depending on what else was stored before. A test compares a few objects after a few moves; a hash table relies on every object being the same after any.", "anchors": ["src/som/primitives/object_primitives.py: _equals, _hashcode", "src/som/primitives/string_primitives.py: _equals, _hashcode", "src/som/primitives/symbol_primitives.py: _equals", "src/som/primitives/integer_primitives.py: _equals_equals", "src/som/vmobjects/array.py: get_idx, set_idx, set_all, copy", "src/som/interpreter/objectstorage/storage_location.py", "src/som/vm/symbols.py: symbol_for"]}
{"id": "C72", "title": "A run ends with the status its program asks for, and at once", "statement": "system exit: n ends the program there and then, from any depth of calls, blocks and loads, in a program or in the shell, and the process has status n. A program that comes to its end has status 0; one stopped by a syntax error or an internal error has status 1 and a report; a file whose class has another name gives 1, a missing system class 200. What was written before is written, nothing after is. Statements that fail in the shell are reported, do not end the session and leave it as it was. This is the same in both interpreters, run by Python or translated.", "quantifier": "every program (any tree of outputs, calls, non-local returns, loads, failures and exits), start-up, session of the shell, command line, class path content, both interpreters, both ways to run the VM", "why_tests_cant": "exit: is an exception that passes through every handler between the primitive and the process; tests run with exiting turned off, and a few programs do not meet every nesting of handlers or every history of failed statements.", "anchors": ["src/main.py", "src/main_rpython.py: entry_point", "src/som/vm/universe.py: exit, interpret, main, _load_system_class, _load_class", "src/som/vm/shell.py: Shell.start", "src/som/primitives/system_primitives.py: _exit", "src/som/compiler/sourcecode_compiler.py: compile_class_from_file", "src/som/vmobjects/method_bc.py: _interp_with_nlr", "src/som/interpreter/ast/nodes/return_non_local_node.py: CatchNonLocalReturnNode", "src/som/interp_type.py"]}
{"id": "C73", "title": "Reading a source always ends, and accepts exactly the language", "statement": "Given any text, reading a class ends: with a class, or with a syntax error; it never runs for ever and never stops for another reason. It gives a class exactly if the tokens start with a class definition of the language; where that definition ends is fixed by the tokens, and what follows it has no influence on the class. The two interpreters accept the same sources.", "quantifier": "every text and every list of tokens, both parsers, classes and single methods", "why_tests_cant": "Tests parse well-formed files and a few wrong ones; the claim is about every wrong file too, and that the language has no other member than the grammar's needs both directions.", "anchors": ["src/som/compiler/parser.py", "src/som/compiler/ast/parser.py", "src/som/compiler/bc/parser.py", "src/som/compiler/lexer.py", "src/som/compiler/sourcecode_compiler.py"]}
{"id": "C74", "title": "A number program gives the same answers translated and under Python", "statement": "A program over integers and doubles (literals, variables, assignments, sends, choices and loops) sends the same messages, leaves the same values in its variables, answers the same value and ends or runs on alike, whether the VM is the translated binary (64-bit integers that turn into big integers) or the same sources run by a Python interpreter (one kind of unbounded integer).", "quantifier": "all programs, all starting values of the variables, all run lengths; every number message with every receiver and argument", "why_tests_cant": "The test-suite runs the same SOM programs on both VMs, but a difference shows only for particular sizes, representations and types; agreement has to hold for every history of values a program can build up.", "anchors": ["src/rlib/arithmetic.py: ovfcheck, bigint_from_int, string_to_int, LONG_BIT", "src/rlib/llop.py: as_32_bit_signed_value, unsigned_right_shift, int_mod", "src/som/vmobjects/integer.py: Integer.prim_*", "src/som/vmobjects/biginteger.py: BigInteger.prim_*", "src/som/vmobjects/double.py: Double.prim_*", "src/som/primitives/integer_primitives.py", "src/som/primitives/double_primitives.py", "src/som/compiler/parser.py: _literal_integer"]}
{"id": "C75", "title": "Arithmetic of doubles is correctly rounded", "statement": "+, -, *, // and sqrt of doubles answer the double nearest to the exact result (of two equally near ones the even one; infinity from the limit on; the sign kept when the result rounds to zero), % is exact with the sign of the receiver, asDouble of an integer of any size and // of integers round the exact value once, so a result that is itself a double is answered exactly and + and * commute. Infinities, NaN, zeros and division by zero behave as in IEEE 754, except that a plain Python raises on division by zero.", "quantifier": "all pairs of doubles, subnormal and huge ones, zeros, infinities and NaN included; all integers of any size; both ways of running the VM", "why_tests_cant": "There are 2^128 pairs of doubles; a wrong rounding shows only near ties, at the overflow limit and among subnormals, and a second rounding (words to doubles before a division) only for few operands.", "anchors": ["src/som/vmobjects/double.py: Double.prim_add, prim_subtract, prim_multiply, prim_double_div, prim_modulo, _get_float", "src/som/vmobjects/integer.py: Integer.prim_double_div, prim_as_double", "src/som/vmobjects/biginteger.py: BigInteger.prim_double_div, prim_as_double", "src/som/primitives/double_primitives.py: _sqrt, _positive_infinity"]}
{"id": "C76", "title": "A decimal literal denotes the nearest double", "statement": "A number written with a decimal point denotes the double nearest to the number it writes (of two equally near ones the even one; infinity from the limit on), with a minus sign its negative. Two ways to write the same number denote the same double, a larger number is never read as a smaller double, a whole number written with a point is its asDouble, and Double fromString: reads the same texts in the same way.", "quantifier": "all texts of digits with a decimal point, of any length, with and without a sign", "why_tests_cant": "There are unboundedly many literals, of unbounded length; a rounding error shows only close to the middle of two doubles, where arbitrarily late digits decide.", "anchors": ["src/som/compiler/parser.py: ParserBase._literal_double, _negative_decimal", "src/som/compiler/lexer.py: Lexer._lex_number", "src/som/primitives/double_primitives.py: _from_string"]}
