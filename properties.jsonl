{"id": "C01", "title": "Opcode header round trip", "statement": "Building an instruction with any command number and reading the command back from its header byte returns the same command number, whatever the 4-bit payload is.", "quantifier": "all command numbers 0..29 and all payload nibbles", "why_tests_cant": "the two nibbles encode short and extended commands differently; only a proof over the whole encoding space shows no two commands collide in every context", "anchors": ["modules/core/__xil.h: xil_header_t", "modules/core/__xil.h: xil_command_t"]}
{"id": "C02", "title": "Bytecode stream round trip", "statement": "Writing any list of well-formed instructions to a bytecode buffer and reading the buffer back yields exactly the same list of instructions, in order, with every operand intact, and consumes exactly the whole buffer.", "quantifier": "all finite lists of well-formed instructions of all kinds with all operand values", "why_tests_cant": "instruction lengths depend on operands (inline or 2-byte identities, near or far jumps, typed constants); an off-by-n for a single combination desynchronises the remainder of arbitrary streams", "anchors": ["modules/core/__xil.h: push_xil_t, pop_xil_t, pick_xil_t, jmp_xil_t, size_of", "modules/core/xil.cpp: __size_of, xil_buffer_reader_t::read, xil_buffer_writer_t::write"]}
{"id": "C03", "title": "Jump distance round trip", "statement": "Setting a relative jump distance on a jump instruction and reading it back returns the same distance for every signed 24-bit distance, and every other distance is rejected with an error instead of being truncated.", "quantifier": "all 32-bit signed distances", "why_tests_cant": "2^32 values with two encodings and a sign extension from 24 bits", "anchors": ["modules/core/xil.cpp: jmp_xil_t::set_step, jmp_xil_t::step"]}
{"id": "C04", "title": "Metadata reference packing", "statement": "A metadata reference built from an index, an extra tag and a count returns the same three numbers as long as they fit 20/3/9 bits; iterating a reference visits exactly the indices index..index+count-1 once each; two references are equal exactly when they denote the same range.", "quantifier": "all 20-bit indices, 3-bit tags and 9-bit counts, and all out-of-range arguments", "why_tests_cant": "2^32 references; the failure cases are wrap-arounds at the field widths", "anchors": ["modules/core/__xil.h: ref_t, __ref_iterator_t"]}
{"id": "C05", "title": "Bytecode reader progress", "statement": "Reading instructions from any byte buffer terminates: each successful read advances the position and never past the end of the buffer.", "quantifier": "all byte buffers", "why_tests_cant": "malformed buffers are unbounded in number; non-termination cannot be observed by a finite test", "anchors": ["modules/core/xil.cpp: xil_buffer_reader_t::read, __size_of"]}
{"id": "C06", "title": "Arithmetic result types", "statement": "For every pair of integer operand types the VM's result type of + - * / % & | ^ is the smallest of int32, uint32, int64, uint64 prescribed by the language's promotion rules, does not depend on operand order, and can represent both operands whenever neither operand is uint64.", "quantifier": "all pairs of the eight integer types and all arithmetic/bitwise operators", "why_tests_cant": "the result depends on the types only, but the representability claim ranges over all operand values", "anchors": ["modules/core/__vtype_traits.h: __IntOps, get_binary_vtype"]}
{"id": "C07", "title": "Integer arithmetic is exact modulo the result width", "statement": "For all integer operands the VM's + - * & | ^ give the mathematically exact result reduced to the width of the result type; / and % give truncated quotient and remainder with a/b*b + a%b = a.", "quantifier": "all operand types and all operand values, except division by zero and overflowing quotients", "why_tests_cant": "2^128 operand pairs; the interesting failures are sign/zero extension corner cases", "anchors": ["modules/core/__vtype_traits.h: binary_operator_t, __binary_op_t", "modules/exec/commands.cpp: __binary_command_t"]}
{"id": "C08", "title": "Integer comparison is mathematically correct", "statement": "For all integer operands x, y the VM comparisons < <= > >= == != return the truth of the comparison of their mathematical values.", "quantifier": "all operand type pairs and all values", "why_tests_cant": "mixed signed/unsigned comparisons go wrong only on sign-boundary values", "anchors": ["modules/core/__vtype_traits.h: __binary_op_t comparison operators", "modules/exec/commands.cpp: __new_cmp_command"]}
{"id": "C09", "title": "Unary operators", "statement": "For all integer operands unary -, + and ~ return the exact value (reduced to the result type's width) in the promoted type.", "quantifier": "all integer types and values", "why_tests_cant": "needs every value, e.g. -x for unsigned x", "anchors": ["modules/core/__vtype_traits.h: unitary_operator_t"]}
{"id": "C10", "title": "Constant folding agrees with run time", "statement": "Whenever the compiler evaluates an operator on constant operands at compile time, the resulting value and type equal what the VM computes for the same operator on the same operands.", "quantifier": "all unary and binary operators, all operand types and values", "why_tests_cant": "compile time and run time are separate code paths; agreement must hold for every operand pair", "anchors": ["modules/core/expression_executor.cpp: __unitary_execute, __binary_execute", "modules/exec/commands.cpp: __binary_command_t"]}
{"id": "C11", "title": "Integer literals denote their value", "statement": "Every well-formed non-negative integer literal in base 2, 8, 10 or 16 evaluates to its mathematical value, in the first type of the documented ladder that can represent it, and is reported as overflow exactly when it exceeds 2^64-1.", "quantifier": "all digit strings of every length in every base and with every suffix", "why_tests_cant": "unbounded literal lengths; boundaries at 2^31, 2^32, 2^63, 2^64 in each base", "anchors": ["algorithm/numeric.cpp: __numeric_parse_t, __multi_parser, try_parse_numeric"]}
{"id": "C12", "title": "Digit separators are neutral", "statement": "Inserting single quote separators between digits of an integer literal changes neither its value nor its type.", "quantifier": "all literals and all separator placements between digits", "why_tests_cant": "unbounded placements", "anchors": ["algorithm/numeric.cpp: parser loop 262-277"]}
{"id": "C13", "title": "Negative literals denote their value", "statement": "Every signed decimal literal evaluates to the negated value of its digits when it is at least -2^63.", "quantifier": "all digit strings", "why_tests_cant": "boundary crossing at each type of the ladder", "anchors": ["algorithm/numeric.cpp: __revise, __multi_parser"]}
{"id": "C14", "title": "Literal scanning consumes exactly the literal", "statement": "After an accepted integer literal the scanner stops at the first character that is not part of it.", "quantifier": "all source texts following the literal", "why_tests_cant": "all continuations must be considered", "anchors": ["algorithm/numeric.cpp: continue reading 467-584"]}
{"id": "C15", "title": "String literal round trip", "statement": "Reading the source form of a string (each special character written as its escape) gives back the string, and stops just after the closing quote.", "quantifier": "all strings and all texts following", "why_tests_cant": "unbounded strings", "anchors": ["modules/compile/token_reader.cpp: __read_string, __try_escape_char"]}
{"id": "C16", "title": "Verbatim string literal round trip", "statement": "Reading @\"...\" with every quote of the content doubled gives back the content and reports no error.", "quantifier": "all strings", "why_tests_cant": "unbounded strings", "anchors": ["modules/compile/token_reader.cpp: __read_multiline_string"]}
{"id": "C17", "title": "Tokenising terminates", "statement": "Reading a character literal, string literal, comment, name or unknown token from any source text terminates, i.e. reaches the end of the text or of the token after finitely many steps.", "quantifier": "all source texts", "why_tests_cant": "non-termination is not observable by tests", "anchors": ["modules/compile/token_reader.cpp: __read_char, __read_string, __read_line_comment, __read_multiline_comment"]}
{"id": "C18", "title": "Binary minus after any operand", "statement": "In any expression, a minus sign directly following an operand (name, literal, closing bracket) is the subtraction operator, whatever follows it.", "quantifier": "all token contexts", "why_tests_cant": "context dependent lexing", "anchors": ["modules/lang_cs/cs_token_reader.cpp: next, case '-' and '+'"]}
{"id": "C19", "title": "Operator precedence and associativity", "statement": "For every expression tree over names, parentheses and binary operators, parsing its minimally parenthesised source gives back exactly that tree: operators of higher priority bind tighter, equal priority groups left (assignment operators group right).", "quantifier": "all expression trees of any size over the whole operator table", "why_tests_cant": "the parser is a stack machine with deferred reductions; correctness needs an invariant over all stacks", "anchors": ["modules/compile/analyze_stack.cpp: analyze_stack_t", "modules/core/core.cpp: __system_operator_property_t"]}
{"id": "C20", "title": "Prefix and postfix operators", "statement": "For every operand expression, a prefix operator applied to a postfix-operated operand parses as prefix(postfix x), and prefix operators bind tighter than every binary operator except member access.", "quantifier": "all expression trees with unary operators", "why_tests_cant": "same as C19", "anchors": ["modules/compile/analyze_stack.cpp: __push_operator, __combine_expressions"]}
{"id": "C21", "title": "Conditional operator", "statement": "c ? a : b parses as the conditional of the three complete operand expressions, nests to the right, and its operands may themselves contain any higher priority operator.", "quantifier": "all operand expressions", "why_tests_cant": "same as C19; the operator is parsed as two binary operators with a parent link", "anchors": ["modules/compile/analyze_stack.cpp: __combine_expressions parent_op", "modules/lang_cs/utils.cpp: question_mark, question_colon"]}
{"id": "C22", "title": "Parser rejects malformed operator sequences", "statement": "Two operands without an operator between them, or a binary operator without left operand, are rejected with an error, never silently accepted with a different meaning.", "quantifier": "all token sequences", "why_tests_cant": "all sequences", "anchors": ["modules/compile/analyze_stack.cpp: __push_expression, __push_operator"]}
{"id": "C23", "title": "Structured statements keep their meaning", "statement": "The jump code generated for any nesting of sequence, if/else, while, for, do-while, loop-until, switch, break, continue and return executes exactly the sequence of actions of the source statements, for every outcome of the conditions.", "quantifier": "all statement trees of any depth and all condition outcomes (schedules of oracle answers)", "why_tests_cant": "unbounded programs and unbounded loop iterations", "anchors": ["modules/compile/statements.cpp: *_statement_t::compile", "modules/compile/__xil_struct.h: jmp_manager_t", "modules/exec/commands.cpp: __jmp_command_t"]}
{"id": "C24", "title": "continue in do-while re-evaluates the condition", "statement": "In a do-while or loop-until statement, continue transfers control to the evaluation of the loop condition.", "quantifier": "all loop bodies and conditions", "why_tests_cant": "schedule dependent", "anchors": ["modules/compile/statements.cpp: do_while_statement_t::compile, loop_until_statement_t::compile"]}
{"id": "C25", "title": "Unreachable code removal is safe", "statement": "Dropping the statements that follow a statement reported as not passing through never changes the behaviour of a method.", "quantifier": "all statement trees and condition outcomes", "why_tests_cant": "a static analysis must be sound for all executions", "anchors": ["modules/compile/statements.cpp: exit_type, statement_group_t::compile"]}
{"id": "C26", "title": "switch optimisation keeps meaning", "statement": "Compiling a switch with fewer than two labelled rows as a plain statement list or as an if statement behaves as the switch.", "quantifier": "all case lists and scrutinee values", "why_tests_cant": "all case bodies with and without break, in any order", "anchors": ["modules/compile/statements.cpp: switch_statement_t::__compile_as_if, __compile_as_statement"]}
{"id": "C27", "title": "Switch dispatch", "statement": "A compiled switch jumps to the label of the case whose constant equals the scrutinee, or to default when there is none.", "quantifier": "all tables (any number of rows) and all 32-bit scrutinees", "why_tests_cant": "binary search over arbitrary tables", "anchors": ["modules/exec/commands.cpp: __switch_jmp_command_t", "modules/compile/statements.cpp: __compile_as_switch"]}
{"id": "C28", "title": "Leaving a protected region runs its finally blocks", "statement": "When control leaves nested try blocks by a jump, every finally block being left runs exactly once, innermost first, none that still encloses the target runs, and control then arrives at the target.", "quantifier": "all properly nested block tables, all positions and targets", "why_tests_cant": "unbounded nesting", "anchors": ["modules/exec/commands.cpp: __process_finally, __end_finally_command_t", "include/modules/exec.h: block_queue_t, exec_method_block_manager_t"]}
{"id": "C29", "title": "Exceptions reach the nearest matching handler", "statement": "A thrown exception transfers control to the innermost enclosing catch block whose type is the exception's type or one of its base types, after running the finally blocks in between, innermost first; if the method has none, its frame is removed and the search continues in the caller.", "quantifier": "all block tables, class hierarchies and call depths", "why_tests_cant": "unbounded nesting and hierarchies", "anchors": ["modules/exec/commands.cpp: __process_exception, __is_base_type"]}
{"id": "C30", "title": "return inside try returns the value", "statement": "A return statement with a value inside a try block returns that value, after running the enclosing finally blocks.", "quantifier": "all methods and values", "why_tests_cant": "depends on code motion around leave", "anchors": ["modules/compile/statements.cpp: return_statement_t::compile", "modules/exec/commands.cpp: __process_finally_for_return"]}
{"id": "C31", "title": "Call frames balance", "statement": "Calling a method and returning from it restores the caller's frame pointer, instruction pointer and operand stack, replaces the arguments by the return value and leaves everything below untouched.", "quantifier": "all call depths, argument/local/return sizes and stack contents", "why_tests_cant": "invariant over arbitrary nesting of calls", "anchors": ["include/modules/exec.h: executor_stack_t, push_calling, pop_calling", "modules/exec/commands.cpp: __ret_command_t"]}
{"id": "C32", "title": "Array elements do not alias", "statement": "For a rectangular array of any dimensions, two different in-range index tuples address different elements and every in-range tuple passes the bounds check.", "quantifier": "all ranks, all dimension lengths, all index tuples", "why_tests_cant": "unbounded ranks and lengths", "anchors": ["modules/exec/commands.cpp: __array_index, __mul_array_index", "modules/mm/mm.cpp: new_array"]}
{"id": "C33", "title": "Array allocation covers all elements", "statement": "The memory allocated for an array is large enough for all its elements.", "quantifier": "all ranks, lengths and element sizes", "why_tests_cant": "unbounded", "anchors": ["modules/mm/mm.cpp: new_array"]}
{"id": "C34", "title": "Array lengths can be queried", "statement": "The reported length of each dimension of an array is the length it was created with and the total length is their product.", "quantifier": "all ranks and lengths", "why_tests_cant": "unbounded", "anchors": ["include/modules/mm.h: get_array_length_of_dimension, get_array_length"]}
{"id": "C35", "title": "Local variables do not overlap", "statement": "Two local variables of a method that can be live at the same time never share a byte of the frame, and all lie inside the frame size reserved for the method.", "quantifier": "all scope structures and variable sizes", "why_tests_cant": "unbounded scope trees", "anchors": ["modules/rt/layout.cpp: locals_layout_t"]}
{"id": "C36", "title": "Arguments do not overlap", "statement": "The stack slots of a method's arguments are disjoint, in order, and exactly fill the argument area.", "quantifier": "all parameter lists", "why_tests_cant": "unbounded", "anchors": ["modules/rt/layout.cpp: params_layout_t"]}
{"id": "C37", "title": "Object heap keeps its elements", "statement": "After any sequence of append, insert, delete and index operations the heap container contains exactly the elements an ordinary list would, in the same order.", "quantifier": "all operation histories", "why_tests_cant": "history dependent, crosses row boundaries", "anchors": ["algorithm/__collections.h: heap_t"]}
{"id": "C38", "title": "Small-block allocator never overlaps live blocks", "statement": "Blocks handed out by the small-object allocator lie inside their slab and are pairwise disjoint, and destruction visits exactly the object blocks.", "quantifier": "all allocation histories", "why_tests_cant": "history dependent", "anchors": ["algorithm/__collections.h: xheap_t", "algorithm/collections.cpp: __row_t"]}
{"id": "C39", "title": "Bit array", "statement": "After any sequence of set operations reading a bit returns the last value written to it (false if none), and searching finds the first set bit.", "quantifier": "all operation histories", "why_tests_cant": "history dependent with buffer growth", "anchors": ["algorithm/__collections.h: bit_array_t", "algorithm/collections.cpp: bit_array_t"]}
{"id": "C40", "title": "Small vector", "statement": "After any sequence of push_back and index operations the small vector behaves as a list, across the inline-to-heap transition.", "quantifier": "all operation histories", "why_tests_cant": "history dependent", "anchors": ["algorithm/__collections.h: svector_t"]}
{"id": "C41", "title": "Tree snapshot round trip", "statement": "Storing any tree and restoring it gives an identical tree.", "quantifier": "all trees", "why_tests_cant": "unbounded", "anchors": ["algorithm/__collections.h: lr_tree_state_t"]}
{"id": "C42", "title": "Maps behave as finite maps", "statement": "The small map and the fixed map return the last value stored under a key and nothing for other keys.", "quantifier": "all operation histories", "why_tests_cant": "history dependent, the representation changes at a size threshold", "anchors": ["algorithm/__collections.h: small_map_t, fixed_map_t"]}
{"id": "C43", "title": "Resource pool", "statement": "A resource obtained from the pool is never handed out again until it has been released.", "quantifier": "all acquire/release histories", "why_tests_cant": "history dependent", "anchors": ["algorithm/__collections.h: respool_t"]}
{"id": "C44", "title": "String interning", "statement": "Two strings get the same interned id exactly when they are equal, and an id always gives back its string.", "quantifier": "all interning histories", "why_tests_cant": "history dependent", "anchors": ["algorithm/__string.h: tspool_t"]}
{"id": "C45", "title": "Substring search", "statement": "Searching a substring returns the first position where it occurs, or not found when it does not occur.", "quantifier": "all strings", "why_tests_cant": "unbounded", "anchors": ["algorithm/__string.h: __strstr"]}
{"id": "C46", "title": "String comparison is a total order", "statement": "The string comparison is reflexive, antisymmetric, transitive and consistent with equality, and agrees with lexicographic order.", "quantifier": "all strings", "why_tests_cant": "unbounded", "anchors": ["algorithm/__string.h: __strcmp, __str_equals"]}
{"id": "C47", "title": "Alignment helpers", "statement": "Rounding a size up gives the least multiple of the unit that is at least the size (rounding down the greatest at most), for every power-of-two unit.", "quantifier": "all sizes and power-of-two units without overflow", "why_tests_cant": "all values", "anchors": ["include/common.h: _align, _alignf, _alignd"]}
{"id": "C48", "title": "Flag sets", "statement": "Adding, removing and testing flags of an enumeration behaves as set insertion, removal and membership of the flags' bits.", "quantifier": "all values and flags", "why_tests_cant": "all values", "anchors": ["include/common.h: bit_or, bit_and, bit_not, bit_has_flag, bit_remove_flag, enum_t"]}
{"id": "C49", "title": "GUID parsing", "statement": "Parsing accepts exactly the 8-4-4-4-12 hexadecimal form, never writes outside the 16-byte value, and gives the bytes denoted by the digits.", "quantifier": "all strings", "why_tests_cant": "all 36-character strings", "anchors": ["include/common.h: guid_t"]}
{"id": "C50", "title": "Typed constant comparison", "statement": "Comparing two typed numeric constants compares their mathematical values.", "quantifier": "all types and values", "why_tests_cant": "all values", "anchors": ["common/common.cpp: __compare_tvalue"]}
{"id": "C51", "title": "Logical operators", "statement": "&&, || and ! on booleans return the truth value of conjunction, disjunction and negation, and == / != compare booleans, at run time and when folded.", "quantifier": "all boolean operands", "why_tests_cant": "compile-time and run-time paths are separate tables", "anchors": ["modules/core/__vtype_traits.h: binary_operator_t", "modules/core/expression_executor.cpp: binary_expression_t::execute"]}
{"id": "C53", "title": "Out-of-range indices are rejected", "statement": "Reading, writing or taking the address of an array element with an index tuple that is not inside the array raises the out-of-range exception and touches no memory.", "quantifier": "all arrays, ranks and index tuples", "why_tests_cant": "infinitely many tuples; the flattened index of a bad tuple may coincide with a valid one", "anchors": ["modules/exec/commands.cpp: __push_array_element_command_t, __pop_array_element_command_t, __pick_array_element_command_t"]}
{"id": "C54", "title": "New objects and arrays start cleared", "statement": "Every byte of a newly created object or one-dimensional array is zero and memory outside it is not touched, for every size.", "quantifier": "all sizes and prior memory contents", "why_tests_cant": "sizes are unbounded and the clearing loop is unrolled with a special case per remainder", "anchors": ["modules/mm/mm.cpp: __zero_memory, new_obj, new_array"]}
{"id": "C52", "title": "Fields do not overlap", "statement": "The fields of a type are disjoint from each other and from the inherited fields, lie inside the size of the type, and each is aligned for its size.", "quantifier": "all field lists (kinds, sizes, order of declaration), all base sizes, all orders the sort may choose for ties", "why_tests_cant": "unbounded field lists; the order is chosen by an unstable sort", "anchors": ["modules/rt/__layout.h: type_layout_t::commit"]}
{"id": "C55", "title": "Filling a tuple", "statement": "After a tuple has been filled from its arguments each field holds exactly its argument, whatever the sizes, and memory outside the object is unchanged.", "quantifier": "all element types and argument bytes", "why_tests_cant": "stores round sizes up, so correctness depends on the layout order for every combination of sizes", "anchors": ["modules/rtlib/array.cpp: tuple_set_range", "modules/rt/__layout.h: set_variable_value, type_layout_t"]}
{"id": "C56", "title": "Copying and clearing memory", "statement": "The quick copy moves exactly the given number of bytes, also when source and destination overlap, and the quick clear zeroes exactly the given bytes; no other byte changes.", "quantifier": "all addresses, sizes and memory contents", "why_tests_cant": "every combination of size class, alignment and overlap distance", "anchors": ["include/algorithm.h: quick_copy, quick_zero", "algorithm/algorithm.cpp: quick_copy, quick_zero"]}
{"id": "C57", "title": "Walking a tree", "statement": "Walking a tree visits every node exactly once, each node before its children and siblings in order, and collecting the leaves gives exactly the nodes without children.", "quantifier": "all trees", "why_tests_cant": "unbounded depth and width", "anchors": ["algorithm/__collections.h: walk_tree, pick_leaves"]}
{"id": "C58", "title": "Creating cache", "statement": "A cache that creates missing values calls its creator exactly once per key, at the first request, and every later request for the key returns that value.", "quantifier": "all request histories and creators", "why_tests_cant": "history dependent", "anchors": ["algorithm/__collections.h: auto_cache_t"]}
{"id": "C59", "title": "Keys of several values", "statement": "The comparison of keys made of several values is a total order consistent with equality: shorter keys first, then the first difference decides.", "quantifier": "all keys of all lengths", "why_tests_cant": "antisymmetry and transitivity quantify over all pairs and triples", "anchors": ["include/algorithm.h: multikey_t"]}
{"id": "C60", "title": "Character classes", "statement": "A character counts as a digit of a radix exactly when it is one of the ASCII digits or letters that denote a digit below the radix.", "quantifier": "all characters and radixes", "why_tests_cant": "the character type has 32 bits", "anchors": ["algorithm/__string.h: digit_value, is_digit, to_upper", "algorithm/__property.h: properties_t::overlimit"]}
{"id": "C61", "title": "Documented literal forms are accepted", "statement": "Every numeric literal form that the parser's documentation lists (decimal, octal, 0x and H hexadecimal, binary, exponents) is accepted and read with the documented value.", "quantifier": "all literals of a documented form, of any length, in any surrounding text", "why_tests_cant": "The forms combine freely with digits and suffixes, so a test sees only some combinations; a form whose letters are also digits (F, E, B) fails for some digits only.", "anchors": ["algorithm/numeric.cpp: __numeric_parser_t::__read_prefix, __continue_read"]}
{"id": "C62", "title": "Only well-formed text is accepted as an integer", "statement": "A text accepted as an integer literal is an optional sign, a radix prefix, at least one digit of that radix with separators between digits, and a suffix; its value is that of those digits.", "quantifier": "all texts", "why_tests_cant": "The claim is about every text the parser accepts, including those nobody thought of writing in a test.", "anchors": ["algorithm/numeric.cpp: __numeric_parser_t::parse"]}
{"id": "C63", "title": "Tokens and whitespace partition the source", "statement": "For every text that tokenises, the tokens appear in source order, do not overlap, and everything between them is whitespace, so no character of the source is lost or read twice (a right shift counts as two tokens over the same characters).", "quantifier": "all source texts", "why_tests_cant": "unbounded texts", "anchors": ["modules/compile/token_reader.cpp", "modules/lang_cs/cs_token_reader.cpp: next"]}
{"id": "C64", "title": "Tokeniser round trip", "statement": "A text written as words, symbols, integer literals, string literals, character literals and line comments separated by whitespace is read back as exactly the tokens of those lexemes with their positions, kinds and values.", "quantifier": "all sequences of lexemes and separating whitespace", "why_tests_cant": "unbounded texts", "anchors": ["modules/lang_cs/cs_token_reader.cpp: next", "modules/compile/token_reader.cpp"]}
{"id": "C65", "title": "Longest match", "statement": "Where several operators could be read the longest one is, and a word is a keyword only if the whole of it is that keyword.", "quantifier": "all texts and positions", "why_tests_cant": "unbounded texts and contexts", "anchors": ["modules/lang_cs/cs_token_reader.cpp: next, __equals, keywords"]}
{"id": "C66", "title": "Object locks", "statement": "Whatever the order in which threads run, two threads are never inside the lock of the same object; entering and leaving never fail and never touch a mutex that was destroyed, and a thread waits only while another one is inside the object it wants.", "quantifier": "all numbers of threads and objects, all interleavings, programs that enter and leave in pairs", "why_tests_cant": "the schedules are unbounded and the clean-up of unused mutexes runs only after ten exits", "anchors": ["algorithm/__thread.h: object_lock_manager_t::enter, exit, __get_mutex_wrap, __clean_up", "algorithm/__collections.h: respool_t"]}
{"id": "C67", "title": "The table of object locks stays small", "statement": "However many objects have been locked, the lock manager keeps no more entries than there are objects locked or waited for, plus ten, and a bounded number of unused mutexes.", "quantifier": "all histories of enter and exit of all threads", "why_tests_cant": "a leak shows only in unbounded histories", "anchors": ["algorithm/__thread.h: object_lock_manager_t::__clean_up, __get_mutex_wrap", "algorithm/__collections.h: respool_t::release"]}
{"id": "C68", "title": "Semaphore capacity", "statement": "A semaphore made with k signals never has more than k of them acquired and not released, and release fails exactly when none is.", "quantifier": "all interleavings of acquire, timed acquire, try_acquire and release in any number of threads, including spurious wakeups", "why_tests_cant": "schedules are unbounded and spurious wakeups are not under a test's control", "anchors": ["algorithm/__thread.h: semaphore_t::acquire", "algorithm/thread.cpp: semaphore_t::release, try_acquire"]}
{"id": "C69", "title": "Semaphore progress", "statement": "A thread that waits in acquire returns once a signal is released; no released signal is lost and threads in acquire and release do not block each other for ever.", "quantifier": "all interleavings", "why_tests_cant": "the failing schedules need a switch between two particular instructions", "anchors": ["algorithm/__thread.h: semaphore_t::acquire", "algorithm/thread.cpp: semaphore_t::release"]}
{"id": "C70", "title": "Compiled expressions compute their value", "statement": "Running the code generated for an integer or bool expression pushes exactly one value, the one the language gives the expression in its static type, and leaves the variables as the expression's assignments leave them, at every optimisation level.", "quantifier": "all expressions, variable types, variable values, stacks and optimisation levels", "why_tests_cant": "expressions are unboundedly deep and the failing type combinations are few", "anchors": ["modules/compile/expression.cpp: binary_expression_t::compile, unitary_expression_t::compile, __compile_assign, __compile_inc, __compile_local_variable", "modules/compile/xilx.cpp"]}
{"id": "C71", "title": "Compiled arithmetic is exact", "statement": "If an expression has a value over the mathematical integers with every intermediate result in the range of its type, running its code gives that integer.", "quantifier": "all expressions, variable values and optimisation levels", "why_tests_cant": "unbounded expressions and 64-bit values", "anchors": ["modules/compile/expression.cpp", "modules/exec/commands.cpp: __binary_command_t"]}
{"id": "C72", "title": "Short circuit", "statement": "In a && b and a || b the right operand is evaluated only if the left one does not decide the result: its assignments do not happen and its errors do not occur.", "quantifier": "all expressions and variable values", "why_tests_cant": "the claim concerns what is not executed, for every right operand", "anchors": ["modules/compile/expression.cpp: __compile_logic_and, __compile_logic_or"]}
{"id": "C73", "title": "Optimisation levels agree", "statement": "The code generated for an expression at two optimisation levels computes the same value and leaves the variables the same.", "quantifier": "all expressions, variable types and values, all pairs of levels", "why_tests_cant": "only all expressions together exercise each rewriting next to each operand type", "anchors": ["modules/compile/expression.cpp: __compile_add, __compile_sub, __compile_mul, __compile_div", "april/compiler.cpp"]}
{"id": "C74", "title": "Expression statements leave the stack as they found it", "statement": "An expression used as a statement performs all of its assignments and leaves the execution stack unchanged.", "quantifier": "all expressions, stacks and optimisation levels", "why_tests_cant": "a unit left behind shows only in a later frame or after many iterations", "anchors": ["modules/compile/expression.cpp: __post_compile_expression", "modules/compile/statements.cpp: expression_statement_t"]}
{"id": "C75", "title": "Initialisers and return values are converted", "statement": "T x = e stores the value of e converted to T, and return e gives the caller the value of e converted to the method's return type.", "quantifier": "all expressions, pairs of types, values and optimisation levels", "why_tests_cant": "the bytes that go wrong happen to be zero in most runs", "anchors": ["modules/compile/xilx.cpp: local_assign_xilx_t::write, return_xilx_t::write", "include/modules/exec.h"]}
{"id": "C76", "title": "Constant expressions", "statement": "An operator applied to constants is computed by the compiler and has the value it would have at run time; a constant expression that has a value is accepted.", "quantifier": "all constant expressions", "why_tests_cant": "unbounded expressions over all typed values", "anchors": ["modules/core/expression_executor.cpp", "modules/compile/expression.cpp: __try_compile_constant_expression"]}
{"id": "C77", "title": "Virtual calls run the most derived override", "statement": "A call of a virtual method on an object runs the most derived override, in the classes of the object, of the chain of overrides to which the named method belongs; a call on null raises.", "quantifier": "all class hierarchies the compiler accepts, all methods and objects", "why_tests_cant": "the slots of a method depend on the whole hierarchy and on the order of declarations in every class", "anchors": ["modules/rt/rt.cpp: __build_vfunctions, get_virtual_method_offset, on_caculate_virtual_count, search_method", "modules/exec/commands.cpp: __virtual_call_command_t"]}
{"id": "C78", "title": "Interface calls run the implementing method", "statement": "A call of an interface method on an object runs the method by which the object's class implements it, and the most derived override of that method if it is virtual, whatever calls and casts were made before.", "quantifier": "all hierarchies of classes and interfaces, all histories of look-ups", "why_tests_cant": "hierarchies and histories are unbounded", "anchors": ["modules/rt/rt.cpp: __build_interface, __build_interface_override, __build_interfaces", "include/modules/rt.h: __search_vtable_interface", "modules/exec/commands.cpp: __interface_call_command_t"]}
{"id": "C79", "title": "is, as and casts follow the declared types", "statement": "obj is T holds exactly if T is the object's class, one of its base classes or an interface one of them lists directly or through other interfaces; as gives the object or null, and a cast the object or an invalid-cast error, accordingly.", "quantifier": "all hierarchies, objects, target types and histories of look-ups", "why_tests_cant": "hierarchies and histories are unbounded; an out-of-bounds read often happens to give the right answer", "anchors": ["modules/exec/commands.cpp: __cast_test, __cast_command_t", "include/modules/rt.h: is_base_type, __search_vtable_interface"]}
{"id": "C80", "title": "The resource heap of an assembly gives back what was stored", "statement": "Every string, method body block and raw entry appended while an assembly is written is read back unchanged at the position the append returned, however much is appended before or after it.", "quantifier": "all histories of appends, all strings and byte sequences", "why_tests_cant": "positions depend on the whole history; the failing lengths and characters are rare", "anchors": ["modules/core/assembly_layout.cpp: mt_heap_t::append_string, append_block, append_bytes, read_block", "modules/core/__assembly_layout.h: mt_heap_t::read, res_reader_t::read_sid", "include/algorithm.h: to_varint, from_varint"]}
{"id": "C81", "title": "Constants survive writing and reading an assembly", "statement": "Every constant (number, string, null, type) committed to an assembly is read back with the same type and value, whatever other constants are committed.", "quantifier": "all values of all constant types and all histories of commits", "why_tests_cant": "the value space has 2^64 elements per type and sharing depends on the history", "anchors": ["modules/core/assembly_writer.cpp: __commit_constant, __assign_uint64", "modules/core/__assembly_layout.h: read_const, __read_uint64", "modules/core/core.cpp: cvalue_t::operator <"]}
{"id": "C82", "title": "An assembly file is read back as written, and damaged files are refused", "statement": "Reading a written assembly file gives back every row of every table and the heap; a file cut at any point, with another flag or another layout is refused; a brief read needs the assembly table only.", "quantifier": "all table contents, heaps and cut positions", "why_tests_cant": "the tables are unbounded and every byte position is a possible cut", "anchors": ["modules/core/__assembly_layout.h: metadata_reader_t, __entity_operation_t", "modules/core/assembly_layout.cpp: __mt_fields_manager", "modules/core/assembly_writer.cpp: __fill_metadatas, __write", "modules/core/assembly_reader.cpp: assembly_read_guide, assembly_read"]}
{"id": "C83", "title": "Implicit conversions", "statement": "An expression is accepted where another type is wanted exactly if the types are equal, the conversion widens a number, or the wanted type is reached from the expression's type through declared base types and interfaces; an accepted conversion keeps the value.", "quantifier": "all hierarchies (also cyclic ones), all pairs of types, all values, all histories of questions", "why_tests_cant": "hierarchies are unbounded and answers are cached across questions", "anchors": ["modules/core/core.cpp: is_vtype_compatible, is_type_compatible, is_super_type, type_t::has_super_type, __collect_super_types"]}
{"id": "C84", "title": "A call runs the method its arguments select", "statement": "A call runs the declared method that fits the arguments exactly; failing that the only one they can be converted to; several are reported as ambiguous and none as an error. Written type arguments are put in place first, inferred ones make the arguments fit. The nearest class in the chain of base classes that has an answer decides.", "quantifier": "all sets of overloads, argument lists, type arguments, class hierarchies", "why_tests_cant": "the choice depends on the whole set of declarations and their order", "anchors": ["modules/core/core.cpp: __method_analyzer_t, __analyze_method, get_method, __get_member_for_non_interface"]}
{"id": "C85", "title": "Two methods of one signature are reported", "statement": "A class with two methods of the same name and parameter types is refused, and in an accepted class a call that fits a declaration exactly is never ambiguous.", "quantifier": "all classes and all calls", "why_tests_cant": "every pair of declarations of every class is a case", "anchors": ["modules/core/core.cpp: check_duplicate, __is_params_equals, __search_member"]}
{"id": "C86", "title": "Malformed literals are marked", "statement": "A string literal is read as one token that is marked as wrong exactly if it is not closed or has an unknown escape; a closed character literal exactly if it is not one character or one known escape; an unclosed verbatim string is marked.", "quantifier": "all source texts following the opening quote", "why_tests_cant": "unbounded texts; the mark is only seen by later stages", "anchors": ["modules/compile/token_reader.cpp: __read_string, __read_multiline_string, __read_char"]}
{"id": "C87", "title": "Protection of members and types", "statement": "A member or type is used only where its access (public, protected, private, internal, protected internal, private protected), that of the types around it and the assembly allow it, and every use they allow is accepted.", "quantifier": "all hierarchies, nestings, accesses and places of use", "why_tests_cant": "hierarchies and nestings are unbounded and every pair of declaration and use is a case", "anchors": ["modules/core/core.cpp: check_access, __check_type_access, __check_member_access, to_general", "modules/core/core.cpp: member_t::get_access_value"]}
{"id": "C88", "title": "What a name stands for", "statement": "A name in a method stands for the variable the innermost scope around it declares: locals of the blocks around it, locals and parameters of the method, members of the type and of the types around it; else for a type; else it is reported as undefined. A name declared twice in one scope is reported, except for methods of one type.", "quantifier": "all methods, nestings of blocks and of types", "why_tests_cant": "scopes nest without bound and the failing programs need particular nestings", "anchors": ["modules/core/core.cpp: variable_region_t::get, __define, __check_duplicate", "modules/compile/ast_utils.cpp: __walk_name, variable_defination_t", "modules/compile/ast.cpp: method_ast_node_t, defination_st_ast_node_t, catch_ast_node_t, for_st_ast_node_t"]}
{"id": "C89", "title": "Locals in scope have places of their own", "statement": "The table of locals written for a method lists every local once, in the order of the text, and two locals of which one is in scope where the other is declared never share an index; locals of separate blocks share them.", "quantifier": "all methods", "why_tests_cant": "the clash needs a particular nesting or number of locals", "anchors": ["modules/core/core.cpp: variable_region_t::define_local, __current_local_index, local_variables_t::write"]}
{"id": "C90", "title": "Temporaries do not overwrite locals", "statement": "The temporaries an expression needs for struct values have indices of their own: different from each other and from every local declared before the expression in the blocks around it.", "quantifier": "all methods and all expressions in them", "why_tests_cant": "the clash needs a particular nesting of blocks before the expression", "anchors": ["modules/core/core.cpp: define_temp_local, statement_region_t, write_to", "modules/compile/statements.cpp: statement_group_t::compile"]}
{"id": "C91", "title": "Reported rules are a derivation", "statement": "When the analysis of a program succeeds, the program, with one reading taken of every token that has several and with invisible tokens passed over, is a sentence of the grammar, and the rules reported, in their order and with the elements they are reported for, are those of one derivation of it; the reading stored in every ambiguous token is the one used there.", "quantifier": "all grammars, all programs of any length, all weights", "why_tests_cant": "the number of stacks the analysis keeps and merges grows with the program and the grammar", "anchors": ["modules/compile/analyze_tree.cpp: analyze_tree_t analysis, __stack_push, __check_end_node, __stack_pop, __execute_actions, __merge_leaves", "modules/compile/__analyze_tree.h: stack nodes, actions"]}
{"id": "C92", "title": "A syntax error is reported at the first wrong token", "statement": "As long as no error has been reported, what has been read is the beginning of some sentence of the grammar; an element after which no sentence is possible is reported when it is read.", "quantifier": "all grammars without dead ends, all programs and positions in them", "why_tests_cant": "the claim is about all continuations of what has been read", "anchors": ["modules/compile/analyze_tree.cpp: go, __stack_push, __do_stack_grow"]}
{"id": "C93", "title": "Every sentence is accepted", "statement": "A program that is a sentence of the grammar is accepted, and the rules reported are those of its derivation.", "quantifier": "all grammars, all sentences of any length and nesting", "why_tests_cant": "which stacks are passed over as already recorded depends on grammar and program together", "anchors": ["modules/compile/analyze_tree.cpp: check_stack_unit, record_stack_unit, append_stack, enter, stacks_of"]}
{"id": "C94", "title": "The analysis ends", "statement": "The analysis of any program against any grammar ends with a result or a reported error; it neither recurses without end nor follows a null pointer.", "quantifier": "all grammars, all programs", "why_tests_cant": "recursion follows references between rules, in every way rules can refer to each other", "anchors": ["modules/compile/analyze_tree.cpp: __append_subnodes, __check_end_node, __do_stack_pop"]}
{"id": "C95", "title": "The net of a grammar has the sentences of the grammar", "statement": "Whatever way a grammar is written, with groups, alternatives and repetitions, a program is a sentence of the net made from it exactly when the grammar says it.", "quantifier": "all grammars that are read, all words of elementary symbols", "why_tests_cant": "groups are dissolved, nodes shared and merged; every nesting of repetitions and alternatives meets these steps in another way", "anchors": ["modules/compile/analyze_tree.cpp: analyze_tree_builder_t::build, __revise_repeat, analyze_tree_exchange_t, __merge_nodes"]}
{"id": "C96", "title": "Rules stay apart", "statement": "In the net made from a grammar every link leads from a node of a rule to a node of the same rule, and every end belongs to the rule of its node.", "quantifier": "all grammars that are read", "why_tests_cant": "nodes are moved, copied into link lists and merged across the nesting of groups", "anchors": ["modules/compile/analyze_tree.cpp: analyze_tree_exchange_t"]}
{"id": "C97", "title": "The analysis with the net of a grammar ends", "statement": "With the net made from any grammar that is read, the analysis of every program ends with a result or a reported error.", "quantifier": "all grammars that are read, also left recursive ones and ones with named groups, all programs", "why_tests_cant": "which references are expanded at once and which only where needed is decided from the numbers of the rules; a wrong decision shows only for some mutual recursions", "anchors": ["modules/compile/analyze_tree.cpp: __process_left_cycle, __left_cycle_t, analyze_tree_builder_t::build, __append_subnodes"]}
{"id": "C98", "title": "Unknown names in a grammar are reported", "statement": "Reading a grammar reports an error exactly when some rule, however deep in its groups, refers to a name that nothing defines or to the root.", "quantifier": "all grammars", "why_tests_cant": "the reference may stand in any nesting of groups", "anchors": ["modules/compile/analyze_tree.cpp: analyze_tree_builder_t::build, __read_branch"]}
{"id": "C99", "title": "The metadata of an assembly reads back", "statement": "The types, members, parameters, generic parameters and entry point written to an assembly file are those an assembly is read with: the same names and flags, members in the same types and the same order, the same nesting, super types and types of members, whatever is referred to in this and in other assemblies.", "quantifier": "all assemblies, any number and nesting of types, instances of generic types and arrays", "why_tests_cant": "rows are made in the order things are first met and referred to by number; a wrong number shows only for some order of references", "anchors": ["modules/core/assembly_writer.cpp: __assembly_writer_t, __assign_mt, __commit_type", "modules/core/assembly_reader.cpp: __assembly_reader_t, __build_entities, __get_type", "modules/core/__assembly_layout.h: __mt_manager_t acquire, append, search_ref", "modules/core/__xil.h: ref_t"]}
{"id": "C100", "title": "What a type name means", "statement": "A type name in a program means what the rules of scopes say: a generic parameter of the method or of a type around it; else a type nested in the closest type around that has one with the first part of the name; else its meaning in the closest namespace around; else from the outermost namespace here or in an imported assembly; else after a using. A name after global:: means a type from the outermost namespace. A name without a meaning is reported.", "quantifier": "all programs: any declarations, nesting of types and namespaces, imports, usings and aliases, all names with any generic arguments", "why_tests_cant": "each name is looked for in many places in an order, with several ways to split it into namespace, types and nested types", "anchors": ["modules/compile/ast_utils.cpp: __type_resolver_t, __multi_units_t", "modules/core/assembly.cpp: types_t get_general_type"]}
{"id": "C101", "title": "Own names come first", "statement": "A type name that is known in a program alone keeps its meaning when assemblies, imports and usings are added.  Among imports and usings the order does not matter, or an ambiguous name is reported; the keywords of basic types always mean the types of the core assembly.", "quantifier": "all programs and all additions to them", "why_tests_cant": "an addition may hide a name only for some combination of namespaces and aliases", "anchors": ["modules/compile/ast_utils.cpp: __ascertain_general_type, __search_global_type", "modules/lang_cs/ast_builder.cpp: general_type_name __set_name"]}
{"id": "C102", "title": "Types in generic code are those with the arguments in", "statement": "Code that runs in an instance of a generic type or method, nested in other instances, works with the types its text names, each generic parameter replaced by the argument of the instance; a parameter that takes many types stands for all of them in a list of arguments.", "quantifier": "all programs, all instances of any nesting, all types that can be named in them", "why_tests_cant": "arguments are kept by the names of the parameters and positions shift with packs; which clash depends on the nesting and the names chosen", "anchors": ["modules/rt/layout.cpp: generic_param_manager_t, generic_param_manager_builder_t", "modules/rt/rt.cpp: assembly_analyzer_t::get_type"]}
{"id": "C103", "title": "Fields of instances have their types", "statement": "Reading a field of an instance of a generic type finds the field with the type it has in that instance, however often and in whichever other instances the same code has run before.", "quantifier": "all programs, all fields, all sequences of reads in any instances", "why_tests_cant": "what is found is kept for later reads, so an answer may depend on the history of the run", "anchors": ["modules/rt/rt.cpp: assembly_analyzer_t::get_field, __get_field", "modules/exec/commands.cpp: __field_type"]}
{"id": "C104", "title": "Interface methods of generic classes are bound to the right method", "statement": "In an instance of a generic class a method of an interface, generic or not, is bound to the method of the class that has the same name and the same types, and to no other.", "quantifier": "all classes and interfaces, all arguments, all lists of methods", "why_tests_cant": "the types of both sides depend on the arguments of two instances that meet in one comparison", "anchors": ["modules/rt/rt.cpp: __build_interface, __build_interfaces, rt_method_t::compare_to, assembly_analyzer_t::get_prototype"]}
{"id": "C105", "title": "Overrides in generic classes take the right place", "statement": "An override in a class, generic or not, takes the place of the virtual method of the base class with the same name and the same types, and is reported exactly if there is none.", "quantifier": "all classes and base classes, generic or not, all methods", "why_tests_cant": "which types are the same depends on the arguments of the base class", "anchors": ["modules/rt/rt.cpp: __build_vfunctions, __compare_method"]}
{"id": "C106", "title": "The type of a member is found", "statement": "In an assembly that was compiled and loaded, the virtual machine finds for every method, every field and every nested type the type that declares it, and for a type that is not nested finds none.", "quantifier": "all assemblies, all types, methods, fields and nested types, any number of types without members between them", "why_tests_cant": "the binary search depends on the order in which the writer gave out the rows of all types, also the empty ones", "anchors": ["modules/rt/assembly_loader.cpp: search_host, binary_find, get_host_by_method_ref, get_host_by_field_ref, get_host_by_nest_type_ref", "modules/core/__assembly_layout.h: acquire"]}
{"id": "C107", "title": "A type is found by its name", "statement": "A reference from another assembly to a type by namespace, name and number of generic params finds that type, and a name that no type has finds nothing.", "quantifier": "all assemblies, all types and names", "why_tests_cant": "the answer depends on all other types of the assembly and on an unspecified order of equal keys", "anchors": ["modules/rt/assembly_loader.cpp: get_type, __init_search_datas", "algorithm/__collections.h: fixed_map_t"]}
{"id": "C108", "title": "Absolute paths lead to the same place", "statement": "Making a path absolute removes its . and .. sections and gives the path to the same file or directory, for the paths of projects, references and sources.", "quantifier": "all paths: any number and order of sections", "why_tests_cant": "every order of names, . and .. sections of any length must be resolved", "anchors": ["lib/file.cpp: make_absolute, __make_absolute, __jmp_relative, __pre_with", "modules/april/parser.cpp: lib::absolute"]}
{"id": "C109", "title": "Constants have the value that their definition says", "statement": "In a program that compiles, each field of an enum has the value of its initialiser, or one more than the field before it, or 0 if it is the first; each const field has the value of its initialiser, or the default of its type. The order of the types does not matter.", "quantifier": "all programs: any number of types and constants, any expressions over other constants, any order", "why_tests_cant": "the order in which the compiler comes to the constants depends on the whole program", "anchors": ["modules/compile/ast.cpp: __fields_init_stub_t, __enum_fields_init_stub_t, __general_fields_init_stub_t, __walk_analysis_init_fields", "modules/core/core.cpp: field_variable_t::execute, ast_walk_context_t::__walk"]}
{"id": "C110", "title": "Working out the constants ends", "statement": "The compiler works out the constants of every program in finitely many rounds; in the end each constant has a number.", "quantifier": "all programs", "why_tests_cant": "a program for which a round makes no progress makes the compiler hang, there are infinitely many", "anchors": ["modules/compile/ast.cpp: continue_, __is_all_fields_initialized, __walk_analysis", "modules/core/core.cpp: ast_walk_context_t::__walk"]}
{"id": "C111", "title": "Circular constants are reported", "statement": "A constant that is defined by itself, directly or over other constants and the order of enum fields, is reported; a circle is only reported if there is one.", "quantifier": "all programs: circles of any length over any types", "why_tests_cant": "circles of every length and shape must be found", "anchors": ["modules/compile/ast.cpp: __is_circular_defination, __do_is_circular_defination, __get_enum_previous_field"]}
{"id": "C112", "title": "Constraints of generic parameters are checked", "statement": "The constraints of a generic type or method are accepted exactly if each parameter is constrained once and by the rules for types and flags, and no parameter is constrained by itself over others.", "quantifier": "all lists of constraints: any number of parameters, any types, chains of parameters of any length", "why_tests_cant": "circles of every length and all orders of the constraints must be judged", "anchors": ["modules/compile/ast.cpp: __check_generic_template_constraints_t, __append_dependency, __check_circle_dependency"]}
{"id": "C113", "title": "Circles of base types are reported", "statement": "A type that is its own base type over any chain of super types and interfaces is reported, with a super type that leads back to it; no other type is reported, and the check always ends, also if other types have circles.", "quantifier": "all programs: any graph of types and super types, instances of generic types among them", "why_tests_cant": "the graph can have circles that do not contain the type that is checked; a walk must end and still miss nothing", "anchors": ["modules/compile/ast.cpp: __check_circle_base_types", "modules/core/core.cpp: each_super_type, to_general"]}
{"id": "C114", "title": "Each project is compiled once, after those it imports", "statement": "Compiling a solution ends whatever its projects import, compiles each project exactly once, and compiles a project only after all projects it imports, except for imports on a circle.", "quantifier": "all solutions: any number of projects, any order, any graph of imports", "why_tests_cant": "the order of compiling follows from the whole graph of imports and the order of the projects", "anchors": ["modules/compile/compile.cpp: compiler_t::compile, __compile_project, __assembly_loader_t::load_assembly, __building_context_t", "modules/compile/ast.cpp: import_ast_node_t::on_walk"]}
{"id": "C115", "title": "Circular imports are reported", "statement": "On every circle of imports at least one import is reported, and an import that is reported as circular, as an import of itself or as not found is one.", "quantifier": "all solutions, circles of any length", "why_tests_cant": "circles of every length, entered at any project, must be found, and a project that is reached twice without a circle must not be reported", "anchors": ["modules/compile/compile.cpp: begin_compile, end_compile, __compile_project, __load_assembly", "modules/compile/ast.cpp: import_ast_node_t::on_walk", "algorithm/__std.h: map_get"]}
{"id": "C116", "title": "Assemblies are written when they are complete", "statement": "A build reports success exactly if nothing is wrong with any project, and then has written all assemblies. An assembly that is written has everything it imports written before it and without errors.", "quantifier": "all solutions, also those with errors", "why_tests_cant": "whether an assembly is written depends on the errors of all projects compiled before it", "anchors": ["modules/compile/compile.cpp: compiler_t::compile, __compile_project", "include/modules/compile.h: compile_context_t::error_count"]}
{"id": "C117", "title": "Accepted generic arguments meet the constraints", "statement": "When the compiler accepts the arguments of a generic type or method, also arguments made of the generic parameters of the code around, then in every instance of that code the arguments meet the constraints of the template: they derive from the constraint types, are reference or value types and have public constructors as asked.", "quantifier": "all programs, templates, arguments and places in generic code, and all instances of the code around", "why_tests_cant": "the constraints must hold for the infinitely many types the parameters may later stand for", "anchors": ["modules/compile/ast.cpp: __check_generic_constraints_t, __generic_param_types_t, general_type_name_ast_node_t::__walk_analysis", "modules/core/core.cpp: is_type_compatible, is_super_type, transform_type"]}
{"id": "C118", "title": "Unmet constraints are reported, each once", "statement": "For each constraint that the arguments do not meet one error is reported, it is true of the argument, and nothing is reported for arguments that meet all constraints.", "quantifier": "all programs, templates, arguments and places", "why_tests_cant": "whether a constraint is met depends on the whole hierarchy of super types, with generic ones among them", "anchors": ["modules/compile/ast.cpp: __check_generic_constraints_t::check, __check, __search_constraint"]}
{"id": "C119", "title": "A method body is executed as it was compiled", "statement": "What the executor reads from the bytes of a compiled method is what the compiler put there: the local variables in the order of their identities, the switch tables with all rows and their number, the protected blocks and the instructions, byte for byte; a method without instructions has no body.", "quantifier": "all method bodies: any variables, switch tables, blocks and instructions with numbers of the sizes they are kept with", "why_tests_cant": "the counts and sizes are unbounded, and parts that are absent must not be confused with those that follow", "anchors": ["modules/core/core.cpp: local_variables_t::write, switch_table_t::write, switch_manager_t::write, xilx_block_manager_t::write, xil_buffer_t", "modules/core/xil.cpp: xil_buffer_writer_t::write", "modules/exec/parser.h: method_parser_base_t", "modules/exec/parser.cpp: __parse_normal_info"]}
{"id": "C120", "title": "Reading a method body stays within its bytes", "statement": "Whatever bytes an assembly file has for the body of a method, cut off or damaged ones as well, reading them ends with a body or with an exception, and reads nothing behind their end.", "quantifier": "all byte sequences", "why_tests_cant": "damaged files are arbitrary bytes; tests try only some", "anchors": ["modules/exec/parser.h: __read, __read_stub"]}
{"id": "C121", "title": "Members are accepted only with modifiers that go together", "statement": "A member of a class or an interface is compiled exactly if its modifiers may be used together and where it stands: none in an interface, static ones not virtual, abstract ones only in abstract classes, sealed only with override, a body where one is needed and none where it is not.", "quantifier": "all types, chains of base types, members, kinds and combinations of modifiers", "why_tests_cant": "the combinations of ten modifiers, kinds and places are too many, and what is inherited is unbounded", "anchors": ["modules/compile/ast.cpp: __utils_t::check_member, __check_modifier, __check_interface_member", "modules/core/core.h: decorate_t"]}
{"id": "C122", "title": "An overriding member replaces a member that can be overridden", "statement": "A member compiled with override stands for the member of the same name and parameters that is met first in the base types, and that member is of the same kind, virtual, abstract or itself overriding, not sealed, of the same type and of the same access.", "quantifier": "all types, chains of base types of any length, and members", "why_tests_cant": "chains of base types and overloads are unbounded", "anchors": ["modules/compile/ast.cpp: __check_modifier", "modules/core/core.cpp: type_t::find_base_member, search_member, overridable"]}
{"id": "C123", "title": "Members of one type can be told apart", "statement": "Of two members of one type that cannot be told apart by name, parameter types and generic parameters one at least is refused, and no member is refused as a duplicate without another one.", "quantifier": "all types, any number of members of all kinds in any order", "why_tests_cant": "every pair of members of every type counts", "anchors": ["modules/compile/ast.cpp: __utils_t::__check_duplicate", "modules/core/core.cpp: variable_region_t::__check_duplicate, search_member"]}
{"id": "C124", "title": "Hiding an inherited member is warned about", "statement": "A warning is given exactly if an accepted member hides a visible member inherited from a base type without saying new or override, or says new without hiding anything.", "quantifier": "all types, chains of base types of any length, and members", "why_tests_cant": "the hidden member may be any number of types above", "anchors": ["modules/compile/ast.cpp: __check_modifier", "modules/core/core.cpp: type_t::find_base_member"]}
{"id": "C125", "title": "Operators applied to objects call the operator the program declares", "statement": "An operator applied to an object calls the operator that the type of one of its operands declares for these operands; applied to values of built-in types or to null in a comparison it is the built-in one; a missing operator is reported.", "quantifier": "all operators, all operand types, all class hierarchies and operators declared in them", "why_tests_cant": "types, hierarchies and declarations are unbounded", "anchors": ["modules/compile/ast_utils.cpp: __walk_op_expression, find_method", "modules/compile/expression.cpp: __compile_operator_overload, __check_overload_prototype", "modules/core/core.cpp: __system_operator_property_t"]}
{"id": "C126", "title": "An accepted operator declaration can be called", "statement": "The declaration of an operator is accepted exactly if it is public and static, has as many parameters as the operator has operands, one of them of the declaring type, and returns a value; an accepted operator can be called with exactly the operands that convert to its parameters.", "quantifier": "all operators, methods, declaring types and operands", "why_tests_cant": "declarations and hierarchies are unbounded", "anchors": ["modules/compile/ast.cpp: method_ast_node_t::on_walk (operator overload prototype)", "modules/lang_cs/ast_builder.cpp: __OnCompleted(method)", "modules/compile/expression.cpp: __check_overload_prototype"]}
{"id": "C127", "title": "Values are put only where their type fits", "statement": "A value is accepted as the initial value of a variable, as what is assigned to it, or as what a method returns exactly if its type converts implicitly to that of the variable or the method; a method that returns nothing has no returned value.", "quantifier": "all types and class hierarchies", "why_tests_cant": "hierarchies and pairs of types are unbounded", "anchors": ["modules/compile/ast.cpp: defination_st_ast_node_t::__walk_analysis, return_st_ast_node_t::__walk_post_analysis", "modules/compile/ast_utils.cpp: __walk_op_expression"]}
{"id": "C128", "title": "A pattern selects the files whose names are like it", "statement": "In a pattern of file names * stands for any text, ? for any single character and every other character for itself; a pattern selects exactly the names that are like it.", "quantifier": "all patterns and all file names", "why_tests_cant": "patterns and names are unbounded texts over all characters", "anchors": ["include/lib.h: __wildcard_to_regex, each", "algorithm/__string.h: regex_is_match"]}
{"id": "C129", "title": "An argument of the compiler stands for the files it names", "statement": "An argument whose last part is a pattern stands for exactly the files of its directory with such names; the name of a directory stands for its visible files; the name of a file for that file; anything else is reported as missing.", "quantifier": "all file systems and all arguments", "why_tests_cant": "file systems and arguments are unbounded", "anchors": ["modules/april/util.h: each_files, is_hidden_file", "lib/file.cpp: split_path_filter, all_files", "include/lib.h: __each"]}
{"id": "C130", "title": "A call of an internal function runs that function and leaves the rest of the stack alone", "statement": "A call of a function that the system library declares as internal runs the function of the runtime of that name with the arguments in order, and replaces exactly these arguments on the stack by the result.", "quantifier": "all internal functions, all arguments and all contents of the stack", "why_tests_cant": "arguments and stacks are unbounded", "anchors": ["modules/exec/commands.cpp: __internal_call_command_t, __new_internal_call_command", "modules/rtlib/rtlib.cpp: rtlib_manager_t", "include/modules/rtlib.h: rtlib_context_t, rt_arg_t", "core_lib/System/Internal.cs"]}
{"id": "C131", "title": "The console writes the text of a value", "statement": "Console.Write writes the text of its argument: the decimal digits of a number, the characters of a string, True or False; Console.WriteLine writes the same and one end of line.", "quantifier": "all values of all types that can be written", "why_tests_cant": "values are unbounded", "anchors": ["modules/rtlib/system.cpp: console_write_string, __console_write, __console_write_line", "core_lib/System/Console.cs"]}
{"id": "C132", "title": "Max, Min, Abs and Sign of integers", "statement": "Math.Max and Math.Min return the greater and the smaller of two integers, Math.Abs the absolute value, Math.Sign the sign.", "quantifier": "all integer types and all their values", "why_tests_cant": "too many values to try", "anchors": ["core_lib/System/Math.cs"]}
{"id": "C133", "title": "A string constant is shown as it would be written", "statement": "The text shown for a string constant is a string literal: read as source text it gives the same string, whatever the string is; different strings are shown differently.", "quantifier": "all strings and all texts around the literal", "why_tests_cant": "strings are unbounded and over all characters", "anchors": ["algorithm/string.cpp: escape_string, __escape_char", "modules/core/core.cpp: cvalue_t to_string", "modules/lang_cs/cs_token_reader.cpp: next, case quote"]}
{"id": "C134", "title": "Names are the same at run time exactly if they are the same text", "statement": "However often and in whatever order names are looked up while assemblies are loaded, two of them get the same identity exactly if they are the same text, and every identity keeps its text.", "quantifier": "all sequences of look-ups of all texts", "why_tests_cant": "the pool has unboundedly many histories", "anchors": ["modules/rt/rt.cpp: rt_spool_t::to_sid", "include/modules/rt.h: rt_spool_t, rt_sid_t", "modules/core/__assembly_layout.h: res_reader_t::read_sid"]}
{"id": "C135", "title": "Strings of the runtime are compared by their texts", "statement": "Two strings are equal exactly if their texts are, and one is less than another exactly if its text comes first in the order of the dictionary; comparison and all operators agree with that.", "quantifier": "all pairs of strings anywhere in memory", "why_tests_cant": "strings are unbounded and may share memory", "anchors": ["modules/rt/rt.cpp: rt_string_t::compare, equals, __compare", "include/modules/rt.h: rt_string_t"]}
{"id": "C136", "title": "A program starts with the one method that is marked as its entry point", "statement": "A program that compiles without complaint and has a method marked as entry point starts with that method; there is only one, and it is public, static, not generic, without parameters and result; without a mark the program is not executable. Other programs are reported with a message for each mistake.", "quantifier": "all programs with any number of methods and attributes", "why_tests_cant": "the methods and attributes of a program are unbounded", "anchors": ["modules/core/system_type.cpp: __entrypoint_attribute_type_impl_t, __internal_attribute_type_impl_t, __inline_attribute_type_impl_t", "modules/core/core.cpp: module_t::commit", "modules/april/compiler.cpp: __project_cassembly_t::commit", "modules/exec/exec.cpp: executor_t::execute"]}
{"id": "C137", "title": "Fields of enums are public constants of the enum; constants are static", "statement": "The fields of an enum that is accepted are public static constants of the type of the enum; exactly the enums whose fields are written as bare names are accepted. In other types constant fields become static and nothing else about fields changes.", "quantifier": "all declared types with any number of fields", "why_tests_cant": "the fields and modifiers of a type are unbounded", "anchors": ["modules/compile/ast.cpp: type_ast_node_t::__walk_default"]}
{"id": "C138", "title": "Default constructors", "statement": "A class without constructors gets a public one without parameters; a class with constructors is left as it is; a struct that is accepted has exactly one constructor without parameters.", "quantifier": "all declared types with any number of methods", "why_tests_cant": "the methods of a type are unbounded", "anchors": ["modules/compile/ast.cpp: type_ast_node_t::__walk_default, __append_default_constructor"]}
