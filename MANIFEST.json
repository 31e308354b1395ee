{
 "claims": [
  {
   "property": "C01",
   "status": "partial",
   "theorems": [
    "hash_table_refines_map",
    "hash_table_read_back",
    "registry_accessor_agrees",
    "hash_table_reserved_key_refuted",
    "hash_table_reserved_key_lost_refuted",
    "hash_table_always_grows_refuted"
   ],
   "note": "Proved for every history of set/get/remove over every key whose hash is not the reserved empty marker, as long as the run does not run off the prime table. Refuted: the reserved hash 0xABABABAB, and a 41-key history that exhausts the prime table."
  },
  {
   "property": "C02",
   "status": "proved",
   "theorems": [
    "hash_table_remove_exact",
    "hash_table_refines_map"
   ],
   "note": "For all reachable tables and all non-reserved keys."
  },
  {
   "property": "C03",
   "status": "partial",
   "theorems": [
    "hash_table_default_zero_partial",
    "hash_table_default_zero_refuted"
   ],
   "note": "Holds without removals; refuted with removals (the removed value is seen again, even under another key)."
  },
  {
   "property": "C04",
   "status": "partial",
   "theorems": [
    "hash_table_count_exact",
    "hash_table_count_partial",
    "hash_table_count_refuted"
   ],
   "note": "Exact formula for the reported count proved; the claimed equality holds only for histories without growth and is refuted otherwise."
  },
  {
   "property": "C05",
   "status": "proved",
   "theorems": [
    "hash_table_iteration_exact"
   ],
   "note": "For all reachable tables and non-reserved keys."
  },
  {
   "property": "C06",
   "status": "partial",
   "theorems": [
    "name_hash_agrees",
    "name_hash_agrees_all_bytes_refuted",
    "name_hash_needs_terminator",
    "hash_resumable",
    "hash_resumable_refuted",
    "hash_is_32bit"
   ],
   "note": "Agreement holds for 7-bit names; refuted for bytes >= 0x80 (sign extension) and resumption is refuted when the running hash is 0."
  },
  {
   "property": "C07",
   "status": "proved",
   "theorems": [
    "linked_image_is_valid",
    "single_byte_corruption_rejected",
    "loader_accepts_iff"
   ],
   "note": ""
  },
  {
   "property": "C08",
   "status": "proved",
   "theorems": [
    "packed16_roundtrip",
    "packed32_roundtrip",
    "packed_unsigned_roundtrip"
   ],
   "note": ""
  },
  {
   "property": "C09",
   "status": "partial",
   "theorems": [
    "serialise_roundtrip_partial",
    "serialise_arrays_exact",
    "serial_buffer_appends",
    "serialise_count_refuted",
    "serialise_struct_in_table_refuted",
    "serialise_long_string_refuted",
    "serialise_container_key_refuted"
   ],
   "note": "Exact for numbers, strings and arrays below 65536 elements; hash tables with number/string keys come back with the same slots but a different reported count."
  },
  {
   "property": "C10",
   "status": "partial",
   "theorems": [
    "deserialise_any_bytes_partial",
    "deserialise_safe_refuted"
   ],
   "note": "Termination, no over-read; the only undefined behaviour is a hash-table header of size 0 or above 49157."
  },
  {
   "property": "C11",
   "status": "partial",
   "theorems": [
    "gc_safety_partial",
    "gc_exact",
    "gc_safety_hash_member_refuted",
    "gc_safety_slot_ref_refuted",
    "gc_safety_caller_frame_refuted",
    "gc_safety_host_container_refuted",
    "gc_safety_raw_member_refuted"
   ],
   "note": "Proved for worlds without pending hash-table elements or references into heap objects and without foreign objects; five concrete refutations of the unrestricted statement."
  },
  {
   "property": "C12",
   "status": "proved",
   "theorems": [
    "gc_exact",
    "gc_leaves_no_marks"
   ],
   "note": "Exact survivors, order, contents and marks for every completed collection."
  },
  {
   "property": "C13",
   "status": "partial",
   "theorems": [
    "gc_terminates_iff_finite_partial",
    "gc_terminates_refuted"
   ],
   "note": "Completion characterised exactly: it holds iff the structure hanging from the roots is finite; cyclic arrays recurse for ever."
  },
  {
   "property": "C14",
   "status": "partial",
   "theorems": [
    "arithmetic_every_form",
    "integer_operators_partial",
    "integer_operator_element_variable_refuted"
   ],
   "note": "+ - * / proved for every operand pair and every addressing form (division by zero and INT_MIN/-1 as in spec_bin). % & | ^ << >> proved for every form except container element OP variable, where the full build combines pointer bits (refuted for every allocator)."
  },
  {
   "property": "C15",
   "status": "partial",
   "theorems": [
    "arithmetic_every_form",
    "integer_operators_partial",
    "comparison_pure_partial",
    "comparison_modifies_operand_refuted"
   ],
   "note": "Arithmetic and integer operators change only the result slot. Comparisons are pure except <,<=,>,>=,&&,|| with an integer variable on the left and a float on the right, which retags the variable as float (refuted)."
  },
  {
   "property": "C16",
   "status": "proved",
   "theorems": [
    "comparison_every_form",
    "comparison_coherent",
    "float_equality_symmetric_refuted"
   ],
   "note": "Result equals the specification in every addressing form; mirror, negation and trichotomy laws follow. The extra theorem records that float == is not symmetric."
  },
  {
   "property": "C17",
   "status": "partial",
   "theorems": [
    "compound_assign_partial",
    "compound_assign_overwrites_variable_refuted",
    "compound_assign_elements_refuted",
    "compound_assign_overwrites_element_refuted",
    "compound_assign_string_element_refuted",
    "multiply_assign_overflow_refuted"
   ],
   "note": "Proved for variable targets (through any references) with any operand reached through no more references than the target, and for element targets with temporary operands. Element op= variable/element is refuted."
  },
  {
   "property": "C18",
   "status": "partial",
   "theorems": [
    "division_by_zero_is_zero",
    "division_by_zero_traps",
    "divide_assign_by_zero_partial",
    "mod_by_zero_refuted",
    "divide_assign_trap_corrupts_refuted"
   ],
   "note": "Binary division proved in both builds of the trap; %0 is undefined behaviour; trapping /= stores an invalid value in the variable."
  },
  {
   "property": "C19",
   "status": "partial",
   "theorems": [
    "compact_binary_agrees_partial",
    "compact_assign_agrees_partial",
    "compact_comparison_agrees_partial",
    "compact_overflow_refuted",
    "compact_float_mod_refuted",
    "compact_float_and_refuted"
   ],
   "note": "Agreement outside signed overflow, the bad addressing forms, float operands of integer operators, and float operands of && and ||; each exclusion has a refutation."
  },
  {
   "property": "C20",
   "status": "partial",
   "theorems": [
    "array_history",
    "array_write_then_read",
    "array_write_frame",
    "array_negative_index_refuted",
    "array_index_limit_refuted",
    "string_element_write_refuted"
   ],
   "note": "Every history of element reads and writes with indices below the documented limit 2^21. Refuted: a negative index (memory error), indices past 2^23 (alias a low element), writing an element of a string (ignored)."
  },
  {
   "property": "C21",
   "status": "partial",
   "theorems": [
    "queue_is_fifo",
    "queue_order",
    "queue_peek_is_next",
    "list_is_deque",
    "queue_push_variable_refuted"
   ],
   "note": "Every interleaving of pushes of values and pops up to 134217727 elements. Pushing a variable stores a reference to it, so a later assignment changes the queued value."
  },
  {
   "property": "C22",
   "status": "partial",
   "theorems": [
    "stack_is_lifo",
    "stack_peek_is_next",
    "container_count_exact",
    "queue_push_variable_refuted"
   ],
   "note": "As C21 (stack::push is the same function)."
  },
  {
   "property": "C23",
   "status": "partial",
   "theorems": [
    "array_insert_splices_partial",
    "array_remove_splices",
    "array_remove_undoes_insert",
    "array_truncate_exact",
    "remove_element_exact",
    "array_insert_past_end_refuted",
    "array_negative_count_refuted",
    "remove_element_out_of_range_refuted",
    "remove_element_empty_refuted"
   ],
   "note": "Insertion at any position up to the size and any nonnegative count; removal at any position with any nonnegative count. Insertion past the end and negative counts are memory errors."
  },
  {
   "property": "C24",
   "status": "partial",
   "theorems": [
    "str_left_correct",
    "str_right_correct",
    "str_mid_partial",
    "str_mid_empty_refuted",
    "str_concat_correct",
    "str_insert_correct",
    "str_chr_correct",
    "str_len_correct",
    "str_trim_partial",
    "str_case_partial",
    "str_high_bytes_refuted"
   ],
   "note": "left, right, concat, insert, chr and strlen hold for every string and argument. mid of the empty string yields 0 instead of a string. trim and case conversion hold for 7-bit strings; bytes above 127 are undefined behaviour."
  },
  {
   "property": "C25",
   "status": "partial",
   "theorems": [
    "int_to_text_partial",
    "int_to_text_bounded",
    "int_text_parses_back",
    "int_to_text_roundtrip_partial",
    "int_to_text_min_refuted"
   ],
   "note": "Every integer except INT_MIN, for which the conversion is undefined behaviour."
  },
  {
   "property": "C26",
   "status": "proved",
   "theorems": [
    "format_never_overruns"
   ],
   "note": "Arbitrary format bytes and arguments. The code stores no terminator; only the first outsize bytes are written. The only undefined behaviour is %d of INT_MIN, which touches no memory."
  },
  {
   "property": "C27",
   "status": "partial",
   "theorems": [
    "rand_in_range_partial",
    "rand_wide_range_refuted",
    "rand_period_full",
    "rand_stuck_refuted"
   ],
   "note": "Range proved whenever to-from < 2^31-1 (undefined behaviour otherwise). From any seed prime to 2^31-1, in particular the initial one, the period is full (2^31-2); srand(0) is stuck at 0."
  },
  {
   "property": "C28",
   "status": "partial",
   "theorems": [
    "tick_is_one_round",
    "every_task_resumed_once",
    "task_ids_never_reused",
    "remove_task_exact",
    "spawned_task_lost_refuted",
    "remove_during_tick_refuted"
   ],
   "note": "Every task list and completion pattern when tasks do not call the scheduler themselves, and every host call sequence. A task that uses the scheduler from inside its slice can lose a new task or make tick use freed memory (refuted)."
  },
  {
   "property": "C29",
   "status": "partial",
   "theorems": [
    "c29_plain_is_run",
    "c29_hosted_partial",
    "c29_continued_partial",
    "c29_call_partial",
    "c29_stale_local_refuted",
    "c29_global_result_refuted",
    "c29_no_result_refuted"
   ],
   "note": "Every program that ends, every schedule of forced stops and every explicit yield with any replies: the continued run ends with the same globals, objects, stack height, error and result as the uninterrupted run in which a yield is a call that returns the reply. Conditions on the uninterrupted run: no value in use refers to the free stack, named locals are in use, called functions start by initializing their first local, operators on two variables produce a result. Without the last two it is false (refuted), and so for the result slot of global code. Opcodes that are parameters of the machine enter through a locality condition."
  },
  {
   "property": "C30",
   "status": "partial",
   "theorems": [
    "c30_call_arguments",
    "c30_return",
    "c30_call_and_return_partial",
    "c30_wide_frame_refuted"
   ],
   "note": "Entry and return proved for every argument count, arity and memory. The whole-call theorem asks that the body reach its Return inside its own frame. Refuted for functions with 255 or more parameters and locals, whose frame adjustment byte wraps."
  },
  {
   "property": "C31",
   "status": "partial",
   "theorems": [
    "c31_locals_partial",
    "c31_refuted"
   ],
   "note": "Every local but the first is 0. The first is an integer with whatever payload was on the stack: refuted as stated."
  },
  {
   "property": "C32",
   "status": "partial",
   "theorems": [
    "c32_accepted",
    "c32_expression_value_partial",
    "c32_simple_operands",
    "c32_and_refuted",
    "c32_minus_refuted",
    "c32_bytes_refuted"
   ],
   "note": "Every tree of the precedence table up to 255 tokens is accepted; its code leaves exactly the value of the tree whenever no SwapTwoToTop has a first operand above 2, in particular whenever every infix operator has an operand that is a single term. False otherwise: a*b < c+d && e*f and a*b + c*d + e*f - g*h compute something else (refuted, also on the bytes). Operands are pure values here; the keyhole optimiser is C33."
  },
  {
   "property": "C33",
   "status": "partial",
   "theorems": [
    "c33_keyhole_partial",
    "c33_concat_order_refuted",
    "c33_compare_retags_refuted",
    "c33_equal_refuted",
    "c33_negate_refuted",
    "c33_assign_reference_refuted",
    "c33_increment_reference_refuted",
    "c33_no_result_refuted",
    "c33_cache_underflow_refuted"
   ],
   "note": "For every sequence of instructions between branches, emitted through pushOpcode into a block with an empty opcode cache: the emitted bytes take the machine from every state to the same memory, stack and frame as the unfused bytes, for all runs on which the optimizer is right (predicate tame). Each excluded case is refuted: string concatenation of global and local swaps its operands, 1.5 < x retags x, == with a float is not symmetric, negated literals -128 and -32768, assignment and x++ through a by-reference parameter, operators without a result, c + (a + b) reads below the opcode cache. Stack swaps are covered. The condition on negated literals is on the code: no Negate directly behind one of the two literals (negations_fit). Blocks of expressions assembled with appendBytecode are in C56. Missing: branches fused with comparisons, Index, script function calls, runs that end in an error."
  },
  {
   "property": "C34",
   "status": "partial",
   "theorems": [
    "c34_resolve",
    "c34_encodable_resolves",
    "c34_resolve_again",
    "c34_compiled_partial"
   ],
   "note": "Every block whose references are non-overlapping jump instructions, every distance, repeated resolution; every unit the compiler builds from tidy sources is of this form and has all jumps resolved. Missing: sources with for-each, goto, empty statements, nested bare blocks."
  },
  {
   "property": "C35",
   "status": "partial",
   "theorems": [
    "c35_structured_partial",
    "c35_empty_statement_refuted",
    "c35_nested_block_refuted",
    "c35_bare_break_refuted"
   ],
   "note": "Full simulation for every tidy source (if/else, while, do, for, switch, break, continue, return, nested without bound) in units below 32768 bytes. Missing: for-each, goto. False for empty statements, blocks directly in blocks, unbraced break (refuted with whole programs run on the machine)."
  },
  {
   "property": "C36",
   "status": "partial",
   "theorems": [
    "c36_switch_partial",
    "c36_refuted"
   ],
   "note": "Every switch with distinct hashes below 0xFFFFFFFF that contains code and does not end in a loop: both table forms. False otherwise (refuted)."
  },
  {
   "property": "C37",
   "status": "partial",
   "theorems": [
    "c37_end_returns_zero_partial",
    "c37_refuted"
   ],
   "note": "Every body that does not end in a return. False for bodies whose last statement is an if whose branch returns (refuted)."
  },
  {
   "property": "C38",
   "status": "partial",
   "theorems": [
    "c38_continue_while_partial",
    "c38_continue_do_partial",
    "c38_continue_for_partial",
    "c35_structured_partial",
    "c38_refuted"
   ],
   "note": "while, do and for at any nesting. False for for-each (refuted)."
  },
  {
   "property": "C39",
   "status": "partial",
   "theorems": [
    "c39_link_partial",
    "c39_rejects",
    "c39_large_image_refuted",
    "c39_arguments_refuted",
    "c39_frame_refuted",
    "c39_yield_name_refuted"
   ],
   "note": "Every set of units whose link sites lie in the code without overlap, every flag combination, images below 65536 bytes, up to 254 locals per function, no function named yield. Too many globals, functions or frame slots, and gotos without label, are rejected. Refuted beyond: larger images, 255 or 256 arguments, a function named yield."
  },
  {
   "property": "C40",
   "status": "partial",
   "theorems": [
    "c40_history_partial",
    "c40_release",
    "c40_substr",
    "c40_find_partial",
    "c40_rfind",
    "c40_equality_partial",
    "c40_wildcard_sound",
    "c40_wildcard_exact_partial",
    "c40_insert_past_end_refuted",
    "c40_self_append_refuted",
    "c40_find_past_end_refuted",
    "c40_equality_refuted",
    "c40_trim_non_ascii_refuted",
    "c40_wildcard_complete_refuted"
   ],
   "note": "Every history of set/append/insert/truncate/shave/shift/trim/clear/resize-down/give/release calls with positions inside the text and ASCII text for trim. Refuted: insert past the end, s += s, find from past the end, == after a zero byte, trim of non-ASCII text, wildcard completeness. The printf-style format members and the case-folding comparisons are not modelled."
  },
  {
   "property": "C41",
   "status": "partial",
   "theorems": [
    "c41_array_is_list",
    "c41_array_assign",
    "c41_table_is_map",
    "c41_table_is_map_partial",
    "c41_array_copy_refuted",
    "c41_array_remove_refuted",
    "c41_table_null_key_refuted",
    "c41_table_hint_refuted",
    "c41_table_full_refuted"
   ],
   "note": "Array: every history of calls that are valid on a list. Refuted: copy construction, removal past the end. Table: every history; unconditional when the keys differ modulo the largest size, otherwise whenever set finds room. Refuted: the reserved hash, a size hint of 49157, six keys no size separates."
  },
  {
   "property": "C42",
   "status": "partial",
   "theorems": [
    "c42_mailbox_partial",
    "c42_delivered_once_partial",
    "c42_default_read_refuted",
    "c42_shared_with_functions_refuted"
   ],
   "note": "Every interleaving with other registry use, as long as the registry finds room. Read removes only when asked to; messages share their keys with registered functions."
  },
  {
   "property": "C43",
   "status": "partial",
   "theorems": [
    "c43_packet_transport_partial",
    "c43_send_in_bounds",
    "c43_alloc_ok",
    "c43_loopback_fifo",
    "c43_request_refuted",
    "c43_request_loopback_refuted",
    "c43_linux_tcp_refuted"
   ],
   "note": "Every byte order of either side and every fragmentation, for packets whose size field is right. Packets made from a type alone are never sent; the Linux TCP transport never receives."
  },
  {
   "property": "C44",
   "status": "partial",
   "theorems": [
    "destroy_frees_all_partial",
    "destroy_frees_all_refuted"
   ],
   "note": "Every heap and chain of the destroyed context is freed when the collection limit of the state is at most 65535; with a larger limit the final collection is skipped and the objects stay (refuted). Memory outside the object chain (the context, its stack and its code) is not modelled."
  },
  {
   "property": "C45",
   "status": "partial",
   "theorems": [
    "keys_independent_partial",
    "number_keys_independent",
    "close_string_keys_distinct",
    "int_float_keys_collide_refuted",
    "string_keys_collide_refuted",
    "zero_keys_differ_refuted"
   ],
   "note": "Independent whenever the 32-bit hashes differ; always so among integers, among floats, and for strings differing in one byte. Refuted across integers and floats and for colliding strings."
  },
  {
   "property": "C46",
   "status": "partial",
   "theorems": [
    "string_equality_partial",
    "string_equality_refuted",
    "string_concatenation",
    "string_plus_float_refuted"
   ],
   "note": "Equality holds of equal strings and of no strings with different hashes; two words with the same 32-bit hash compare equal. Concatenation of two strings fully proved; string + float is not a concatenation in the full build."
  },
  {
   "property": "C47",
   "status": "proved",
   "theorems": [
    "assign_every_form"
   ],
   "note": "Numeric values; every addressing form and reference chain. Strings stored by reference are not covered by this theorem."
  },
  {
   "property": "C48",
   "status": "partial",
   "theorems": [
    "post_increment",
    "pre_increment_partial",
    "pre_increment_reference_refuted",
    "increment_overflow_refuted"
   ],
   "note": "x++ and x-- for every operand, through any chain of references and for container elements; ++x and --x through at most one reference: through a by-reference parameter the parameter stops being a reference (refuted). Incrementing 2147483647 is signed overflow (refuted)."
  },
  {
   "property": "C49",
   "status": "partial",
   "theorems": [
    "negate_every_form",
    "bitwise_not_every_form",
    "logical_not_partial",
    "logical_not_negative_zero_refuted"
   ],
   "note": "!x is wrong only for -0.0."
  },
  {
   "property": "C50",
   "status": "partial",
   "theorems": [
    "format_text_partial",
    "format_negative_width_refuted",
    "format_negative_zero_refuted",
    "format_octal_binary_refuted",
    "format_into_argument_refuted",
    "format_int_min_refuted"
   ],
   "note": "Missing: negative numbers with a width, %o/%b above 15/16 bits, destination used as its own argument: each refuted. Flag # and %p are modelled but not specified."
  },
  {
   "property": "C51",
   "status": "partial",
   "theorems": [
    "c51_checked_instructions_partial",
    "c51_refuted"
   ],
   "note": "Every instruction except 32-bit literals, IndexSkipLoad, some fused index forms and the opcodes not modelled. 32-bit literal pushes are never checked: refuted."
  },
  {
   "property": "C52",
   "status": "partial",
   "theorems": [
    "c52_compile_link_load_run_partial"
   ],
   "note": "Composition of C35 and C39: every tidy source in an image below 65536 bytes, units below 32768 bytes. Expression code enters through its block contract (pops, branches, pushes, returns), not through the expression parser; what a call does at run time is C30."
  },
  {
   "property": "C53",
   "status": "partial",
   "theorems": [
    "c53_integer_partial",
    "c53_every_integer",
    "c53_fraction_partial",
    "c53_large_refuted",
    "c53_binary_refuted",
    "c53_last_refuted",
    "c53_zero_refuted",
    "c53_points_refuted"
   ],
   "note": "From the source text to the instruction: every integer below 2^32 in the four bases, in front of every text that does not continue it, in every block of code. The float of a fraction is what the C library makes of its text (a parameter). False for numbers from 2^32 on, for octal and binary numbers from 2^31 on when long has 32 bits, for a number that ends the source, for 08 and 01.5 (refuted)."
  },
  {
   "property": "C54",
   "status": "partial",
   "theorems": [
    "c54_string_partial",
    "c54_every_string",
    "c54_character_partial",
    "c54_unterminated_refuted",
    "c54_past_end_refuted",
    "c54_character_refuted",
    "c54_long_refuted"
   ],
   "note": "Every literal of the escape grammar up to 65535 bytes, and every byte string has such a literal. False from 65536 bytes on, for a missing closing quote at the end of the source, for a backslash that ends the source (reads behind it) and for characters above 127 between single quotes (refuted)."
  },
  {
   "property": "C55",
   "status": "partial",
   "theorems": [
    "c55_tokens_partial",
    "c55_unique_partial",
    "c55_separators_partial",
    "c55_comment_refuted",
    "c54_past_end_refuted"
   ],
   "note": "Every text that is written as tokens with separators is read as these tokens, for any constants in scope. Missing: texts with errors, bytes above 127 outside strings and comments. A comment may end with the star that begins it (refuted), a colon that ends the source reads behind it (refuted)."
  },
  {
   "property": "C56",
   "status": "partial",
   "theorems": [
    "c56_expression_partial",
    "c56_fine_simple",
    "c56_misled_refuted",
    "c56_cache_underflow_refuted"
   ],
   "note": "From the tokens of the expression to the machine state after its code: resolution, emission, keyhole optimizer, nested blocks and the operators of the interpreter composed. For all expressions of integers of any nesting that satisfy: every level is one that C32 gets right (in particular every level of simple operands, c56_fine_simple), no literal -128 or -32768 is negated, and the compiler emits the same bytes as one that forgets its opcode cache when it appends a block whose last opcodes it does not know (not_misled, decidable by running both). Without the last condition it is false: -(a - b) * -5 and d == (a - b) && -5 compute something else, c + (a - b) reads outside the cache (refuted). Missing: floats, strings, calls, indexing, casts and assignments as operands."
  },
  {
   "property": "C57",
   "status": "partial",
   "theorems": [
    "c57_run_partial",
    "c57_host_call_partial",
    "c57_call_partial",
    "c57_early_return_refuted"
   ],
   "note": "Composes C35, C52, C56 and the calling convention: the statements have a big-step semantics over integer variables (ProgSpec) that mentions neither compiler nor machine; for every file of such statements that compiles, links and loads, the machine run on the image ends with the computed result and globals and leaves everything else alone. The expressions are those of C56 (with the instruction that follows them: branch, pop, return); a case is not -1 (refuted in C35); the first local of a function is what is left on the stack (C31); a body whose last instruction is a return but that ends without one is refuted in C37. c57_host_call_partial assumes that the host call returns to a Stop instruction; c57_run_partial shows that it does when the code outside functions ends without a return, and c57_early_return_refuted that it does not after an early return: a function called by the host then returns into the rest of the file. Calls by statements are C58. Statements x op= e for every compound operator and ++x, x++, --x, x-- are included: the expression of x *= e must have a product that fits 32 bits and a step must not leave the 32-bit range, because these overflow signed integers in C++ (undefined). The instruction for x += e may leave a number in the local variable of the C++ function that performs it (LAuto 0 in the model), which is no part of the state. Missing: calls as part of larger expressions, arrays, strings, floats, foreach, goto."
  },
  {
   "property": "C58",
   "status": "partial",
   "theorems": [
    "c58_run_partial",
    "c58_host_call_partial",
    "c58_depth",
    "c58_reference_refuted"
   ],
   "note": "The semantics of ProgSpec with calls: invokes d says what a call does when calls are nested at most d deep, by recursion on d; c58_depth: a larger d changes nothing. For every d the machine does what it says if the stack has room (or is not checked). The result must not depend on what is left in the place of the first local (C31). Arguments are expressions that are not just a variable: a variable is passed by reference (c58_reference_refuted: the parameter changes when the variable does). Missing: calls inside larger expressions and in conditions, returns of calls, arguments that are variables, native functions."
  },
  {
   "property": "C59",
   "status": "partial",
   "theorems": [
    "c59_expression_partial",
    "c59_value_partial",
    "c59_declared_in_parentheses_refuted",
    "c59_quoted_parenthesis_refuted"
   ],
   "note": "The parser on the characters (ParseModel: tokenizer, labels, name spaces, nested parentheses) against an independent grammar of tokens and scoping rules (ParseSpec): for every expression and every way to write it the code is that of the expression with its variables, and (with C56) it computes the value. The resolution does not depend on the operands (ExprParam). Names whose 32 bit hashes collide are excluded. Missing: names not declared yet (var), string and float literals, calls (C60 and C62 have them as statements), indexes, initializers, new, struct bodies. Refuted: variables declared in different parentheses of one expression get the same place; a string literal ) in parentheses is taken for the parenthesis."
  },
  {
   "property": "C60",
   "status": "partial",
   "theorems": [
    "c60_program_partial",
    "c60_block_in_a_block_refuted",
    "c60_braces_match_refuted",
    "c60_string_ends_block_refuted",
    "c60_parameters_differ_refuted",
    "c60_negative_case_refuted"
   ],
   "note": "The compiler on the characters (TextModel: compile, parseStatement and the parsers of the control statements and functions, with the tokenizer and the expression parser of C59) against the independent TextSpec.spells: the bytes are those of CcModel.compile_units on the program spelled, of which C34-C38, C52, C57 speak; the names of each name space are the declared ones in order. Names whose 32 bit hashes collide are excluded; as many { as } (without that it is false). Missing: names not declared, var without a value or in parentheses, string and float literals, calls inside of other expressions (calls as statements, with the result dropped or assigned, are spelled), indexes, foreach, goto, labels, struct, enum, export. Refuted: a block directly in a block ends both; a text with a missing brace is compiled; a string that starts with a brace ends the function; two parameters of one name; case -1 and case (1)."
  },
  {
   "property": "C61",
   "status": "partial",
   "theorems": [
    "c61_run_partial",
    "c61_host_call_partial",
    "c61_loaded_partial"
   ],
   "note": "Composes C55, C59, C60, C52 and C57: ScriptSpec says which tokens a program of ProgSpec is written with and which variable a name is, TokenSpec how tokens are written; the image that compile_text, link and create_context make of the characters runs as ProgSpec says. Locals are those that var declares (C57 has only parameters and what the units happen to have). Conditions as in C57 and C60. Missing: calls between functions of a text (C62), undeclared names, strings, floats, arrays, foreach, goto."
  },
  {
   "property": "C62",
   "status": "partial",
   "theorems": [
    "c62_run_partial",
    "c62_host_call_partial",
    "c62_trailing_comma_refuted"
   ],
   "note": "C61 for files whose functions call each other and themselves, to any depth for which the stack has room: calls are statements n( args ); x = n( args ); var x = n( args );, with the arguments of C58 (a variable alone is passed by reference and excluded, see c58_reference_refuted). The number of locals of a function is the number of its var declarations in the text. Examples: the factorial from its text, for every n. Missing: calls inside of other expressions, library and native functions, and what C61 leaves out. Refuted: that the arguments in a text are separated by commas: f( 1, ) is accepted."
  },
  {
   "property": "C63",
   "status": "proved",
   "theorems": [
    "c63_list",
    "c63_clear",
    "c63_loopback_in_order",
    "c63_negative_index_refuted",
    "c63_remove_while_walking_refuted"
   ],
   "note": "SimpleLL on a heap of nodes (LinkedModel) refines a sequence with a position (LinkedSpec), for every sequence of requests; nodes in memory are exactly those of the items. Allocation does not fail. Refuted: a negative index gives the first item; the debugger that removes the current item while it walks misses the item behind it."
  },
  {
   "property": "C64",
   "status": "proved",
   "theorems": [
    "c64_call_depth",
    "c64_current_line",
    "c64_current_function",
    "c64_breakpoint_stops",
    "c64_nothing_else_stops",
    "c64_step_into",
    "c64_step_over",
    "c64_run_to_line",
    "c64_run_after_step_refuted",
    "c64_call_stack_refuted",
    "c64_remove_reads_freed_refuted"
   ],
   "note": "The debug server (DebugModel): codewordEncountered, set and clear of breakpoints, step requests, the first run, with its two SimpleLL lists as heap structures. The codewords are those the program is assumed to emit at lines, calls and returns; wr_continue and the frame fields of a call-stack entry are not modelled. Refuted: a step interrupted by a breakpoint is not forgotten by a plain run; a return removes the entry of the outermost function instead of the innermost, so the call stack shown is wrong (only its depth is right); the debugger command that removes a breakpoint reads its node after freeing it, for every sequence of commands that removes one."
  },
  {
   "property": "C65",
   "status": "proved",
   "theorems": [
    "c65_call_stack_arrives"
   ],
   "note": "The reply to WRD_RequestCallstack and getCallstack (StackModel) over the lists of C63, with the byte order of each machine as a parameter. How packets travel is C43. The layout of the struct is the usual one: 12 bytes with one byte of padding, of unspecified value. Which entries the target has is C64."
  },
  {
   "property": "C66",
   "status": "proved",
   "theorems": [
    "c66_symbols",
    "c66_short_names",
    "c66_many_variables_refuted",
    "c66_long_names_refuted"
   ],
   "note": "The symbol block as link writes it and as populateSymbols reads it (SymbolModel); sscanf with %63s is modelled by what it takes. The lists of the client are sequences (C63). Refuted: a function with an argument and 255 other variables is accepted by the compiler, its count in the block is 0 and the names of its variables are read as the next function; names that agree in 63 characters are shown as the same."
  },
  {
   "property": "C67",
   "status": "proved",
   "theorems": [
    "c67_position",
    "c67_statement_line",
    "c67_call_codeword",
    "c67_far_line_refuted"
   ],
   "note": "getSourcePosition for every position inside a source, and pushDebug as a function of the codeword remembered (LineModel). At which position the tokenizer stands when a statement or an error is met is not part of this. Refuted: lines from 16384 on are reported as others."
  }
 ]
}