{
 "claims": [
  {
   "property": "C01",
   "status": "proved",
   "theorems": [
    "C01_ordinal_conversion_exact",
    "C01_real_conversion_exact"
   ],
   "note": "All ordinal kinds and reals; exact against an independent range table."
  },
  {
   "property": "C02",
   "status": "partial",
   "theorems": [
    "C02_store_load_roundtrip",
    "C02_store_fails_iff_out_of_range",
    "C02_aggregate_copy",
    "C02_compile_time_store_agrees",
    "C02_increment_refuted",
    "C02_increment_in_range_partial"
   ],
   "note": "Holds for assignment; refuted for ++/--, which wrap silently (or are undefined at 32/64 bits)."
  },
  {
   "property": "C03",
   "status": "proved",
   "theorems": [
    "C03_folding_agrees"
   ],
   "note": "Scalar operands; strings and aggregates are covered by C06/C15 theorems."
  },
  {
   "property": "C04",
   "status": "partial",
   "theorems": [
    "C04_builtin_folding_agrees_partial",
    "C04_atan2_folding_refuted"
   ],
   "note": "Agreement for all builtins except atan2, where constants with exactly one zero argument are rejected at compile time but accepted at run time (refuted with witness)."
  },
  {
   "property": "C05",
   "status": "partial",
   "theorems": [
    "C05_signed_exact",
    "C05_signed_sound",
    "C05_division_total",
    "C05_unsigned_modular",
    "C05_bitwise",
    "C05_relational",
    "C05_division_identity",
    "C05_no_undefined_behaviour_refuted"
   ],
   "note": "Exact when representable, division total; refuted: + - * unary minus and shifts have undefined cases instead of errors."
  },
  {
   "property": "C06",
   "status": "partial",
   "theorems": [
    "C06_compare_is_order",
    "C06_moderate_values_comparable",
    "C06_order_laws",
    "C06_relational_operators",
    "C06_int_overflow_refuted",
    "C06_nan_refuted",
    "C06_weak_pointer_cycle_refuted",
    "C06_cyclic_compare_refuted"
   ],
   "note": "Exact for all comparable types and nestings when corresponding integers differ by less than 2^63 and reals are not NaN; refuted outside: integer subtraction overflow, NaN, mixed global/heap weak pointers form a cycle, cyclic dynamic arrays never finish."
  },
  {
   "property": "C07",
   "status": "partial",
   "theorems": [
    "C07_sort_permutes",
    "C07_sortfast_permutes",
    "C07_sort_terminates",
    "C07_sort_termination_refuted"
   ],
   "note": "Permutation and memory safety for any (stateful, failing) comparison function; termination needs compare(a, a) <= 0, refuted otherwise."
  },
  {
   "property": "C08",
   "status": "partial",
   "theorems": [
    "C08_sort_sorts",
    "C08_sortfast_sorts",
    "C08_wide_result_refuted"
   ],
   "note": "Sorted for any total preorder with 32-bit answers; refuted for wider answers (the closure result is cut to a C int)."
  },
  {
   "property": "C09",
   "status": "proved",
   "theorems": [
    "C09_map_is_finite_map",
    "C09_map_of_comparable_keys",
    "C09_finite_map_laws",
    "C09_item_pointer_stable",
    "C09_far_int_keys_refuted"
   ],
   "note": "Node heap with rotations refines a sorted association list for every operation sequence and every rand() outcome; keys of any comparable type through the C06 comparison. Refuted for int keys 2^63 or more apart (finding)."
  },
  {
   "property": "C10",
   "status": "proved",
   "theorems": [
    "C10_keys_sorted_and_complete"
   ],
   "note": "keys() strictly increasing, as long as len(), exactly the valid keys."
  },
  {
   "property": "C11",
   "status": "proved",
   "theorems": [
    "C11_copy_is_independent"
   ],
   "note": "Any interleaving of operations on a map and its copy equals two separate finite maps."
  },
  {
   "property": "C12",
   "status": "partial",
   "theorems": [
    "C12_dynarray_is_shared_list",
    "C12_capacity_doubles",
    "C12_insert_own_item_refuted",
    "C12_slice_sentinel_refuted"
   ],
   "note": "Every operation sequence refines shared mutable lists, with no undefined behaviour; refuted for insert(a, i, a[j]) with j > i in place (wrong item inserted) and for a slice end of -2^31 (taken as missing)."
  },
  {
   "property": "C13",
   "status": "partial",
   "theorems": [
    "C13_append_item",
    "C13_append_array",
    "C13_insert",
    "C13_storage"
   ],
   "note": "In place exactly when it fits, otherwise new storage; storage disjoint and within its block. Excluded: the C12 insert alias case."
  },
  {
   "property": "C14",
   "status": "partial",
   "theorems": [
    "C14_dynarray_index",
    "C14_string_index",
    "C14_array_index",
    "C14_constant_index_partial",
    "C14_constant_index_refuted"
   ],
   "note": "Arrays, dynamic arrays and strings: exact for every 64-bit index. Refuted for a constant index outside 32 bits (truncated at compile time)."
  },
  {
   "property": "C15",
   "status": "partial",
   "theorems": [
    "C15_strings_are_byte_strings",
    "C15_len_is_c_length",
    "C15_concat_overflow",
    "C15_concat_overflow_refuted",
    "C15_slice_sentinel_refuted"
   ],
   "note": "Every operation sequence refines byte strings; refuted: concatenation whose length exceeds an int is undefined, and a slice end of -2^31 is taken as missing."
  },
  {
   "property": "C16",
   "status": "proved",
   "theorems": [
    "C16_concat",
    "C16_append",
    "C16_append_null"
   ],
   "note": "For lengths whose sum fits an int (beyond it see C15)."
  },
  {
   "property": "C17",
   "status": "proved",
   "theorems": [
    "C17_blocks_disjoint",
    "C17_blocks_in_memory",
    "C17_allocation",
    "C17_allocation_succeeds",
    "C17_contents_kept",
    "C17_pointers_resolved"
   ],
   "note": "Every history of allocations, count changes, weak pointers, writes and changing temporaries, for every malloc; allocation never undefined below 2^31-2 allocations."
  },
  {
   "property": "C18",
   "status": "partial",
   "theorems": [
    "C18_counting",
    "C18_page_released",
    "C18_temporaries",
    "C18_dangling_partial",
    "C18_stale_pointer_refuted"
   ],
   "note": "Exact counting and page release for every history. Detection of uses of dead blocks proved while another block of the page is alive; refuted once the memory has been reused."
  },
  {
   "property": "C19",
   "status": "proved",
   "theorems": [
    "C19_weak_pointers",
    "C19_outside_the_heap",
    "C19_stacks"
   ],
   "note": "For every later history, including reuse of the memory."
  },
  {
   "property": "C20",
   "status": "partial",
   "theorems": [
    "C20_once_per_dead_block",
    "C20_at_last_release",
    "C20_at_the_end",
    "C20_argument_refuted"
   ],
   "note": "Exactly one call per dead block and one per live block at the end; refuted for the argument, which may be an interior pointer. Callbacks that use the heap themselves are in C78."
  },
  {
   "property": "C21",
   "status": "partial",
   "theorems": [
    "C21_at_least_partial",
    "C21_exact_partial",
    "C21_drift_refuted"
   ],
   "note": "Never less than the memory held; exact for one size class; refuted in general (reuse of a larger page for smaller blocks makes the figure drift upwards)."
  },
  {
   "property": "C22",
   "status": "partial",
   "theorems": [
    "C22_fields_partial",
    "C22_same_as_c",
    "C22_overflow_refuted"
   ],
   "note": "Model of typeAddField, array types and type sizes. All accepted structures whose size did not wrap have aligned, ordered, disjoint, tight fields; layout equals the C ABI's. Refuted near 2 GB: the size check ignores padding."
  },
  {
   "property": "C23",
   "status": "proved",
   "theorems": [
    "C23_parameters",
    "C23_api"
   ],
   "note": "Caller's pushes, callee's offsets, frame layout and C API agree for every signature whose parameters take less than 2 GB."
  },
  {
   "property": "C24",
   "status": "partial",
   "theorems": [
    "C24_locals_partial",
    "C24_overflow_refuted"
   ],
   "note": "Every sequence of block entries, exits, re-entries and allocations, for functions whose locals need at most 2^31-16 bytes; refuted beyond."
  },
  {
   "property": "C25",
   "status": "partial",
   "theorems": [
    "C25_decides",
    "C25_reflexive",
    "C25_symmetric",
    "C25_transitive_partial",
    "C25_refuted"
   ],
   "note": "Termination, agreement with the greatest bisimulation, reflexivity and symmetry for every type graph the parser can build (interface methods only inside interfaces). Transitive if one end holds no named type; refuted for two named types and a nameless one between them (by design of the language). Refuted as a relation on function types: the receiver of an interface method is skipped only on the left. The comparison of default values is a parameter."
  },
  {
   "property": "C26",
   "status": "proved",
   "theorems": [
    "C26_decimal",
    "C26_hexadecimal",
    "C26_only",
    "C26_underscore"
   ],
   "note": "Decimal and hexadecimal, with underscores, in any context; both directions (value denoted iff below 2^64; nothing else yields an integer)."
  },
  {
   "property": "C27",
   "status": "partial",
   "theorems": [
    "C27_skipped_partial",
    "C27_unended",
    "C27_refuted"
   ],
   "note": "Any sequence of blanks and comments is skipped; refuted for block comments with an odd number of asterisks before the end mark (/***/, /* a **/)."
  },
  {
   "property": "C28",
   "status": "partial",
   "theorems": [
    "C28_decode_partial",
    "C28_backquote",
    "C28_unended",
    "C28_backquote_unended",
    "C28_no_nul",
    "C28_character",
    "C28_refuted"
   ],
   "note": "All pieces and lengths; both passes agree for every text. Refuted: documented \\e is the letter e; \\x goes through sscanf (blanks, sign, prefix; undefined for 33 bits or more)."
  },
  {
   "property": "C29",
   "status": "partial",
   "theorems": [
    "C29_progress_partial",
    "C29_finite",
    "C29_semicolons",
    "C29_same_stream",
    "C29_comment_refuted"
   ],
   "note": "Every byte string except those where \\x is followed by a number of 33 bits or more (undefined). Refuted: a line end inside a block comment gives no semicolon."
  },
  {
   "property": "C30",
   "status": "partial",
   "theorems": [
    "C30_resolve_partial",
    "C30_within",
    "C30_root",
    "C30_idempotent",
    "C30_refuted"
   ],
   "note": "Resolution for proper components (no trailing dots, no empty component, no dot before a blank) that fit the buffer; bounds, root and idempotence for every string. Refuted for the other components and for paths cut at 255 characters."
  },
  {
   "property": "C31",
   "status": "partial",
   "theorems": [
    "C31_same_effect_partial",
    "C31_straight_partial",
    "C31_stops_partial",
    "C31_refuted"
   ],
   "note": "Every properly nested sequence of generator calls (all peephole rules, all jump fixups), every machine state, both directions; under the explicit rules of GenVm.step, which the parser is believed to keep and which are checked by the strict run. Refuted without them: a constant index of 2^32 or more, REG_SELF read twice. Not covered: removal of the copy of a call result, entry points and frame fixups."
  },
  {
   "property": "C32",
   "status": "partial",
   "theorems": [
    "C32_structured_partial",
    "C32_plain_partial",
    "C32_refuted"
   ],
   "note": "Every function body built from requests, sequences, && ||, if/else, expression and type switches, both loop forms, break, continue, return; real optimiser; every machine state; both directions; under the same rules as C31, and except when the stack runs out. The code without the optimiser does exactly what the statements say, stack overflow included. Refuted: break/continue in a type switch leak a stack slot per execution; more than 100 cases or constants per case write outside gen->stack. Not covered: functions inside functions."
  },
  {
   "property": "C33",
   "status": "partial",
   "theorems": [
    "C33_const_partial",
    "C33_code",
    "C33_refuted"
   ],
   "note": "The expression parsing functions from parseFactor (literals, named constants, variables, unary operators, parentheses) to parseExpr, in constant and in code mode, for int and bool. Without short circuits all well-typed constant expressions are accepted in both modes with the same value; the code mode accepts exactly the grammar. Missing: constants with false before && or true before ||, whose right operand is left unread (refuted), and constant conditionals with an error in the part not taken (refuted). Other types and designators are not modelled here."
  },
  {
   "property": "C34",
   "status": "partial",
   "theorems": [
    "C34_resume",
    "C34_finish_partial",
    "C34_valid",
    "C34_make",
    "C34_wait",
    "C34_refuted"
   ],
   "note": "make(fiber), resume, valid, the return of a fiber function and the release of fibers, in any program with any other instructions, nested calls from host code included; a waiting fiber keeps its stack and position over any run. Missing: a parent that has finished (refuted: resume() or the return of the child then ends the whole call, and a released parent is accessed)."
  },
  {
   "property": "C35",
   "status": "partial",
   "theorems": [
    "C35_stack_partial",
    "C35_refuted"
   ],
   "note": "The machine with its bounded stack array refines the machine with an unlimited stack of frames that stops with a stack overflow, for any program, calls, steps, fibers and nested calls. Missing: operations that need more than 1000 slots without a check (refuted: sort() of large items, umkaCall with many parameters), and that compiled programs never use the unlimited stack itself in an undefined way. Stacks smaller than 1017 slots are not covered."
  },
  {
   "property": "C36",
   "status": "partial",
   "theorems": [
    "C36_return",
    "C36_call",
    "C36_host",
    "C36_stack",
    "C36_escape",
    "C36_refuted"
   ],
   "note": "Return to the caller with its frames and operands, and the check on leaving, for any run between entering and leaving a function; the stack in memory represents the frames. Missing: references the machine does not count because they are made in a fiber that is not a descendant (refuted), and pointers below a nested call from host code, which are reported as illegal (refuted)."
  },
  {
   "property": "C37",
   "status": "partial",
   "theorems": [
    "C37_scoping_partial",
    "C37_unique",
    "C37_denotes",
    "C37_closed",
    "C37_closed_branches",
    "C37_private",
    "C37_refuted"
   ],
   "note": "Refinement of the identifier list, block stack and module tables to a stack of scopes, for every program of declarations, blocks, ternaries, imports and lookups; scopes stay unambiguous; blocks are closed. Missing: type aliases of a type not declared yet (refuted: A declared twice is accepted), counters beyond 2^31-1, the warnings for unused identifiers."
  },
  {
   "property": "C38",
   "status": "partial",
   "theorems": [
    "C38_storage_partial",
    "C38_refuted"
   ],
   "note": "Every history of adds, removes, writes and growing reallocations refines a finite map of blocks; the list visits each live block once. Refuted for a reallocation to a smaller size, which reads and writes past the new block (no caller shrinks). malloc is total and addresses are abstract."
  },
  {
   "property": "C39",
   "status": "partial",
   "theorems": [
    "C39_printf_partial",
    "C39_pieces",
    "C39_static",
    "C39_static_run",
    "C39_scanf_partial",
    "C39_scanf_pieces",
    "C39_scanf_static",
    "C39_refuted",
    "C39_word_partial",
    "C39_word_refuted"
   ],
   "note": "typeFormatStringValid, the compile-time check, and the steps of printf and scanf; the splitting and the acceptance are exact for all formats and values. Missing: what the C library prints for integer values narrower than the conversion reads, %v with a length and a width or precision, scanf of integers with length l and of characters with a width, and a word at the end of the source: refuted. The C library itself and the text of the values are not modelled (see C40 for the latter)."
  },
  {
   "property": "C40",
   "status": "partial",
   "theorems": [
    "C40_predict_partial",
    "C40_repr_partial",
    "C40_cstring",
    "C40_sprintf_partial",
    "C40_refuted"
   ],
   "note": "doPrintIndented, doFillReprBuf (over possibly cyclic values), the %v buffer and the building of a string by sprintf. The texts of numbers come from the C library (parameters). Missing: texts longer than INT_MAX, for which the length overflows (refuted), and sprintf results within 1024 bytes of 2^31."
  },
  {
   "property": "C41",
   "status": "partial",
   "theorems": [
    "C41_enum_partial",
    "C41_const_partial",
    "C41_refuted"
   ],
   "note": "Every enumeration and constant group with values inside the range of the base type. Refuted: a uint group wraps after 2^64-1 and is undefined after 2^63-1; explicit enumeration values of the other signedness escape the range check; an enumeration constant called zero is rejected."
  },
  {
   "property": "C42",
   "status": "partial",
   "theorems": [
    "C42_counts",
    "C42_progress",
    "C42_reachable",
    "C42_released",
    "C42_refuted",
    "C42_delete_refuted"
   ],
   "note": "Proved for all programs of declarations, assignments, copies, moves out of temporaries, address-of, conversion to interfaces, allocation of every kind, conversions between arrays and dynamic arrays, copy, slice, append, insert and delete (in place or not) and ends of blocks, over all types (pointers, strings, fibers, arrays, structures, dynamic arrays, maps, interfaces, closures as structures): counts equal references (C42_counts), no operation fails except dropping a busy fiber (C42_progress), nothing reachable is released (C42_reachable), without cycles everything unreachable is released (C42_released). Excluded: a ^void pointer as the last reference to a chunk holding a single reference, for which the claim is false (C42_refuted), and assignment through a pointer to an item place vacated by delete(), which releases a string still in use (C42_delete_refuted); not modelled here: map insertion and deletion; references to stack frames are in CallModel.v, weak pointers and onFree in HeapModel.v."
  },
  {
   "property": "C43",
   "status": "partial",
   "theorems": [
    "C43_calls_partial",
    "C43_refuted"
   ],
   "note": "umkaInit/umkaCompile, umkaRun, umkaCall, the checks of vmCall, the error handlers and exit, with setjmp/longjmp as a jump to a C frame that is undefined once the frame has returned. Any number of calls with any nesting of umkaCall return 0 until the first error, which the outermost call returns with its report. Missing: umkaRun within a call, errors outside all calls and calls after an error: refuted (undefined behaviour, or the outer call returns 0). The documentation forbids calls after an error."
  },
  {
   "property": "C44",
   "status": "partial",
   "theorems": [
    "C44_list_partial",
    "C44_refuted"
   ],
   "note": "Lists of at most 16 items: every item converted and stored in its own field. Refuted: a constant list of 17 items writes one past the buffer before the length is checked."
  },
  {
   "property": "C45",
   "status": "proved",
   "theorems": [
    "C45_accepted",
    "C45_select",
    "C45_type"
   ],
   "note": "Exact set of switches accepted; the branch executed is the one with the constant, or the default. Type switches: the first case whose type is the dynamic type. The compiled code does the same by C32."
  },
  {
   "property": "C46",
   "status": "partial",
   "theorems": [
    "C46_rounding_exact",
    "C46_rounding_out_of_range_refuted"
   ],
   "note": "Exact when the integer fits int; refuted outside: the C cast is undefined and no error is raised."
  },
  {
   "property": "C47",
   "status": "partial",
   "theorems": [
    "C47_operators",
    "C47_identifiers",
    "C47_no_token",
    "C47_refuted"
   ],
   "note": "All operators, identifiers and keywords; refuted: \"0x.\" loses the characters 0x."
  },
  {
   "property": "C48",
   "status": "partial",
   "theorems": [
    "C48_extension",
    "C48_no_extension",
    "C48_split",
    "C48_refuted"
   ],
   "note": "Every path; refuted for a file without extension in a folder with a dot in its name. The buffers are long enough for a regularised path."
  },
  {
   "property": "C49",
   "status": "proved",
   "theorems": [
    "C49_comparable",
    "C49_pointers"
   ],
   "note": "Every type graph the parser can build, with cycles for comparable types and of finite size for references."
  },
  {
   "property": "C50",
   "status": "partial",
   "theorems": [
    "C50_encode",
    "C50_encode_any",
    "C50_decode_encode_partial",
    "C50_decode_encode_refuted",
    "C50_zero_refuted",
    "C50_decode_prefix",
    "C50_decode_rune",
    "C50_strict_refuted"
   ],
   "note": "Proved for all lists of runes 1..0x10FFFF (encode), and for those without U+FFFD (decode of encode). Missing: U+FFFD, at which decoding stops, and the rune 0, which encodes to nothing (both refuted). Overlong forms and surrogates are accepted (C50_strict_refuted)."
  },
  {
   "property": "C51",
   "status": "partial",
   "theorems": [
    "C51_decode_ends_partial",
    "C51_decode_ends_refuted",
    "C51_rune_count"
   ],
   "note": "runeCount counts what decode returns, for all strings. Decoding ends for all strings without a sequence for a code point above 0x10FFFF; with one it loops forever or fails with an index error (C51_decode_ends_refuted)."
  },
  {
   "property": "C52",
   "status": "proved",
   "theorems": [
    "C52_ltrim",
    "C52_rtrim",
    "C52_trim",
    "C52_trim_only",
    "C52_trim_twice"
   ],
   "note": "For all byte strings; the specification determines the result (C52_trim_only)."
  },
  {
   "property": "C53",
   "status": "proved",
   "theorems": [
    "C53_period",
    "C53_range",
    "C53_states",
    "C53_results",
    "C53_srand"
   ],
   "note": "For all nonzero seeds: the step is linear over GF(2), its characteristic polynomial and the prime factors of 2^64-1 are checked by computation. frand is not covered."
  },
  {
   "property": "C54",
   "status": "proved",
   "theorems": [
    "C54_transform",
    "C54_filter",
    "C54_reduce"
   ],
   "note": "For all arrays and callbacks with arbitrary state and errors that keep the array. A null array gives a different error message than an empty one; both are the same outcome in the model."
  },
  {
   "property": "C55",
   "status": "partial",
   "theorems": [
    "C55_assignments_partial",
    "C55_struct_before_call_refuted",
    "C55_struct_compared_with_call_refuted"
   ],
   "note": "Proved for all statements in which a structured operand is not followed by a call in the same list or comparison, and an assigned structure with references is part of a variable. Without these conditions it is false (two refutations, and C56_self_replacement_refuted). The error is only claimed to be the same if structured operands are parts of variables. Strings, maps, interfaces, closures and conversions are not in this model."
  },
  {
   "property": "C56",
   "status": "partial",
   "theorems": [
    "C56_assignment_partial",
    "C56_self_replacement_refuted",
    "C56_place_released_by_call_refuted",
    "C56_place_released_by_list_refuted"
   ],
   "note": "Proved for one assignment in any memory with exact counts (C56_assignment_partial): place reachable from a variable when the assignment is made, assigned structures with references are parts of variables. False in general: refuted for n = n.next^, for a[0] = f() where f empties a, and for a[0], a = 5, b."
  },
  {
   "property": "C57",
   "status": "partial",
   "theorems": [
    "C57_signature_accepted",
    "C57_call_partial",
    "C57_empty_list_rejected",
    "C57_all_given",
    "C57_wrong_count",
    "C57_call_refuted"
   ],
   "note": "Signatures and calls are characterised completely. The call part is false if the result is structured and nothing is given for the variadic parameter (C57_call_refuted, C57_empty_list_rejected). Types, expressions and conversions are abstract."
  },
  {
   "property": "C58",
   "status": "proved",
   "theorems": [
    "C58_declaration",
    "C58_accepted",
    "C58_dispatch",
    "C58_conversion",
    "C58_signatures",
    "C58_assertion"
   ],
   "note": "For all chains of conversions and nested calls. Method lookup, type compatibility and equivalence are parameters (C25 is about equivalence); values that are not pointers are copied to the heap before the conversion, which is not modelled here."
  },
  {
   "property": "C59",
   "status": "partial",
   "theorems": [
    "C59_sequence_partial",
    "C59_items",
    "C59_append",
    "C59_map_partial",
    "C59_entries",
    "C59_never_outside",
    "C59_delete_refuted",
    "C59_map_delete_refuted",
    "C59_index_refuted"
   ],
   "note": "The order and the items are proved for arrays, dynamic arrays, strings and maps and all bodies. That the loop does not fail or change the collection is false: after delete() in the body an array loop fails with an index error, a map loop adds the deleted keys again, and an index set to the largest integer overflows (three refutations). Map keys are integers in this model; reference counts are left out."
  },
  {
   "property": "C60",
   "status": "partial",
   "theorems": [
    "C60_castable",
    "C60_cast_partial",
    "C60_items",
    "C60_number_back",
    "C60_string_back",
    "C60_shares",
    "C60_copies",
    "C60_chars_back_refuted"
   ],
   "note": "Which casts compile, their results and errors, termination and the frame are proved for all types and values of the model. Missing: storing a real in a real32 item rounds it (see C02); pointers, interfaces, closures, expression lists and constant expressions; reference counts. A []char with a zero does not come back from str (refuted)."
  },
  {
   "property": "C61",
   "status": "partial",
   "theorems": [
    "C61_call_exact",
    "C61_program_exact",
    "C61_safe_partial",
    "C61_call_safe_partial",
    "C61_careless_refuted"
   ],
   "note": "That references balance on every path is proved for all programs of the model. That nothing is used after its release is proved for programs where no global is the left operand of a concatenation whose right operand calls a function; without that it is refuted. Missing: structured values, pointers to variables, closures, switches and for-in loops."
  },
  {
   "property": "C62",
   "status": "partial",
   "theorems": [
    "C62_source_deterministic",
    "C62_call_says",
    "C62_program_says",
    "C62_program_meaning_partial",
    "C62_call_ends",
    "C62_careless_refuted"
   ],
   "note": "That whatever the machine comes to is what the source says is proved for all programs of the model. That it comes to an end whenever the source does is proved for programs where no global is the left operand of a concatenation whose right operand calls a function; without that it is refuted. Missing: structured values, pointers, closures, switches, for-in loops, run-time errors and the limits of stack and memory."
  },
  {
   "property": "C63",
   "status": "partial",
   "theorems": [
    "C63_write_then_readall",
    "C63_readall_whole",
    "C63_read",
    "C63_write",
    "C63_seek_tell_partial",
    "C63_seek_tell_refuted",
    "C63_no_bad_call_partial",
    "C63_careless_refuted",
    "C63_closed_refuses",
    "C63_close_closes",
    "C63_drop_closes",
    "C63_drop_std",
    "C63_values",
    "C63_sandbox"
   ],
   "note": "Reading, writing, freadall, refusal of closed files and the sandbox are proved in full over a model of the C library without buffering. fseek is exact for offsets an int holds (refuted beyond); misuse of the C library is excluded for scripts that pass no null names, leave the standard streams open and open no file both ways (refuted for each). Missing: buffering seen through a second stream, fscanf, system()."
  },
  {
   "property": "C64",
   "status": "partial",
   "theorems": [
    "C64_bytes_roundtrip_partial",
    "C64_empty_value_refuted",
    "C64_time_roundtrip",
    "C64_datetime_roundtrip",
    "C64_time_refuted"
   ],
   "note": "Proved except for values of no size, where tobytes stops with an index error, and for times or fields beyond int, where the code is undefined or wraps (both refuted)."
  },
  {
   "property": "C65",
   "status": "partial",
   "theorems": [
    "C65_call_stack_partial",
    "C65_chain",
    "C65_traces",
    "C65_refuted"
   ],
   "note": "Proved over the machine of C35/C36 for every reachable state whose instructions have debug entries. Missing, and refuted: callers above a call by host code or the start of a fiber are not listed, a function that overflows the stack on entry hides its caller, and after a call by the host has returned the debug table is read before its start."
  },
  {
   "property": "C66",
   "status": "partial",
   "theorems": [
    "C66_closures_partial",
    "C66_captured",
    "C66_own_copy",
    "C66_null",
    "C66_counter_refuted"
   ],
   "note": "Proved for programs whose variables are integers and closures: compiled code agrees with a semantics in which closures hold values. Missing: captured variables of other types, reference counting of what was captured (C42), programs with overflow or a missing return. A counter kept in a captured variable does not count (C66_counter_refuted), since each call starts with the values captured."
  },
  {
   "property": "C67",
   "status": "proved",
   "theorems": [
    "C67_grouping",
    "C67_prefix",
    "C67_unambiguous",
    "C67_printed",
    "C67_last_applied",
    "C67_last_split",
    "C67_conditional",
    "C67_no_chain",
    "C67_ends"
   ],
   "note": "The tree in whose order code is generated. Run-time expressions only; in constant ones the right operand of && and || is not read when the left one decides (C33). Types, hence the errors they raise, and designators that begin with a type are not modelled."
  },
  {
   "property": "C68",
   "status": "partial",
   "theorems": [
    "C68_compiles",
    "C68_once",
    "C68_order",
    "C68_names",
    "C68_ends",
    "C68_added_text_refuted"
   ],
   "note": "Proved for programs in which every import of a path with an added text finds it in the current folder. Otherwise refuted (C68_added_text_refuted): an added text is looked up relative to the current folder only, while files are looked up relative to the importing module. Texts are reduced to their imports; how paths are normalised is C30, how names are cut off is C48."
  },
  {
   "property": "C69",
   "status": "partial",
   "theorems": [
    "C69_accepts",
    "C69_values_partial",
    "C69_dynarray_refuted",
    "C69_map_last"
   ],
   "note": "Proved for all literals except those of a dynamic array in which a structured variable stands as an item before an item that assigns it; there the claim is refuted (C69_dynarray_refuted): the variable appears with its new value. Cells instead of bytes (C22), one scalar type, no implicit conversions of items (C60), no constants, no reference counts (C42)."
  },
  {
   "property": "C70",
   "status": "partial",
   "theorems": [
    "C70_accepts",
    "C70_calls_partial",
    "C70_repeated_prototype_refuted"
   ],
   "note": "Acceptance is proved in full. Calls are proved for modules in which no function has two prototypes; with a repeated prototype the claim is refuted (C70_repeated_prototype_refuted): the stub of the first one is never patched. Bodies are lists of calls; frames and parameters are in C36, C57, C62. One module; signatures are compared as numbers."
  },
  {
   "property": "C71",
   "status": "partial",
   "theorems": [
    "C71_sound",
    "C71_meaning_partial",
    "C71_accepts_partial",
    "C71_results_partial",
    "C71_result_refuted",
    "C71_duplicate_refuted"
   ],
   "note": "Soundness of all types is proved for every declaration. Meaning is proved for declarations in which no item is just a name that is still undeclared; acceptance also needs arrays of positive length and forward result types that are structured. Without these the claims are refuted: a function may get a place for a plain result (C71_result_refuted), and a name may be declared twice (C71_duplicate_refuted). No enumerations, interfaces and fibers; one module."
  },
  {
   "property": "C72",
   "status": "partial",
   "theorems": [
    "C72_short_partial",
    "C72_cut_partial",
    "C72_ends_partial",
    "C72_buffer_refuted",
    "C72_ends_refuted"
   ],
   "note": "Texts of up to 255 characters are exact; longer ones are cut to 255, except exactly if a pointer or dynamic array with too long a text is met, when the buffer overflows (C72_buffer_refuted). Types that are not parameters, results, keys or list parts of themselves have a text at every depth; local recursive function types are spelled forever (C72_ends_refuted)."
  },
  {
   "property": "C73",
   "status": "partial",
   "theorems": [
    "C73_accepted",
    "C73_done",
    "C73_reading_unique",
    "C73_rejected",
    "C73_integers_compare_partial",
    "C73_integers_compute_partial",
    "C73_mirror_partial",
    "C73_signs_refuted",
    "C73_real_refuted",
    "C73_texts_join",
    "C73_texts_compare",
    "C73_constants",
    "C73_short",
    "C73_short_rejected"
   ],
   "note": "Acceptance, the type of the operator, reading of both operands, texts, constants and short assignments are proved in full. Integers of different signedness are compared and computed by value only if the right one is not negative as a slot, and the mirror law needs both not negative: the left type decides (C73_signs_refuted). Integers that are not exact as reals are equal to other reals (C73_real_refuted). Comparison of arrays and structures is a parameter (C06); conversions to interfaces and closures always end in a rejection."
  },
  {
   "property": "C74",
   "status": "partial",
   "theorems": [
    "C74_listing_exists",
    "C74_text",
    "C74_too_long",
    "C74_last_newline_refuted"
   ],
   "note": "The text returned is the listing without its last newline, for every complete program: the second pass is given one byte too few, so the whole listing is never returned (C74_last_newline_refuted). Everything else is proved in full. The printed forms of numbers and pointers are parameters without zero bytes; listings of INT_MAX bytes and more overflow an int and are not covered."
  },
  {
   "property": "C75",
   "status": "partial",
   "theorems": [
    "C75_report",
    "C75_silent",
    "C75_places",
    "C75_references",
    "C75_at_the_end",
    "C75_once_refuted"
   ],
   "note": "Proved for all histories of the heap of C17-C21, with the types and instructions of allocations added. A place is named once for each page, so it may be named more than once (C75_once_refuted). Types and names are compared by address, as in the code; their texts are not modelled here. Allocations are assumed to be made at instructions of the program."
  },
  {
   "property": "C76",
   "status": "partial",
   "theorems": [
    "C76_add",
    "C76_main",
    "C76_import",
    "C76_file",
    "C76_main_file",
    "C76_error",
    "C76_resolution",
    "C76_bound",
    "C76_once",
    "C76_sandbox",
    "C76_long_refuted"
   ],
   "note": "Proved for all histories. Registered names are cut to 255 characters but looked up in full, so longer ones can be added twice (C76_long_refuted); the theorems about names assume shorter ones, C76_sandbox does not. Modules are compiled in one step each, in the order in which they end; the paths are those of C30. Prototypes are given by name; the code of the stubs is not modelled."
  },
  {
   "property": "C77",
   "status": "partial",
   "theorems": [
    "C77_accept",
    "C77_meaning",
    "C77_run",
    "C77_const_partial",
    "C77_sizeof_refuted"
   ],
   "note": "Proved for all calls and states. False of the code: sizeof of an expression in a constant expression generates a pop without a push (C77_sizeof_refuted), so C77_const_partial excepts it. Values are symbolic: what the functions compute is in other models. Reference counting, the variables that keep results alive and run-time errors other than exit() are left out; which conversions and formats are allowed are parameters that reject void."
  },
  {
   "property": "C78",
   "status": "partial",
   "theorems": [
    "C78_release_partial",
    "C78_counted_partial",
    "C78_param_partial",
    "C78_param_refuted",
    "C78_dec_refuted",
    "C78_inc_refuted",
    "C78_params",
    "C78_upvalue_refuted"
   ],
   "note": "Proved for callbacks that only read their parameter (C78_release_partial, C78_counted_partial), and for the parameter read before the first umkaDecRef of a callback (C78_param_partial). False of the code for others: umkaDecRef or umkaIncRef in a callback drops the pending releases (C78_dec_refuted, C78_inc_refuted), a nested callback overwrites the parameter (C78_param_refuted), and umkaGetUpvalue reaches behind the buffer (C78_upvalue_refuted). Blocks are numbers with fixed lists of pointers; pages, interior pointers, fibers and weak pointers are in other models."
  },
  {
   "property": "C79",
   "status": "proved",
   "theorems": [
    "C79_params",
    "C79_accept",
    "C79_callback",
    "C79_types",
    "C79_maps"
   ],
   "note": "Sizes of parameters are given in slots (for bytes and overflow see C23). Interfaces, functions and enumerations are types that exist already; names of parameters and lengths of arrays are left out; fields declared together have types of their own."
  },
  {
   "property": "C80",
   "status": "partial",
   "theorems": [
    "C80_decl",
    "C80_for",
    "C80_denotes",
    "C80_value",
    "C80_assign_partial",
    "C80_list_partial",
    "C80_incdec_partial",
    "C80_assign_refuted",
    "C80_incdec_refuted"
   ],
   "note": "Refuted by the code: a cast to a structured type may be assigned to (C80_assign_refuted), and a value that is a pointer to an integer, such as the result of a call, may be incremented (C80_incdec_refuted); C80_assign_partial, C80_list_partial and C80_incdec_partial say exactly what is accepted. Left out: the right side (see the properties on conversions), enumerations, interfaces, fibers, integers other than int, the code generated."
  },
  {
   "property": "C81",
   "status": "proved",
   "theorems": [
    "C81_names",
    "C81_safe",
    "C81_many",
    "C81_decl"
   ],
   "note": "A type is one token. Initialisers and the making of the variables are not in this model (see C24, C37 and C55). That names have at most 255 bytes is a hypothesis, which the check of the lexer gives (umka_lexer.c:320)."
  },
  {
   "property": "C82",
   "status": "partial",
   "theorems": [
    "C82_nested_partial",
    "C82_single_partial",
    "C82_nested_refuted",
    "C82_line"
   ],
   "note": "Refuted with several fibers: the hooks are not told which fiber calls, and what they are told is not nested (C82_nested_refuted); it is for each fiber by itself (C82_nested_partial) and with one fiber (C82_single_partial). That code has the shape the compiler gives it (compiled) is a hypothesis; C82_line proves it of the first and last instructions of a function without functions in its body. Left out: errors that end a run, hooks set during a run, calls from C back into the program, functions of C."
  }
 ]
}