{
 "claims": [
  {
   "property": "C01",
   "status": "proved",
   "theorems": [
    "C01_cx_queue_fifo",
    "C01_no_capacity"
   ],
   "note": "Refinement to a bounded FIFO list for every capacity (C01_no_capacity: 0 too), policy, handler and history."
  },
  {
   "property": "C02",
   "status": "proved",
   "theorems": [
    "C02_cx_queue_panics_exactly",
    "C02_returning_handler_overflow_corrupts",
    "C02_returning_handler_underflow_corrupts",
    "C02_no_capacity"
   ],
   "note": "With a non-returning handler panics are exact and leave the queue unchanged. FINDING: with the default handler (which returns) overflow/underflow corrupts the queue; proved for every history."
  },
  {
   "property": "C03",
   "status": "proved",
   "theorems": [
    "C03_cx_vector_is_list",
    "C03_cx_vector_equality",
    "C03_cx_vector_overflow_is_undefined",
    "C03_overwrite_with_any_callback",
    "C03_overwrite_unchecked"
   ],
   "note": "Refinement to a plain list for every capacity, initial contents and history; equality depends on contents only. resize_and_overwrite takes any callback that reads and writes elements and returns a size or throws (C03_overwrite_with_any_callback); the size it returns is not checked (C03_overwrite_unchecked). Over/underflow is undefined behaviour (no check in the code)."
  },
  {
   "property": "C04",
   "status": "proved",
   "theorems": [
    "C04_cx_map_is_map",
    "C04_constructor_with_duplicates_refuted"
   ],
   "note": "Every history within capacity conforms to a finite map; from constructors with distinct keys. FINDING: the constructor does not reject or merge duplicate keys."
  },
  {
   "property": "C05",
   "status": "proved",
   "theorems": [
    "C05_cx_set_is_set",
    "C05_constructor_with_duplicates_refuted"
   ],
   "note": "Every history within capacity conforms to a mathematical set. FINDING: the constructor does not de-duplicate; an erased value can still be contained."
  },
  {
   "property": "C06",
   "status": "proved",
   "theorems": [
    "C06_cx_multimap_is_multimap"
   ],
   "note": "Every history within capacity conforms to a finite map from keys to sets, including in-place modification through get(k)."
  },
  {
   "property": "C49",
   "status": "partial",
   "theorems": [
    "C05_cx_set_is_set",
    "C04_cx_map_is_map",
    "C06_erase_zero_changes_nothing_refuted"
   ],
   "note": "Holds for cx_set and cx_map (part of the conformance theorems). FALSE for cx_multimap: erase(k,v) on a key with an empty value set removes the key and returns 0 (refutation theorem)."
  },
  {
   "property": "C07",
   "status": "partial",
   "theorems": [
    "C07_rollover_operators_mod_2w",
    "C07_rollover_expressions_mod_2w",
    "C07_rollover_equality_is_congruence",
    "C07_rollover_multiply_undefined_iff",
    "C07_rollover_u16_multiply_refuted",
    "C07_bool_refuted"
   ],
   "note": "All operators and whole expressions are modular for every width, except that multiplication of types narrower than int is undefined exactly when the product exceeds INT_MAX. FINDING: rollover_t<uint16_t> * is undefined for e.g. 65535*65535 on 32-bit-int platforms, so the full statement is false for that type; rollover_t<bool> compiles, but 1 + 1 is 1."
  },
  {
   "property": "C08",
   "status": "proved",
   "theorems": [
    "C08_cmp_less_is_half_cycle_before",
    "C08_cmp_less_orders_half_windows",
    "C08_cmp_less_shift_invariant",
    "C08_cmp_less_trichotomy_except_opposite"
   ],
   "note": "Exact characterisation for every width."
  },
  {
   "property": "C09",
   "status": "partial",
   "theorems": [
    "C09_saturate_cast_clamps_partial",
    "C09_unsigned_to_narrower_signed_refuted",
    "C09_negative_to_wider_unsigned_refuted"
   ],
   "note": "Proved for every pair of integer types outside two families; FINDING: for both families the code is proved wrong (undefined behaviour for every input, resp. wrapping for every negative input)."
  },
  {
   "property": "C10",
   "status": "proved",
   "theorems": [
    "C10_checked_list_is_plain_list",
    "C11_list_any_memory_partial"
   ],
   "note": "Refinement of the pointer structure to a plain list of node identities, for every number of nodes and every history; links of all nodes (in the list or not) are part of the observable outputs."
  },
  {
   "property": "C11",
   "status": "partial",
   "theorems": [
    "C11_list_any_memory_partial",
    "C11_insert_at_end_keeps_stale_next_refuted"
   ],
   "note": "Proved for both policies and arbitrary initial link values, except insert at end() of a node whose stale next is not null. FINDING: there the code leaves the stale next in the last node (proved for every such history), so the statement is false for that case."
  },
  {
   "property": "C12",
   "status": "partial",
   "theorems": [
    "C12_panics_on_linked_node_partial",
    "C12_sole_node_undetected_refuted",
    "C12_forward_list_panics_partial",
    "C12_forward_list_last_node_undetected_refuted",
    "C12_returning_handler",
    "C12_forward_returning_handler"
   ],
   "note": "Exact characterisation of when the check fires. A panic handler that returns does not stop the insertion: it goes on as with the unchecked policy. FINDING: re-inserting the only node of a list (or, for the forward list, the last node) is not detected and makes iteration endless; proved for every history."
  },
  {
   "property": "C13",
   "status": "proved",
   "theorems": [
    "C13_forward_list_is_sequence"
   ],
   "note": "Refinement to a sequence for both policies and arbitrary initial next pointers."
  },
  {
   "property": "C22",
   "status": "proved",
   "theorems": [
    "C22_byteswap_reverses_bytes",
    "C22_byteswap_involutive",
    "C22_endian_round_trips",
    "C22_to_be_bytes_msb_first",
    "C22_to_le_bytes_lsb_first"
   ],
   "note": "Widths 8, 16, 32 and 64, both machine endiannesses, every value."
  },
  {
   "property": "C23",
   "status": "partial",
   "theorems": [
    "C23_bit_unpack_gives_digits_msb_first",
    "C23_bit_pack_then_unpack",
    "C23_bit_unpack_then_pack",
    "C23_bit_pack_integers",
    "C23_wide_arguments_refuted"
   ],
   "note": "All six overload shapes, both endiannesses, every value; bit_pack takes any list of integers, and the combinations of width and number of arguments that compile are exactly these. FINDING: the overload is chosen by the number of arguments alone, so an argument that does not fit its parameter is accepted and cut: bit_unpack(bit_pack(a...)) is then not a..., for every such list."
  },
  {
   "property": "C24",
   "status": "proved",
   "theorems": [
    "C24_bit_mask_exact"
   ],
   "note": "Every word width and every nesting of non-empty arrays."
  },
  {
   "property": "C25",
   "status": "proved",
   "theorems": [
    "C25_bit_destructure_slices",
    "C25_bit_destructure_rejects_unordered_offsets"
   ],
   "note": "Every width and every list of offsets."
  },
  {
   "property": "C26",
   "status": "partial",
   "theorems": [
    "C26_counting",
    "C26_has_single_bit",
    "C26_bit_width",
    "C26_rotation_partial",
    "C26_rotation_by_width_or_more_refuted",
    "C26_rotation_by_int_min_refuted",
    "C26_bit_floor_partial",
    "C26_bit_floor_zero",
    "C26_bit_ceil_partial",
    "C26_bit_floor_wide_refuted",
    "C26_bit_ceil_wide_refuted"
   ],
   "note": "Fallback implementations (used when the standard library lacks <bit>): counting, has_single_bit and bit_width are right for every width and value. FINDING: bit_floor/bit_ceil shift 1U, so they are undefined for every 64-bit value above 2^32 (2^31 for bit_ceil); rotl/rotr are undefined for amounts of at least the width, and for INT_MIN, where std:: defines them. All proved universally."
  },
  {
   "property": "C14",
   "status": "partial",
   "theorems": [
    "C14_bitset_is_index_set_partial",
    "C14_bitset_is_index_set_tidy_partial",
    "C14_bitset_is_index_set_whole_words",
    "C14_no_bits",
    "C14_storage_above_N_observable_refuted",
    "C14_set_zero_length_refuted"
   ],
   "note": "Refinement to N booleans for every size, word width and program over any number of bitsets. Full (all calls) when N is a multiple of the word size; otherwise either without >>=, lowest_unset and transform_reduce, or without the calls that leave bits above N. FINDING: set()/flip()/~/<<= leave bits above N set and >>=, lowest_unset and transform_reduce observe them, so the full statement is false for every other N. set(lsb, length 0) is undefined at word boundaries. bitset<0> (C14_no_bits): every call acts on the empty set; naming a bit, for_each and the integer constructor over 64-bit words are undefined."
  },
  {
   "property": "C15",
   "status": "partial",
   "theorems": [
    "C15_shift_left",
    "C15_shift_right_tidy_partial",
    "C15_shift_right_exact",
    "C15_shift_left_by_capacity_refuted",
    "C15_shift_right_by_capacity_refuted",
    "C15_shift_right_far_refuted",
    "C14_storage_above_N_observable_refuted"
   ],
   "note": "<< proved for every storage and shift below the capacity; >> for storages with no bit above N, with the exact behaviour of the rest. FINDING: >> shifts stray bits in; shifts by the capacity or more are undefined (<<) or wrong (>>)."
  },
  {
   "property": "C16",
   "status": "partial",
   "theorems": [
    "C16_lowest_unset_tidy_partial",
    "C16_transform_reduce_tidy_partial",
    "C16_equal_bitsets_differ_refuted",
    "C16_transform_reduce_visits_above_N_refuted"
   ],
   "note": "Proved for storages with no bit above N. FINDING: after set(), flip(), ~ or <<= two equal bitsets give different answers and transform_reduce visits indices above N, for every N that is not a multiple of the word size."
  },
  {
   "property": "C17",
   "status": "partial",
   "theorems": [
    "C17_from_integer",
    "C17_to_integer",
    "C17_to_natural_partial",
    "C17_to_enum_partial",
    "C17_to_narrower_integer_refuted",
    "C17_to_natural_refuted",
    "C17_to_scoped_enum_refuted",
    "C17_integer_round_trip",
    "C17_place_bits",
    "C17_all_bits",
    "C17_from_string",
    "C17_from_integer_other_64_bit_refuted"
   ],
   "note": "Every size, word width, value, list and string. FINDING: with a 64-bit word type that is not std::uint64_t the integer constructor is undefined for every non-zero value (excluded by a hypothesis). FINDINGS: to_natural does not compile if the word type is wider than the narrowest type for N, nor does to<T>() for a T narrower than the word type; to<T>() for a scoped enumeration compiles only if its underlying type is the word type."
  },
  {
   "property": "C18",
   "status": "proved",
   "theorems": [
    "C18_for_each_exact",
    "C18_for_each_empty_bitset_refuted"
   ],
   "note": "All three iterations, every size above 0 and every storage. FINDING: for bitset<0> for_each is undefined."
  },
  {
   "property": "C19",
   "status": "partial",
   "theorems": [
    "C19_set_types_partial",
    "C19_reset_types_partial",
    "C19_flip_types_partial",
    "C19_from_type_list",
    "C19_for_each_types",
    "C19_all_types",
    "C19_new",
    "C19_operators",
    "C19_questions",
    "C19_for_each_unset",
    "C19_unknown_types_partial",
    "C19_duplicates_refuted",
    "C19_set_false_refuted",
    "C19_for_each_bit_refuted",
    "C19_unknown_types_refuted",
    "C19_listed_rejected_refuted",
    "C19_convert_refuted"
   ],
   "note": "Proved for every type list without duplicates (the constructor, for_each and the calls without types also with). FINDING (C19_set_false_refuted): set(false) without types ignores its argument and sets every type. FINDING: set/reset/flip look types up in the list with duplicates while operator[] uses the de-duplicated one, so with a duplicate before T set<T>() sets another type's bit or does not compile; operator[] then compiles for types that are not in the list. for_each<bit> never compiles. A type_bitset made from one over other types has all of them set, whatever was set there."
  },
  {
   "property": "C20",
   "status": "proved",
   "theorems": [
    "C20_linearizable",
    "C20_program_order",
    "C20_wait_free",
    "C20_test_and_set",
    "C20_constructors"
   ],
   "note": "Every platform, size up to the word, word width, schedule, number of threads and program of all 21 member calls. The external ::atomic primitives are assumed indivisible and sequentially consistent (default memory order)."
  },
  {
   "property": "C21",
   "status": "partial",
   "theorems": [
    "C21_linearizable",
    "C21_wait_free",
    "C21_sum",
    "C21_increments",
    "C21_constructors",
    "C21_linearizable_defined",
    "C21_signed_counter",
    "C21_signed_exactly",
    "C21_signed_sum_refuted"
   ],
   "note": "Every integral width, element type at least as wide, schedule and program. For a signed T as wide as int or wider the calls += -= ++ -- are defined exactly if the sum fits (C21_signed_exactly); runs in which all do are linearizable (C21_linearizable_defined), and counters that cannot leave the range never overflow (C21_signed_counter). FINDING: for those types the returned sum overflows (undefined behaviour) where std::atomic wraps."
  },
  {
   "property": "C27",
   "status": "partial",
   "theorems": [
    "C27_cursors",
    "C27_stream_round_trip",
    "C27_align_partial",
    "C27_nth_alignment",
    "C27_next_multiple_unique",
    "C27_align_other_sizes_refuted"
   ],
   "note": "Every array, byte order, address width and program over any number of byterators. FINDING: advance_to_alignment masks with sizeof(V)-1, so it is only right when sizeof(V) is a power of two; refuted for every other size."
  },
  {
   "property": "C28",
   "status": "proved",
   "theorems": [
    "C28_windows",
    "C28_narrowing",
    "C28_static_checked",
    "C28_subspan_compose",
    "C28_as_bytes",
    "C28_static_conversion_unchecked_refuted",
    "C28_default",
    "C28_default_refuted"
   ],
   "note": "Every array, span program and chain of narrowings within preconditions, and spans made from nothing. FINDING: span<T, N>{} with N > 0 compiles, has size N and no elements. FINDING: converting a static span to a larger static extent compiles without a diagnostic and reaches outside the array (excluded by a precondition)."
  },
  {
   "property": "C29",
   "status": "partial",
   "theorems": [
    "C29_sized_partial",
    "C29_sized_other_refuted",
    "C29_is_aligned_with",
    "C29_literals",
    "C29_overflow_refuted"
   ],
   "note": "Exact when sizeof(T) <= sizeof(U) or sizeof(U) divides sizeof(T) and no size_t overflow. FINDING: otherwise one too many whenever the byte count divides evenly (e.g. zero objects give one); sizes that do not fit into std::size_t give too few (C29_overflow_refuted)."
  },
  {
   "property": "C30",
   "status": "partial",
   "theorems": [
    "C30_for_each",
    "C30_for_each_n",
    "C30_transform",
    "C30_transform_n",
    "C30_transform_values",
    "C30_butlastn",
    "C30_butlast",
    "C30_butlastn_negative_refuted",
    "C30_initial_medial_final"
   ],
   "note": "Every world, operation (stateful, mutating its arguments), number of ranges, length and count. FINDING: with a negative count (or an unsigned one of 2^63 and more) for_each_butlastn depends on the iterator category: forward iterators visit everything, random access iterators run past the end. For iterators associated with namespace std see C132."
  },
  {
   "property": "C31",
   "status": "proved",
   "theorems": [
    "C31_transform_reduce",
    "C31_transform_reduce_n",
    "C31_left_fold",
    "C31_negative_count_refuted"
   ],
   "note": "Every length, number of ranges and pair of (stateful) operations, counts from 0. FINDING: transform_reduce_n tests n-- != 0, so a negative count runs past the end where the other _n algorithms do nothing."
  },
  {
   "property": "C47",
   "status": "partial",
   "theorems": [
    "C47_increment",
    "C47_decrement",
    "C47_difference",
    "C47_difference_back",
    "C47_order_partial",
    "C47_unsigned_difference_refuted",
    "C47_loop"
   ],
   "note": "Every integral type, int width, value and offset that stays in range. FINDING: for unsigned types as wide as int the difference type is unsigned, so no distance is negative."
  },
  {
   "property": "C32",
   "status": "partial",
   "theorems": [
    "C32_concat",
    "C32_concat_monoid",
    "C32_characters",
    "C32_from_pointer",
    "C32_split",
    "C32_split_absent",
    "C32_split_nul_refuted",
    "C32_types"
   ],
   "note": "Every string with embedded NULs. FINDING (C32_split_nul_refuted): split at NUL looks at the terminator too, so for a string without an embedded NUL it is not (S, \"\") but does not compile."
  },
  {
   "property": "C33",
   "status": "proved",
   "theorems": [
    "C33_literal",
    "C33_overflow_refuted",
    "C33_rejects",
    "C33_units",
    "C33_units_overflow_refuted",
    "C33_constants"
   ],
   "note": "All four bases, separators and cases, every width. FINDING (C33_overflow_refuted, C33_units_overflow_refuted): a literal that does not fit compiles silently to its value modulo 2^w."
  },
  {
   "property": "C34",
   "status": "partial",
   "theorems": [
    "C34_lossless",
    "C34_pieces",
    "C34_cut",
    "C34_format",
    "C34_freestanding",
    "C34_arity",
    "C34_nested_refuted"
   ],
   "note": "C34_lossless is for every string, C34_pieces for every well-formed format string, C34_format for every formatter that leaves literal text as is; the freestanding formatter is shown to be one ({fmt} itself is not modelled). FINDING (C34_nested_refuted): braces nested in a specifier are counted but not split, and no arguments compile."
  },
  {
   "property": "C35",
   "status": "partial",
   "theorems": [
    "C35_named",
    "C35_named_order",
    "C35_concatenation",
    "C35_escape_refuted"
   ],
   "note": "For every formatter that leaves literal text as is, nested results included. FINDING (C35_escape_refuted): with a formatter that undoes {{ the recorded span of a compile-time argument is off by the number of escapes before it."
  },
  {
   "property": "C36",
   "status": "partial",
   "theorems": [
    "C36_format",
    "C36_numerals",
    "C36_refuses",
    "C36_bool_refuted",
    "C36_nul_refuted"
   ],
   "note": "Every integer of every width from 8 bits, characters, ranges and C strings, both bases. FINDINGS: true is never formatted (the loop divides by static_cast<bool>(10)); a NUL after the specifier truncates the literal text while formatted_size counts it."
  },
  {
   "property": "C37",
   "status": "partial",
   "theorems": [
    "C37_call_by_need",
    "C37_choice",
    "C37_no_choice",
    "C37_lvalue_refuted"
   ],
   "note": "Every invocability relation and effectful functions. FINDING (C37_lvalue_refuted): with a non-empty lvalue tuple of functions no function is ever called: tuple_size_v of a reference type is 0, so either nothing compiles or a sole argument comes back uncalled."
  },
  {
   "property": "C38",
   "status": "proved",
   "theorems": [
    "C38_tuple_cat",
    "C38_apply",
    "C38_cons_snoc_tail",
    "C38_folds",
    "C38_fold_right_documented_refuted",
    "C38_join"
   ],
   "note": "Every arity; the folds with effectful functions. FINDING: the documentation has the initial value of fold_right at the left, (0 + (1 + (2 + 3))); it is combined with the last element."
  },
  {
   "property": "C39",
   "status": "proved",
   "theorems": [
    "C39_filter",
    "C39_chunk_by",
    "C39_chunks_unique",
    "C39_unique"
   ],
   "note": "Every tuple, predicate and projection."
  },
  {
   "property": "C40",
   "status": "partial",
   "theorems": [
    "C40_sort",
    "C40_gather_by",
    "C40_to_sorted_set",
    "C40_to_unsorted_set",
    "C40_names_refuted"
   ],
   "note": "Every sorting function meeting std::sort's contract. gather_by and to_sorted_set are proved for types with distinct names; FINDING (C40_names_refuted): two types with the same name can split a group and leave duplicates in the set."
  },
  {
   "property": "C41",
   "status": "proved",
   "theorems": [
    "C41_cartesian_product",
    "C41_lexicographic"
   ],
   "note": "Every number and sizes of tuples. For elements of types of namespace std see C132."
  },
  {
   "property": "C42",
   "status": "proved",
   "theorems": [
    "C42_equality",
    "C42_ordering",
    "C42_ordering_unique",
    "C42_sizes",
    "C42_one_of"
   ],
   "note": "Every length, element equality and (partial) ordering; the operators of tuple_impl are not for tuples of different sizes (what overload resolution finds instead is C130)."
  },
  {
   "property": "C50",
   "status": "proved",
   "theorems": [
    "C50_transform",
    "C50_for_each",
    "C50_enumerate",
    "C50_all_any_none",
    "C50_rows_unique"
   ],
   "note": "Every number and sizes of tuples and every effectful function."
  },
  {
   "property": "C51",
   "status": "proved",
   "theorems": [
    "C51_get_by_type",
    "C51_contains_type"
   ],
   "note": "Every tuple, index functions and type."
  },
  {
   "property": "C43",
   "status": "proved",
   "theorems": [
    "C43_query",
    "C43_query_default",
    "C43_make",
    "C43_extend",
    "C43_append",
    "C43_append_handmade_refuted",
    "C43_odd_arguments_dropped",
    "C43_derived_query_refuted"
   ],
   "note": "Queries on every environment, nested and hand-made ones included; extend and append for every environment built with the library. FINDINGS: appending a hand-made environment that repeats a query changes its answer (C43_append_handmade_refuted); an odd argument of make_env_t/extend_env_t is silently dropped; a query whose type is derived from another's is answered by the other's property if that comes first."
  },
  {
   "property": "C44",
   "status": "partial",
   "theorems": [
    "C44_construct",
    "C44_history",
    "C44_observers",
    "C44_transform",
    "C44_and_then",
    "C44_or_else",
    "C44_transform_all",
    "C44_functor",
    "C44_monad",
    "C44_applicative",
    "C44_equal",
    "C44_less",
    "C44_less_equal",
    "C44_unordered_refuted",
    "C44_emplace_throws_refuted",
    "C44_tombstone_result_refuted"
   ],
   "note": "Every value type, tombstone, history and effectful function. FINDINGS: emplace with a throwing constructor leaves a destroyed object (std::optional is empty); <= and >= of values that do not compare (NaN) are both true; value() of an empty optional gives the tombstone instead of throwing; a function that gives the tombstone gives an empty optional, so that two transforms differ from the transform of the composition."
  },
  {
   "property": "C45",
   "status": "proved",
   "theorems": [
    "C45_history",
    "C45_at_most_once",
    "C45_same_value"
   ],
   "note": "Every history of accesses, resets and refreshes and every sequence of values and throws, for functions that do not use the object themselves."
  },
  {
   "property": "C46",
   "status": "proved",
   "theorems": [
    "C46_batches",
    "C46_batches_unique",
    "C46_uneven",
    "C46_bind"
   ],
   "note": "Every number of arguments and batch size, effectful functions."
  },
  {
   "property": "C48",
   "status": "proved",
   "theorems": [
    "C48_lookup",
    "C48_missing",
    "C48_reverse",
    "C48_value",
    "C48_two_values",
    "C48_repeated"
   ],
   "note": "Every map. FINDING (C48_two_values): a key with two different values compiles and looks up as absent."
  },
  {
   "property": "C52",
   "status": "partial",
   "theorems": [
    "C52_type_as_string_partial",
    "C52_names_with_equals_refuted"
   ],
   "note": "Every name without '=' on both compilers, given the shape of __PRETTY_FUNCTION__ stated in CtConvSpec. FINDING (C52_names_with_equals_refuted): a name containing '=' (GCC's local types of function templates) is cut after the last '=', so different types can share a string."
  },
  {
   "property": "C53",
   "status": "partial",
   "theorems": [
    "C53_enumerator_name_partial",
    "C53_cast_value",
    "C53_const_member_local_refuted"
   ],
   "note": "Every qualifier whose last ')' is followed by ':', and every cast expression. FINDING: an enumerator of an enumeration local to a const member function comes out fully qualified."
  },
  {
   "property": "C54",
   "status": "partial",
   "theorems": [
    "C54_same_template_partial",
    "C54_member_templates_refuted"
   ],
   "note": "Every pair of templates that are not members of class templates. FINDING: member templates of the same outer class template all count as the same template."
  },
  {
   "property": "C55",
   "status": "partial",
   "theorems": [
    "C55_forward_like_partial",
    "C55_lvalue_argument_refuted"
   ],
   "note": "Every combination except an lvalue argument with a non-const T that is not an lvalue reference. FINDING: there the result is an lvalue, where std::forward_like moves."
  },
  {
   "property": "C56",
   "status": "proved",
   "theorems": [
    "C56_sign_conversions",
    "C56_bool_rejected"
   ],
   "note": "Every width and value."
  },
  {
   "property": "C57",
   "status": "proved",
   "theorems": [
    "C57_is_aligned_with"
   ],
   "note": "Every power-of-two alignment up to the pointer width and every integer."
  },
  {
   "property": "C58",
   "status": "proved",
   "theorems": [
    "C58_smallest_uint",
    "C58_bit_size"
   ],
   "note": "Every N up to 64; larger N silently gives 64 bits."
  },
  {
   "property": "C59",
   "status": "proved",
   "theorems": [
    "C59_arity",
    "C59_no_arity"
   ],
   "note": "Every callable, given which argument counts it accepts."
  },
  {
   "property": "C60",
   "status": "partial",
   "theorems": [
    "C60_map",
    "C60_map_none",
    "C60_map_name",
    "C60_map_macro",
    "C60_unique",
    "C60_map_refuted",
    "C60_map_cut_refuted"
   ],
   "note": "Every list of up to 367 arguments without macro names whose members after the first do not begin with three parenthesised groups, and every f whose applications expand completely. FINDINGS: from 368 arguments on macro calls of the header are left over (C60_map_refuted); an argument (a)(b)() after the first silently ends the list (C60_map_cut_refuted)."
  },
  {
   "property": "C61",
   "status": "proved",
   "theorems": [
    "C61_is_function"
   ],
   "note": "Every well-formed type."
  },
  {
   "property": "C62",
   "status": "partial",
   "theorems": [
    "C62_function_object_partial",
    "C62_callable_partial",
    "C62_final_refuted",
    "C62_union_refuted"
   ],
   "note": "Every type when no class is final. FINDINGS: neither trait compiles for a final class (C62_final_refuted), and unions with a call operator are not recognised (C62_union_refuted)."
  },
  {
   "property": "C63",
   "status": "partial",
   "theorems": [
    "C63_specialization_partial",
    "C63_volatile_refuted",
    "C63_void_refuted"
   ],
   "note": "Every non-volatile type that can be referred to. FINDINGS: false for volatile specializations; does not compile for void and functions with qualifiers."
  },
  {
   "property": "C64",
   "status": "partial",
   "theorems": [
    "C64_traits_partial",
    "C64_decayed",
    "C64_noexcept_refuted",
    "C64_others_refuted"
   ],
   "note": "Every signature without noexcept or ellipsis and every kind of callable. FINDINGS: nothing for noexcept functions, member functions and lambdas, references to functions, const member pointers, functions with an ellipsis."
  },
  {
   "property": "C65",
   "status": "partial",
   "theorems": [
    "C65_expand_shrink_partial",
    "C65_expand_const_partial",
    "C65_expand_other_partial",
    "C65_qualifiers_refuted",
    "C65_arrays_refuted"
   ],
   "note": "Classes and unions with any qualifiers, references, and other unqualified types. FINDINGS: qualifiers of scalars, pointers and void are lost; arrays and functions come back shrunk."
  },
  {
   "property": "C66",
   "status": "partial",
   "theorems": [
    "C66_get_partial",
    "C66_std",
    "C66_element",
    "C66_const_rvalue_refuted"
   ],
   "note": "Lvalues, const lvalues and rvalues, every element type. FINDING: a const rvalue gives an lvalue reference where std::get gives an rvalue reference."
  },
  {
   "property": "C67",
   "status": "partial",
   "theorems": [
    "C67_binding_partial",
    "C67_const_refuted",
    "C67_reference_refuted"
   ],
   "note": "Elements that are not references and have no qualifiers, every form. FINDINGS: const elements and references to const do not compile unless the tuple is const; reference elements lose the reference and are read-only in a const tuple."
  },
  {
   "property": "C68",
   "status": "partial",
   "theorems": [
    "C68_make_array_partial",
    "C68_make_array_n_partial",
    "C68_values_partial",
    "C68_values_n_partial",
    "C68_integers",
    "C68_compiles",
    "C68_zero_refuted",
    "C68_template_for_each"
   ],
   "note": "Every sequence and function whose results have one type; for integer results of several types whenever it compiles. FINDING: the element type is that of f<0>(), so a sequence without 0 does not compile if f<0> does not, and results are converted to that type."
  },
  {
   "property": "C69",
   "status": "partial",
   "theorems": [
    "C69_kept",
    "C69_kept_as",
    "C69_compiles_as",
    "C69_one_sign_partial",
    "C69_same_type",
    "C69_mixed_refuted"
   ],
   "note": "Whenever it compiles no value changes; it compiles for types all signed or all unsigned. FINDING: a signed and an unsigned value of the same or greater width (at least int) do not compile (narrowing)."
  },
  {
   "property": "C70",
   "status": "proved",
   "theorems": [
    "C70_priority",
    "C70_distinct"
   ],
   "note": "Every N and every overload set."
  },
  {
   "property": "C71",
   "status": "proved",
   "theorems": [
    "C71_interleaving",
    "C71_interleaving_converse",
    "C71_bitset",
    "C71_test_and_set",
    "C71_atomic",
    "C71_sum",
    "C71_increments"
   ],
   "note": "Executions are those allowed by the coherence rules of [intro.races] for one atomic object; orders between different objects are outside the statement."
  },
  {
   "property": "C72",
   "status": "proved",
   "theorems": [
    "C72_elements",
    "C72_tuple_cat",
    "C72_cons_snoc_tail",
    "C72_make_tuple",
    "C72_filter",
    "C72_to_unsorted_set",
    "C72_sort",
    "C72_chunk_by",
    "C72_gather_by",
    "C72_unique",
    "C72_to_sorted_set",
    "C72_copies"
   ],
   "note": "For arguments in which no object named by an rvalue is named twice (true of every tuple), and any order of evaluation of function arguments. unique and to_sorted_set move from the elements they leave out as well."
  },
  {
   "property": "C73",
   "status": "proved",
   "theorems": [
    "C73_transform",
    "C73_for_each",
    "C73_enumerate",
    "C73_all_any_none",
    "C73_for_each_n_args",
    "C73_folds"
   ],
   "note": "For arguments in which no object that is not const is named twice."
  },
  {
   "property": "C74",
   "status": "partial",
   "theorems": [
    "C74_cartesian_product_copy",
    "C74_values_partial",
    "C74_values_refuted"
   ],
   "note": "Exact description for every category. FINDING: elements of an rvalue tuple are forwarded once for every combination of the later tuples, so all but one of these combinations get a moved-from element."
  },
  {
   "property": "C75",
   "status": "partial",
   "theorems": [
    "C75_call_by_need_partial",
    "C75_shared_refuted"
   ],
   "note": "When no object that is not const is given to two functions. FINDING: an rvalue argument two functions take is forwarded to both, and the second sees what the first left."
  },
  {
   "property": "C76",
   "status": "partial",
   "theorems": [
    "C76_integers",
    "C76_float_to_smaller_integer",
    "C76_float_to_integer_partial",
    "C76_float_to_integer_refuted",
    "C76_nan_to_integer_refuted",
    "C76_float_to_smaller_float_partial",
    "C76_float_to_smaller_float_refuted",
    "C76_float_to_wider_float",
    "C76_integer_to_float",
    "C76_integer_to_smaller_float_refuted",
    "C76_negative_integer_to_half_refuted"
   ],
   "note": "Complete case analysis over formats and integer types. FINDINGS: saturate_cast<float>(double) returns FLT_MIN for zero and every negative number; float to int32_t, double to int64_t and wider are not clamped (undefined behaviour out of range); int64_t to float is undefined for every argument; NaN to an integer is undefined."
  },
  {
   "property": "C77",
   "status": "partial",
   "theorems": [
    "C77_queue",
    "C77_queue_push",
    "C77_vector",
    "C77_map_partial",
    "C77_set_partial",
    "C77_map_erase_refuted",
    "C77_multimap_partial",
    "C77_multimap_erase_value_partial",
    "C77_multimap_erase_refuted"
   ],
   "note": "Proved in full for cx_queue and cx_vector, and for cx_map, cx_set and cx_multimap as long as nothing is removed. FINDING: erasing another key of a cx_map invalidates references to its last entry (the last entry is moved into the gap); so does erasing the only value of another key of a cx_multimap, for references to and into the last set."
  },
  {
   "property": "C78",
   "status": "proved",
   "theorems": [
    "C78_value",
    "C78_value_or",
    "C78_or_else",
    "C78_transform",
    "C78_and_then",
    "C78_transform_all",
    "C78_copy_move",
    "C78_emplace",
    "C78_assign",
    "C78_reset"
   ],
   "note": "For an optional whose parts are different objects, and (for several optionals) no object that is not const given twice. emplace with a reference into the optional itself is undefined, as for std::optional."
  },
  {
   "property": "C79",
   "status": "partial",
   "theorems": [
    "C79_bind",
    "C79_bind_value",
    "C79_history_partial",
    "C79_const",
    "C79_const_rvalue_refuted",
    "C79_result_refuted",
    "C79_function_refuted"
   ],
   "note": "Every history, binders used as lvalues, const lvalues and rvalues. FINDINGS: a const rvalue binder passes const lvalues (std::bind_front: const rvalues); a reference result is turned into a new object, moving from an rvalue reference; a function cannot be bound by name."
  },
  {
   "property": "C80",
   "status": "partial",
   "theorems": [
    "C80_assign_partial",
    "C80_class_refuted",
    "C80_braces_refuted",
    "C80_implicit_refuted"
   ],
   "note": "All operands but two. FINDINGS: a value of class type T cannot be assigned to an optional<T>; for scalar T, o = {} stores T{} instead of emptying the optional; values and nullopt do not convert implicitly."
  },
  {
   "property": "C81",
   "status": "proved",
   "theorems": [
    "C81_sequentially_consistent",
    "C81_every_order_possible",
    "C81_store_buffering"
   ],
   "note": "For the memory model of [intro.races] and [atomics.order] without fences and non-atomic objects. The order passed on by every member is a table in MultiModel.v. With release and acquire orders the claim fails (C81_weaker_orders), so the default matters."
  },
  {
   "property": "C82",
   "status": "proved",
   "theorems": [
    "C82_defined",
    "C82_order_needed",
    "C82_flag_bit",
    "C82_flag_value",
    "C82_seen",
    "C82_message"
   ],
   "note": "For flags modified by read-modify-write calls only (the bit) or by releasing calls only (any object). memory_order_consume is treated as relaxed. With relaxed orders the claim fails (C82_relaxed_flag)."
  },
  {
   "property": "C83",
   "status": "proved",
   "theorems": [
    "C83_mutual_exclusion",
    "C83_race_free"
   ],
   "note": "The calls that replace all bits at once (set(), reset(), store) must not be used on the bitset of the lock."
  },
  {
   "property": "C84",
   "status": "partial",
   "theorems": [
    "C84_in_place",
    "C84_kept",
    "C84_published",
    "C84_called_once",
    "C84_latched_history",
    "C84_greedy_refuted",
    "C84_list_refuted",
    "C84_aggregate_refuted",
    "C84_function_refuted",
    "C84_mutable_refuted",
    "C84_reference_refuted"
   ],
   "note": "Exact for the compilers that elide through conversion functions (CWG 2327); by C++20 as published one move remains and non-movable results do not compile. False for: types that are built from anything (published rules: the wrapper is stored and the function never called), types with an initializer_list constructor and aggregates in transform, function pointers (the documented with_result_of{make_S}), mutable lambdas in latched, functions returning references in the free transform."
  },
  {
   "property": "C85",
   "status": "partial",
   "theorems": [
    "C85_vector",
    "C85_set",
    "C85_map",
    "C85_queue_partial",
    "C85_not_undone_refuted",
    "C85_queue_not_undone_refuted",
    "C85_queue_pop_refuted",
    "C85_set_refuted",
    "C85_map_refuted",
    "C85_multimap",
    "C85_multimap_refuted"
   ],
   "note": "Exact for all histories of cx_vector, cx_set, cx_map and cx_multimap, and of cx_queue if moving an element out does not throw. False: no call is undone; a throwing pop leaves cx_queue with an index past the storage or a size that counts an element that is gone; a set gets duplicates; a map's key gets another key's value; a multimap's new key gets the values of an erased one. stdx::optional is not covered here (see C86)."
  },
  {
   "property": "C86",
   "status": "partial",
   "theorems": [
    "C86_history_partial",
    "C86_balanced",
    "C86_emplace_refuted",
    "C86_own_value_refuted",
    "C86_noexcept_refuted"
   ],
   "note": "Proved for all histories in which the constructors inside emplace and reset and the comparison do not throw. False otherwise: after an emplace or reset that throws every further call, the destructor included, is undefined; emplace with an argument that refers to the value is undefined; a comparison that throws ends the program, as has_value is noexcept, and value_or, transform, and_then, or_else and < ask it first."
  },
  {
   "property": "C87",
   "status": "partial",
   "theorems": [
    "C87_vector",
    "C87_queue",
    "C87_set",
    "C87_map",
    "C87_queue_pop",
    "C87_vector_refuted",
    "C87_queue_clear_refuted",
    "C87_set_refuted",
    "C87_map_refuted",
    "C87_multimap",
    "C87_multimap_refuted"
   ],
   "note": "The first half is proved. The second holds for cx_queue::pop only: clear, pop_back and the last element at an erase stay in the unused slots until they are overwritten or the container goes."
  },
  {
   "property": "C88",
   "status": "partial",
   "theorems": [
    "C88_bool_linearizable",
    "C88_bool_word",
    "C88_bool_compiles",
    "C88_integer_compiles",
    "C88_same_compiles_partial",
    "C88_exactly",
    "C88_enum_refuted",
    "C88_pointer_refuted",
    "C88_offset_refuted",
    "C88_bool_add_refuted"
   ],
   "note": "bool: linearizable and complete. False: an enumeration kept as an integer has no exchange, a pointer kept as an integer (test/detail/atomic_cfg.hpp) can be neither stored nor loaded, no pointer has fetch_add, += or -=; fetch_add and fetch_sub of a bool kept as an integer compile but leave values that are no bool."
  },
  {
   "property": "C89",
   "status": "partial",
   "theorems": [
    "C89_cx_wrap",
    "C89_cx_wrap_already",
    "C89_cx_wrap_friendly",
    "C89_types",
    "C89_expressions",
    "C89_cx_value",
    "C89_cx_value_compiles",
    "C89_cx_value_no_locals",
    "C89_cx_value_static_refuted",
    "C89_ct_wrap_partial",
    "C89_ct_wrap_friendly",
    "C89_ct_wrap_already",
    "C89_ct_wrap_local",
    "C89_ct_wrap_refuted",
    "C89_ct_wrap_compiles"
   ],
   "note": "Every expression of a small language with captures and constant evaluation. FINDINGS: CT_WRAP does not compile for an expression that names no local variable unless it is a constant of a structural type (a global variable, g()), where CX_WRAP works; CX_VALUE of a global variable that is not constant compiles and follows the variable."
  },
  {
   "property": "C90",
   "status": "partial",
   "theorems": [
    "C90_panic",
    "C90_macro_partial",
    "C90_macro_when_it_compiles",
    "C90_macro_refuted",
    "C90_macro_compiles"
   ],
   "note": "The functions: every argument list. The macro: arguments that name no local variable. FINDING: STDX_PANIC does not compile if an argument is a local variable or reads one that is not a constant, since its lambda captures nothing."
  },
  {
   "property": "C91",
   "status": "partial",
   "theorems": [
    "C91_at_most_once",
    "C91_values_stay",
    "C91_meaning",
    "C91_cycle_refuted",
    "C91_reentrant_refuted"
   ],
   "note": "Proved for all families without a cyclic dependency. FINDINGS: a cycle recurses without end (proved for every cyclic family); a function that uses its own object in its first call only is called twice and the value of the inner call is overwritten without being destroyed."
  },
  {
   "property": "C92",
   "status": "partial",
   "theorems": [
    "C92_lists_are_independent",
    "C92_panics_partial",
    "C92_remove_refuted",
    "C92_assign_refuted",
    "C92_destroyed_refuted"
   ],
   "note": "Independence is proved for all histories, including swaps of lists, in which a node is put into a list only while it is in none and taken out through its own list, and a list is dropped only while it is empty. FINDINGS: the checked policy does not notice the only node of another list; removing the first node of another list is accepted and hands its rest to the wrong list; lists are copyable, and a copy shares the nodes; a list dropped while it holds two nodes or more leaves them unusable."
  },
  {
   "property": "C93",
   "status": "partial",
   "theorems": [
    "C93_iterators",
    "C93_erase_partial",
    "C93_erase_refuted",
    "C93_append"
   ],
   "note": "Proved for iterators, for removal loops that advance first (or use the unchecked policy), and for appending loops. FINDING: with the checked policy a loop that removes the current element and then advances ends at the first removal."
  },
  {
   "property": "C94",
   "status": "partial",
   "theorems": [
    "C94_set_range_for_partial",
    "C94_map_range_for_partial",
    "C94_set_skips_refuted",
    "C94_map_skips_refuted",
    "C94_set_runs_off_refuted",
    "C94_map_runs_off_refuted"
   ],
   "note": "Proved for range-based for loops, for which the stale slots past the new end hold just what is needed. FINDINGS: a loop that compares with end() every time skips the element moved into the gap, and leaves the storage if it erases the last element."
  },
  {
   "property": "C95",
   "status": "proved",
   "theorems": [
    "C95_for_each",
    "C95_for_each_n",
    "C95_transform",
    "C95_transform_n",
    "C95_butlastn",
    "C95_initial_medial_final",
    "C95_transform_reduce",
    "C95_tuple_for_each",
    "C95_tuple_enumerate",
    "C95_for_each_n_args",
    "C95_tuple_transform",
    "C95_make_array",
    "C95_template_for_each",
    "C95_tuple_predicates",
    "C95_tuple_folds"
   ],
   "note": "Iterators do not throw; transform_reduce_n for n >= 0; no destructor throws."
  },
  {
   "property": "C96",
   "status": "partial",
   "theorems": [
    "C96_for_each_partial",
    "C96_enumerate",
    "C96_for_each_one_partial",
    "C96_for_each_one_lvalue_refuted",
    "C96_for_each_one_const_refuted",
    "C96_for_each_one_move_only_refuted",
    "C96_bitset",
    "C96_ranges_partial",
    "C96_initial_medial_final_partial",
    "C96_ranges_move_only_refuted"
   ],
   "note": "Proved for enumerate, bitsets, and for_each on several tuples. FINDINGS: for_each on one stdx::tuple does not compile for an lvalue function object, a function, or a move-only one, and returns a dangling reference for a const lvalue; the range algorithms do not compile for a move-only function object."
  },
  {
   "property": "C97",
   "status": "partial",
   "theorems": [
    "C97_for_each_partial",
    "C97_comma_refuted",
    "C97_logical_partial",
    "C97_logical_refuted",
    "C97_indexed_partial",
    "C97_indexed_refuted",
    "C97_compare_twice_refuted"
   ],
   "note": "Proved for result types without operators of their own. FINDINGS: a result type's own comma operator is called; all_of and any_of call the function on every element if its result type has its own and/or; transform to an indexed tuple calls in unspecified order; operator<=> compares the first elements twice."
  },
  {
   "property": "C98",
   "status": "partial",
   "theorems": [
    "C98_checks_partial",
    "C98_never_passes",
    "C98_greater_refuted",
    "C98_comma_refuted",
    "C98_number_refuted",
    "C98_nul_refuted"
   ],
   "note": "Proved for bool conditions without commas and > outside parentheses. FINDINGS: conditions such as sizeof(T) > 4, is_same_v<A, B> or flags & 4 do not compile although true, because the condition is a macro argument and then a template argument of type bool; with C++26 messages are cut at a NUL."
  },
  {
   "property": "C99",
   "status": "proved",
   "theorems": [
    "C99_no_false_positives",
    "C99_finds",
    "C99_references",
    "C99_misses_overloaded",
    "C99_misses_runtime_default",
    "C99_misses_references",
    "C99_misses_long"
   ],
   "note": "The documented false negatives are characterised: overloaded constructors for every number of arguments, constructors that take lvalue references, a default constructor that is not constexpr beside another that is, more than ten arguments."
  },
  {
   "property": "C100",
   "status": "proved",
   "theorems": [
    "C100_vector",
    "C100_queue",
    "C100_set",
    "C100_map",
    "C100_multimap"
   ],
   "note": "With C01 and C03-C06 for what the calls do with values. Arguments passed as rvalues are not covered: the library may take them not to alias."
  },
  {
   "property": "C101",
   "status": "partial",
   "theorems": [
    "C101_common_partial",
    "C101_narrow_refuted",
    "C101_order_refuted"
   ],
   "note": "Proved for the rollover_t first and types of which one has at least the rank of int, or equal types. FINDINGS: for two different types narrower than int, such as uint8_t and uint16_t, the common type is rollover_t<int>, which does not compile; with the integer first there is no common type."
  },
  {
   "property": "C102",
   "status": "partial",
   "theorems": [
    "C102_two_stages",
    "C102_compile_time",
    "C102_tail_refuted",
    "C102_braces_refuted"
   ],
   "note": "Every format string and mix of arguments, for every formatter that follows the rules of {fmt} and std::format for literal text and fields (TwoStageSpec.v), if what is formatted early has no braces. FINDINGS: doubled braces after the last argument stay doubled in a string that is otherwise the finished text (C102_tail_refuted); a brace in what is formatted early, from doubled braces or from an argument's text, makes formatting the rest fail (C102_braces_refuted)."
  },
  {
   "property": "C103",
   "status": "partial",
   "theorems": [
    "C103_make_tuple",
    "C103_braces",
    "C103_single_refuted",
    "C103_indexed",
    "C103_indexed_decay_refuted",
    "C103_forward",
    "C103_format",
    "C103_format_refuted"
   ],
   "note": "Every list of arguments. FINDINGS: tuple{t} with one tuple t is t again, not a tuple of it (C103_single_refuted), so a tuple given to ct_format as a run-time argument is taken apart and the result has as many arguments as it has elements (C103_format_refuted); make_indexed_tuple does not take arrays or functions, make_tuple does (C103_indexed_decay_refuted)."
  },
  {
   "property": "C104",
   "status": "proved",
   "theorems": [
    "C104_no_races",
    "C104_locked",
    "C104_counter"
   ],
   "note": "All executions of the axiomatic model of C81-C83 (release/acquire and relaxed orders, release sequences; seq_cst order). C104_no_races is for any set of objects; C104_locked and C104_counter are for a bit as a lock."
  },
  {
   "property": "C105",
   "status": "proved",
   "theorems": [
    "C105_one_object",
    "C105_tickets"
   ],
   "note": "All executions of the axiomatic model of C81-C83. [told] says what a reply says about the count before the call, since the prefix operators return the next value."
  },
  {
   "property": "C106",
   "status": "proved",
   "theorems": [
    "C106_last",
    "C106_safe",
    "C106_relaxed_orders",
    "C106_weaker_orders"
   ],
   "note": "All executions of the axiomatic model of C81-C83. C106_relaxed_orders and C106_weaker_orders are executions that show that the memory orders in C106_safe are needed: with a relaxed, acquire or release order alone the last one can even read what was there before another thread's write."
  },
  {
   "property": "C107",
   "status": "partial",
   "theorems": [
    "C107_protocol",
    "C107_others",
    "C107_unrolled",
    "C107_guarded",
    "C107_no_answer_refuted",
    "C107_unsigned_refuted"
   ],
   "note": "Proved for targets where std::size_t is not unsigned int. FINDING (C107_unsigned_refuted): tuple_size_v of other types is 0u, and where std::size_t is unsigned int (32-bit targets) this makes has_tuple_protocol hold for every type without a static size(); the algorithms then take anything and do nothing. FINDING (C107_no_answer_refuted): for a class with a size and no get, such as atomic_bitset or a non-empty ct_string, the concept is an error instead of false. make_integer_sequence inherits a value_type and so counts as array-like."
  },
  {
   "property": "C108",
   "status": "partial",
   "theorems": [
    "C108_capacity",
    "C108_variable",
    "C108_const_array_refuted"
   ],
   "note": "ct_capacity for all types. FINDING: ct_capacity_v of an array of const matches the specializations for T[N] and for T const and is ambiguous. That the containers have room for N elements is in C01-C06."
  },
  {
   "property": "C109",
   "status": "partial",
   "theorems": [
    "C109_which",
    "C109_empty",
    "C109_given",
    "C109_stdx_tuple_refuted",
    "C109_nan_refuted"
   ],
   "note": "For std::pair and std::tuple. FINDING (C109_stdx_tuple_refuted): stdx::tuple has no tombstone although its parts have, since it is an aggregate that is not constructible from its elements in parentheses."
  },
  {
   "property": "C110",
   "status": "partial",
   "theorems": [
    "C110_unpacks",
    "C110_whole",
    "C110_free",
    "C110_takes_tuple_refuted",
    "C110_by_reference_refuted",
    "C110_std_types_refuted",
    "C110_array_refuted",
    "C110_free_example_refuted",
    "C110_own_tombstone_refuted"
   ],
   "note": "Calls, results and result types proved for functions that take the elements also as rvalues. FINDINGS: the example of the documentation (free transform) does not compile (C110_free_example_refuted); a function that takes the tuple, or its elements by non-const reference, is an error (C110_takes_tuple_refuted, C110_by_reference_refuted); before C++23 transform and and_then do not compile for optionals over other class templates of std such as std::string (C110_std_types_refuted); std::array is not unpacked (C110_array_refuted); the result of transform has the tombstone of its type, never that of the optional (C110_own_tombstone_refuted)."
  },
  {
   "property": "C111",
   "status": "partial",
   "theorems": [
    "C111_kinds",
    "C111_all",
    "C111_wrap_again",
    "C111_custom",
    "C111_output_types",
    "C111_collapse",
    "C111_plus",
    "C111_wrapped_custom_refuted"
   ],
   "note": "All kinds of arguments. FINDING: an object in CX_VALUE is given to fmt as it is, its ct_format_as is not used (C111_wrapped_custom_refuted)."
  },
  {
   "property": "C112",
   "status": "partial",
   "theorems": [
    "C112_passing",
    "C112_direct",
    "C112_dynamic",
    "C112_deduced",
    "C112_c_array_refuted",
    "C112_temporary_refuted",
    "C112_temporary_deduced_refuted"
   ],
   "note": "Proved for named arrays, but not for span<T const, N> s{x} with a C array x of non-const elements. FINDINGS: in that case (C112_c_array_refuted) and for temporary std::arrays (C112_temporary_refuted) the constructor for ranges is the better match, and it does not check the size: the span reaches outside the array. span s{x} does not compile for temporary arrays of non-const elements."
  },
  {
   "property": "C113",
   "status": "partial",
   "theorems": [
    "C113_fitting",
    "C113_agrees",
    "C113_narrowing_refuted",
    "C113_list_refuted",
    "C113_count_refuted"
   ],
   "note": "Proved for arithmetic types and aggregates from arguments that do not narrow. FINDINGS: the constructors initialize with braces, so stdx::optional<float>{1} and stdx::optional<std::uint8_t, tombstone_value<255>>{42} are ill-formed (C113_narrowing_refuted), and a count given for a vector is an element (C113_list_refuted)."
  },
  {
   "property": "C114",
   "status": "partial",
   "theorems": [
    "C114_for_each",
    "C114_apply",
    "C114_lists",
    "C114_rejected",
    "C114_protocol",
    "C114_nth",
    "C114_make_sequence_refuted",
    "C114_documented_sum_refuted",
    "C114_get_unchecked_refuted"
   ],
   "note": "Proved for type lists, value lists and std::integer_sequence. FINDINGS: stdx::make_index_sequence<N>, which the documentation uses, is matched as a list whose only value is N (C114_make_sequence_refuted); the documented sum is right for N = 0 and N = 3 only (C114_documented_sum_refuted); get<I> of such a sequence is not checked against its length (C114_get_unchecked_refuted)."
  },
  {
   "property": "C115",
   "status": "partial",
   "theorems": [
    "C115_timers",
    "C115_determined",
    "C115_half_range_refuted",
    "C115_late_refuted"
   ],
   "note": "Proved for all histories in which the times compared lie within less than half the range. FINDINGS: a delay of exactly half the range, which the documentation does not rule out, misorders (C115_half_range_refuted), and so do shorter delays while a timer that is due has not been taken (C115_late_refuted)."
  },
  {
   "property": "C116",
   "status": "partial",
   "theorems": [
    "C116_finer",
    "C116_coarser",
    "C116_ratio",
    "C116_difference",
    "C116_equal",
    "C116_round_trip",
    "C116_coarser_refuted",
    "C116_equal_refuted"
   ],
   "note": "Proved for conversions to finer units and differences at all times, and to coarser units before the first rollover. FINDINGS: after a rollover a coarser unit shows a wrong time (C116_coarser_refuted); durations half the range apart equal the same duration in a unit finer by an even ratio (C116_equal_refuted)."
  },
  {
   "property": "C117",
   "status": "proved",
   "theorems": [
    "C117_mutual_exclusion",
    "C117_race_free",
    "C117_data",
    "C117_release_acquire_refuted"
   ],
   "note": "Over the axiomatic executions of MultiModel. C117_release_acquire_refuted is the negative half of the statement: an execution in which both threads are inside with release stores and acquire loads."
  },
  {
   "property": "C118",
   "status": "partial",
   "theorems": [
    "C118_folds",
    "C118_join",
    "C118_unchanging_partial",
    "C118_own_state_refuted",
    "C118_move_only_refuted"
   ],
   "note": "Proved: every call is made on a copy of the object as it was given, with the exact number of copies, so for objects that calls do not change the folds are those of std::accumulate. FINDINGS: fold_helper and join_helper copy the function object before each call, so what a call changes in it is lost for the other calls and for the caller (C118_own_state_refuted), and function objects that can only be moved are rejected (C118_move_only_refuted); the range and for_each algorithms have neither limit."
  },
  {
   "property": "C119",
   "status": "proved",
   "theorems": [
    "C119_order",
    "C119_fifo",
    "C119_data",
    "C119_counters",
    "C119_relaxed_refuted"
   ],
   "note": "Over the axiomatic executions of MultiModel. C119_relaxed_refuted is the negative half of the statement: executions with a relaxed increase, and with a relaxed load, in which pop 0 does not find what push 0 left."
  },
  {
   "property": "C120",
   "status": "partial",
   "theorems": [
    "C120_text",
    "C120_grouping",
    "C120_same_type",
    "C120_conversions",
    "C120_unterminated_refuted",
    "C120_mixed_refuted"
   ],
   "note": "Proved for all expressions. Refuted in the code: a ct_string<N> made from N characters has no terminator and compares equal to a string whose type is a different one; a cts_t cannot be compared with a ct_string and does not convert to a larger one."
  },
  {
   "property": "C121",
   "status": "partial",
   "theorems": [
    "C121_same_concepts",
    "C121_comparable",
    "C121_same_any",
    "C121_other_result_refuted",
    "C121_reference_refuted"
   ],
   "note": "All but the comparison concepts are the standard's. equality_comparable and totally_ordered accept exactly the standard's types whose comparisons give bool itself; refuted for comparisons that give another testable type, and for reference types, of which the comparison of non-const lvalues is asked for."
  },
  {
   "property": "C122",
   "status": "partial",
   "theorems": [
    "C122_first_use",
    "C122_right",
    "C122_stale_refuted",
    "C122_reference_refuted"
   ],
   "note": "Refuted in the code, and warned of in its documentation: asked before the definition, the answer stays false after it. A reference is answered like what it refers to."
  },
  {
   "property": "C123",
   "status": "partial",
   "theorems": [
    "C123_lists_are_independent",
    "C123_panics_partial",
    "C123_last_node_refuted",
    "C123_policies_refuted"
   ],
   "note": "Refuted in the code: the last node of a forward list (and the only node of an intrusive_list) is not detected, and pushing it elsewhere joins the two lists. A node popped from an unchecked list keeps its pointers, and a checked list then rejects it although it is free."
  },
  {
   "property": "C124",
   "status": "partial",
   "theorems": [
    "C124_single_iff",
    "C124_double_iff",
    "C124_forward_iff",
    "C124_list_iff",
    "C124_complete",
    "C124_derived_refuted",
    "C124_prev_type_refuted",
    "C124_prev_value_refuted"
   ],
   "note": "Refuted in the code: a class that inherits its next and prev satisfies the concepts and can be pushed, but popping, removing and iterating do not compile. With the checked policy a forward list takes any member called prev for its own: it fails to compile if that is no pointer, rejects nodes for which it is set, and clears it on pop."
  },
  {
   "property": "C125",
   "status": "partial",
   "theorems": [
    "C125_never_dangles",
    "C125_others_unchanged",
    "C125_compiles_iff",
    "C125_constructions",
    "C125_std_identity_refuted",
    "C125_argument_refuted"
   ],
   "note": "Refuted in the code: the argument is not left unchanged: safe_identity(std::move(x)) moves from x, and rvalues of classes that cannot be moved or copied, or of arrays, do not compile. Also stated: exactly which expressions with std::identity dangle."
  },
  {
   "property": "C126",
   "status": "proved",
   "theorems": [
    "C126_written",
    "C126_no_room",
    "C126_round_trip",
    "C126_read",
    "C126_alignment_refuted",
    "C126_native_refuted"
   ],
   "note": "The two _refuted theorems say that the conditions are needed: in buffers that are not aligned alike the field after an alignment is looked for elsewhere, and integers in the machine's own order arrive with their bytes reversed."
  },
  {
   "property": "C127",
   "status": "partial",
   "theorems": [
    "C127_set",
    "C127_map",
    "C127_multimap",
    "C127_distinct",
    "C127_unique",
    "C127_nan_set_refuted",
    "C127_nan_map_refuted"
   ],
   "note": "The behaviour for every == is proved. The _refuted theorems say what a user would expect and does not get with a key that nothing equals, such as NaN: inserting it again adds a copy each time, and it can be neither found nor erased."
  },
  {
   "property": "C128",
   "status": "partial",
   "theorems": [
    "C128_signals",
    "C128_exchange",
    "C128_load_then_reset_refuted"
   ],
   "note": "Both conservation laws are proved for every execution. The _refuted theorem shows that taking all signals with load and reset() loses one: reset() without arguments returns the bitset object, not the old bits, so it cannot be used to take."
  },
  {
   "property": "C129",
   "status": "partial",
   "theorems": [
    "C129_other_enumerations_are_rejected",
    "C129_sets_partial",
    "C129_sets_tidy_partial",
    "C129_sets_whole_words",
    "C129_places_of_other_enumerations_refuted",
    "C129_atomic_accepts_other_enumerations_refuted",
    "C129_values_outside_refuted",
    "C129_lowest_unset_is_set_refuted",
    "C129_lowest_unset_negative_refuted"
   ],
   "note": "The compile-time check and the refinement to sets of enumerators are proved, with the same exclusions as C14 (bits above the size). FINDINGS: the place_bits constructor and atomic_bitset's set, reset and flip accept any enumeration; after set(), transform_reduce calls the function with values outside the enumeration, and lowest_unset can return the enumerator 0 although every value is set (size 255 of an enumeration over uint8_t) or a negative value that names no bit (size 127 over int8_t)."
  },
  {
   "property": "C130",
   "status": "partial",
   "theorems": [
    "C130_comparable_tuples",
    "C130_exactly",
    "C130_other_tuples_are_rejected_partial",
    "C130_elements_are_rejected",
    "C130_only_the_shared_element_counts_refuted",
    "C130_longer_equals_shorter_refuted"
   ],
   "note": "Overload resolution among the friends of tuple_impl, of the element bases and the deleted friends; exactly when each operator compiles and what it computes. FINDING: tuples that cannot be compared but have exactly one position of equal type in common do compare, and only that element counts: tuple{1, 2} == tuple{1} is true."
  },
  {
   "property": "C131",
   "status": "partial",
   "theorems": [
    "C131_cx_vector_forwards_partial",
    "C131_cx_vector_backwards_refuted",
    "C131_span",
    "C131_ct_string",
    "C131_constness"
   ],
   "note": "Types of the iterators and the conversions in the return statements are modelled. FINDING: cx_vector's rbegin, rend, crbegin and crend return a pointer where a std::reverse_iterator is declared; that conversion is explicit, so none of them compiles when used."
  },
  {
   "property": "C132",
   "status": "partial",
   "theorems": [
    "C132_for_each_butlast_partial",
    "C132_initial_medial_final_partial",
    "C132_cartesian_exactly",
    "C132_cartesian_partial",
    "C132_to_underlying_partial",
    "C132_for_each_butlast_refuted",
    "C132_initial_medial_final_refuted",
    "C132_cartesian_refuted",
    "C132_to_underlying_refuted"
   ],
   "note": "Argument-dependent lookup and the choice between the functions of stdx and std of the same name; exact conditions for each algorithm. FINDINGS: with random-access iterators associated with std (of std::vector, std::deque, std::string; pointers to std types) for_each_butlast returns an iterator instead of a tuple and initial_medial_final does not compile; cartesian products of tuples with elements of std types do not compile; from C++23 on underlying_type_t and to_underlying inside the library do not compile for enumerations of std."
  },
  {
   "property": "C133",
   "status": "partial",
   "theorems": [
    "C133_const_partial",
    "C133_own_parts",
    "C133_list_refuted",
    "C133_byterator_refuted",
    "C133_keys_refuted"
   ],
   "note": "Proved for all types and chains of calls except front() and back() of the intrusive lists and byterator over a type that is not const. FINDINGS: front() const and back() const of both lists return references that are not to const; byterator<T>{p} takes a pointer to T const and drops the const with bit_cast; iterators of a non-const cx_set, cx_map or cx_multimap give access to the keys, which can be made equal."
  },
  {
   "property": "C134",
   "status": "partial",
   "theorems": [
    "C134_same_type_partial",
    "C134_exactly",
    "C134_base_refuted",
    "C134_range_refuted"
   ],
   "note": "Proved for elements of the same type up to const that lie one behind the other, with the exact condition in general. FINDINGS: a span of a base class is accepted for an array or span of a derived class (std::array and span even implicitly, where std::span requires similar types), and only its first element is right unless the sizes agree; ranges that are not contiguous (std::list, std::deque, intrusive_list) are accepted, and the span then reads memory behind the first element."
  },
  {
   "property": "C135",
   "status": "partial",
   "theorems": [
    "C135_folds_partial",
    "C135_join",
    "C135_greedy_refuted",
    "C135_format_result_refuted"
   ],
   "note": "Proved: a fold that compiles calls the function, join always compiles, and the folds compile exactly if no operator+ takes anything by value or T&& on one side and an element as it is on the other. FINDINGS: such an operator makes fold_left and fold_right ambiguous; ct_format.hpp has two in stdx::detail, the namespace of the fold helper, so that tuples with a format_result cannot be folded."
  },
  {
   "property": "C136",
   "status": "partial",
   "theorems": [
    "C136_shared",
    "C136_exactly",
    "C136_one_at_a_time",
    "C136_race_refuted",
    "C136_twice_refuted"
   ],
   "note": "Proved: with the value there, const calls of any threads do not race and give that value; calls that do not overlap give what one thread gets; races are possible exactly if one thread makes a call that can change the object and another any call. FINDING: value(), * and -> are const but change the object while there is no value (mutable, no synchronisation): two threads that look for the first time race, and can both call the function and get different values."
  },
  {
   "property": "C137",
   "status": "partial",
   "theorems": [
    "C137_visitor",
    "C137_own_type",
    "C137_all_other_types",
    "C137_conversions",
    "C137_category",
    "C137_generic",
    "C137_order",
    "C137_mutable_refuted",
    "C137_mixture_refuted",
    "C137_forward_refuted"
   ],
   "note": "Proved for overload resolution with one argument, if the functions are all mutable, or none is, or the object is const. FINDINGS: the call operators named by using-declarations count as members of the overload object, so that a mutable function beside others is preferred on an object that is not const: a mutable generic one takes all calls, and a mutable one for another type makes calls ambiguous. auto&& beside T const& takes T that are not const lvalues."
  },
  {
   "property": "C138",
   "status": "proved",
   "theorems": [
    "C138_policy",
    "C138_safe_policy",
    "C138_panic_throws",
    "C138_lists"
   ],
   "note": "Policies are functions with state; a refused call throws and is caught by the caller. The lists' check notices nodes as in C123."
  },
  {
   "property": "C139",
   "status": "proved",
   "theorems": [
    "C139_list_calls",
    "C139_forward_calls",
    "C139_list_constant_time",
    "C139_forward_constant_time",
    "C139_list_touches",
    "C139_forward_touches",
    "C139_list_own_nodes",
    "C139_forward_own_nodes"
   ],
   "note": "The models of C10 to C13 with a record of every access to a prev or next pointer; the record is proved not to change the calls. Accesses to the list object's own head and tail are not counted (each call makes a fixed number)."
  },
  {
   "property": "C140",
   "status": "proved",
   "theorems": [
    "C140_set_calls",
    "C140_map_calls",
    "C140_multimap_calls",
    "C140_set_compares",
    "C140_map_compares",
    "C140_multimap_compares",
    "C140_set_operands",
    "C140_map_operands",
    "C140_multimap_operands",
    "C140_set_throw",
    "C140_map_throw",
    "C140_multimap_throw",
    "C140_merge_throw",
    "C140_multimap_erase_throw",
    "C140_multimap_merge_throw",
    "C140_usable"
   ],
   "note": "The models of C04 to C06 with a record of the calls of == and with an == that may throw; the record is proved not to change the calls. Only == throws here (copies that throw are C85)."
  },
  {
   "property": "C141",
   "status": "partial",
   "theorems": [
    "C141_history",
    "C141_copy",
    "C141_one_call",
    "C141_moved_refuted",
    "C141_take_refuted"
   ],
   "note": "Exact for every history. Copies, moves and assignments of values and functions do not throw. FINDINGS: an object that was moved from still says that it has a value and gives what the move left (C141_moved_refuted); value() of an rvalue is a const rvalue, so that a value is copied out, never moved, and a move-only one cannot be taken (C141_take_refuted)."
  },
  {
   "property": "C142",
   "status": "partial",
   "theorems": [
    "C142_list_unaffected",
    "C142_free_nodes",
    "C142_copy_refuted",
    "C142_assign_fresh_refuted",
    "C142_assign_later_refuted",
    "C142_assign_earlier_refuted",
    "C142_forward_list_unaffected",
    "C142_forward_free_nodes",
    "C142_forward_copy_refuted",
    "C142_forward_assign_fresh_refuted",
    "C142_forward_push_lost_refuted",
    "C142_forward_assign_later_refuted",
    "C142_forward_assign_earlier_refuted"
   ],
   "note": "Holds for copies of any node and for assignments to nodes outside the list (C142_list_unaffected), and copies can be put in the list if they are of nodes outside it (C142_free_nodes). FINDINGS: a copy of a node of the list keeps its links, so that the checked policy panics when the copy is put in a list, even after the original left it (C142_copy_refuted); assigning to a node of the list cuts, shortens or closes the list to a cycle (C142_assign_fresh_refuted, C142_assign_later_refuted, C142_assign_earlier_refuted). The same for intrusive_forward_list (C142_forward_...), where only copies of nodes that are followed by another are refused, and where after a cut push_back puts nodes where no traversal finds them (C142_forward_push_lost_refuted)."
  },
  {
   "property": "C143",
   "status": "partial",
   "theorems": [
    "C143_vectors",
    "C143_queues",
    "C143_sets",
    "C143_maps",
    "C143_multimaps",
    "C143_moved_from_set_refuted",
    "C143_moved_from_map_refuted"
   ],
   "note": "Copies, assignments and swaps are proved for all five containers, and moves into the target; a moved-from vector or queue has its old length and moved-from elements; a moved-from set or map is as before if moving leaves keys alone, and in any case usable once cleared or assigned to. FINDINGS: moving does not empty a container; a moved-from cx_set or cx_map with two keys that look the same once moved from (as strings do) holds that key twice, and erasing it leaves it there (C143_moved_from_set_refuted, C143_moved_from_map_refuted). Not modelled: moving a container into itself; exceptions thrown by copies."
  },
  {
   "property": "C144",
   "status": "partial",
   "theorems": [
    "C144_apply_tuple",
    "C144_apply_partial",
    "C144_apply_reference_refuted",
    "C144_join",
    "C144_join_init",
    "C144_join_fold_partial",
    "C144_join_category_refuted",
    "C144_join_noncopyable_refuted"
   ],
   "note": "Proved: apply for one tuple gives exactly what f returns; for any tuples if f returns an object; join copies or moves every element once, in any order, and folds the copies; it agrees with fold_left for operations that do not tell lvalues from rvalues. FINDINGS: apply over several tuples, over none, or over a std::array or std::pair returns a new object when f returns a reference: a copy, or what it moves out of the object, and does not compile if there is no copy (C144_apply_reference_refuted). join gives its operation rvalues even for an lvalue tuple, where fold_left gives const lvalues (C144_join_category_refuted), so a tuple with a move-only element can be folded but not joined (C144_join_noncopyable_refuted). Not modelled: const rvalues; operations that keep state of their own (C118)."
  },
  {
   "property": "C145",
   "status": "partial",
   "theorems": [
    "C145_operands",
    "C145_cast",
    "C145_modular_partial",
    "C145_equal_partial",
    "C145_divide_less",
    "C145_widening_refuted",
    "C145_float_refuted"
   ],
   "note": "Proved: which operators compile, between any operands; that a rollover_t is cast to its underlying type and no other; that any expression of integers, rollover_t, conversions and +, -, * that compiles to a w-bit rollover_t has the value modulo 2^w of the integer expression if no type on the way is narrower than w bits (and, with *, none is one where * is undefined, C07), and == is congruence. FINDINGS: after a narrower type it has not: a sum converted to a wider rollover_t differs from the sum of the converted operands exactly if it rolled over (C145_widening_refuted); rollover_t<T>{x} accepts a floating-point x, and is undefined behaviour unless -1 < x < 2^w: it is not taken modulo 2^w (C145_float_refuted). Not modelled: operands of class types with conversions of their own; the assignments (C07 has their values)."
  },
  {
   "property": "C146",
   "status": "proved",
   "theorems": [
    "C146_peterson_enters",
    "C146_peterson_excludes",
    "C146_spin_some_enters",
    "C146_spin_excludes",
    "C146_spin_starves_refuted"
   ],
   "note": "With the default memory orders (C81: one order for all objects). C146_spin_starves_refuted is the negative half of the statement: a fair schedule in which no thread keeps the lock for ever and one waits for ever. The programs of the two locks are the user's, in WaitSpec; the calls in them are AtomKindModel's. That every store is seen by a load after a finite time is in the model of one order of steps."
  },
  {
   "property": "C147",
   "status": "proved",
   "theorems": [
    "C147_enters",
    "C147_excludes",
    "C147_in_order",
    "C147_too_many_refuted"
   ],
   "note": "With the default memory orders (C81: one order for all objects), for unsigned T. C147_too_many_refuted is the negative half of the statement. The program of the lock is the user's, in TicketSpec; the calls in it are AtomicModel's."
  },
  {
   "property": "C148",
   "status": "partial",
   "theorems": [
    "C148_transparent",
    "C148_typed",
    "C148_negate_refuted",
    "C148_bit_field_refuted",
    "C148_immovable_refuted"
   ],
   "note": "Proved for operands that are not bit-fields and classes whose operator does the same for a prvalue and an xvalue. Missing because false: with a type they do not take what converts to T and for a promoted T do not give a T (C148_negate_refuted); bit-fields (C148_bit_field_refuted); classes that cannot be moved and are taken by value (C148_immovable_refuted). volatile, overloaded function names and {} as operands are not modelled."
  },
  {
   "property": "C149",
   "status": "proved",
   "theorems": [
    "C149_delivers",
    "C149_in_order",
    "C149_bounded",
    "C149_too_big_refuted"
   ],
   "note": "With the default memory orders (C81: one order for all objects), for unsigned types. C119 has the safety half for other orders and any program of that kind; this is the program with its loops, and that it goes on. C149_too_big_refuted is the negative half of the statement. The program is the user's, in PipeSpec; the calls in it are AtomicModel's."
  },
  {
   "property": "C150",
   "status": "proved",
   "theorems": [
    "C150_goes_on",
    "C150_together",
    "C150_too_many_refuted"
   ],
   "note": "With the default memory orders (C81: one order for all objects), for unsigned types. The program is the user's, in BarrierSpec; the calls in it are AtomicModel's. C150_too_many_refuted is the negative half of the statement."
  },
  {
   "property": "C151",
   "status": "proved",
   "theorems": [
    "C151_snapshot",
    "C151_writer_goes_on",
    "C151_reader_goes_on",
    "C151_torn_refuted",
    "C151_starves_refuted"
   ],
   "note": "With the default memory orders (C81: one order for all objects), for unsigned types. The program is the user's, in SeqlockSpec; the calls in it are AtomicModel's. C151_torn_refuted and C151_starves_refuted are the negative halves of the statement."
  },
  {
   "property": "C152",
   "status": "proved",
   "theorems": [
    "C152_one_version",
    "C152_default_order",
    "C152_all_needed_refuted"
   ],
   "note": "In MultiModel, so without fences and non-atomic objects. The calls the threads make are described by SeqOrderSpec.seqlock. C152_all_needed_refuted is the negative half of the statement."
  },
  {
   "property": "C153",
   "status": "proved",
   "theorems": [
    "C153_mutual_exclusion",
    "C153_race_free",
    "C153_in_order",
    "C153_default_order",
    "C153_relaxed_refuted",
    "C153_rollover_refuted"
   ],
   "note": "In MultiModel, so without fences and non-atomic objects. The calls the threads make are described by TicketOrderSpec.ticket_lock. C153_relaxed_refuted and C153_rollover_refuted are the negative parts of the statement. C147 is about the same lock with the default order, with waiting and progress."
  },
  {
   "property": "C154",
   "status": "proved",
   "theorems": [
    "C154_all_done",
    "C154_any_order",
    "C154_relaxed_refuted"
   ],
   "note": "In MultiModel, so without fences and non-atomic objects. C154_relaxed_refuted is the negative half of the statement."
  },
  {
   "property": "C155",
   "status": "proved",
   "theorems": [
    "C155_phases",
    "C155_any_order",
    "C155_relaxed_refuted"
   ],
   "note": "In MultiModel, so without fences and non-atomic objects. Unlike the barrier of C150 the counter is never reset, and the memory orders are free. C155_relaxed_refuted is the negative half of the statement."
  }
 ]
}