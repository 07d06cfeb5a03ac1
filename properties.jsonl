{"id": "C01", "title": "cx_queue is a FIFO queue for every history", "statement": "Starting from a default-constructed cx_queue of capacity N, after any sequence of push/pop/clear in which no push is made when full and no pop when empty, size/empty/full/front/back and every value returned by pop are those of an unbounded FIFO list; in particular pops return values in push order, and the ring indices stay in range however often they wrap.", "quantifier": "every element type, every capacity N, 0 included, every finite sequence of operations", "why_tests_cant": "The ring wraps at positions that depend on the whole history; a test fixes one capacity and a handful of wraps.", "anchors": ["include/stdx/cx_queue.hpp: cx_queue::push, pop, front, back, clear, size, empty, full"]}
{"id": "C02", "title": "cx_queue over/underflow is always reported and never corrupts (with a handler that does not return)", "statement": "With safe_overflow_policy the panic handler is called exactly when push is called on a full queue or pop/front/back on an empty one; if the handler does not return the queue is unchanged. If the handler returns (the documented default), the queue's state no longer represents any queue (size exceeds the capacity, or wraps below zero).", "quantifier": "every capacity, every history, both a returning and a non-returning panic handler", "why_tests_cant": "Quantifies over all histories and both handler behaviours.", "anchors": ["include/stdx/cx_queue.hpp: safe_overflow_policy, unsafe_overflow_policy", "include/stdx/panic.hpp: default_panic_handler"]}
{"id": "C03", "title": "cx_vector is a bounded list for every history", "statement": "Any sequence of push_back/pop_back/clear/element writes/resize_and_overwrite on a cx_vector within its capacity yields the size, elements, iteration order, back() and equality of a plain list; equality ignores stale storage past the size.", "quantifier": "every element type, capacity, operation sequence", "why_tests_cant": "Equality and iteration must be independent of the stale slots left behind by any previous history.", "anchors": ["include/stdx/cx_vector.hpp: cx_vector::push_back, pop_back, clear, operator==, resize_and_overwrite"]}
{"id": "C04", "title": "cx_map is a finite map for every history", "statement": "From a default-constructed cx_map, for any sequence of insert_or_assign/put/erase/clear/pop_back (no insertion of a new key when full, no pop_back when empty) contains/get/size/iteration agree with a finite map; insert_or_assign returns true iff the key was absent, erase returns 1 iff it was present; keys stay pairwise distinct.", "quantifier": "every key type with decidable equality, value type, capacity and operation sequence", "why_tests_cant": "Swap-with-last erase makes the layout depend on the whole history.", "anchors": ["include/stdx/cx_map.hpp: cx_map::insert_or_assign, put, erase, get, contains, pop_back, clear"]}
{"id": "C05", "title": "cx_set is a finite set for every history", "statement": "From a default-constructed cx_set, for any sequence of insert/erase/merge/pop_back/clear within capacity, contains/size/iteration agree with a mathematical set, insert returns true iff absent, erase returns 1 iff present, merge is union. A cx_set constructed from pairwise distinct values starts as the set of those values (the constructor does not remove duplicates).", "quantifier": "every key type with decidable equality, capacity and operation sequence; every constructor argument list", "why_tests_cant": "Layout depends on history; the constructor claim ranges over every argument list.", "anchors": ["include/stdx/cx_set.hpp: cx_set::insert, erase, merge, pop_back, contains"]}
{"id": "C06", "title": "cx_multimap is a finite relation with explicit keys for every history", "statement": "For any sequence of insert(k), insert(k,v), erase(k), erase(k,v), clear, the contains(k)/contains(k,v)/get answers are those of a map from keys to sets; erase(k,v) returns the number of (k,v) pairs removed, erase(k) the number of keys; erase(k,v) also drops k when no value is left; the set returned by get(k) can be modified in place like any cx_set; iteration visits every key once, with its values.", "quantifier": "every key/value type, capacity and operation sequence", "why_tests_cant": "Interaction between empty value sets and key removal depends on the history.", "anchors": ["include/stdx/cx_multimap.hpp: cx_multimap::insert, put, erase, contains, get"]}
{"id": "C07", "title": "rollover_t arithmetic is arithmetic modulo 2^w, with no undefined behaviour", "statement": "For every unsigned underlying width w, +, -, *, ++, --, unary -, ~-free operators of rollover_t compute the mathematical result modulo 2^w without undefined behaviour.", "quantifier": "every width w in {8,16,32,64} and every pair of values", "why_tests_cant": "2^128 input pairs; the promotion rules make a narrow width misbehave only at large values.", "anchors": ["include/stdx/rollover.hpp: rollover_t::operator+=, operator-=, operator*=, operator++, operator--"]}
{"id": "C08", "title": "rollover_t::cmp_less splits the cycle in half and is a strict total order on any half window", "statement": "For every value exactly half of the cycle is less than it and half is greater; on any set of values lying within half the bit range cmp_less is irreflexive, transitive, asymmetric and total and agrees with the numeric order of the offsets; it is invariant under adding the same amount to both sides.", "quantifier": "every width, every value, every window", "why_tests_cant": "Order properties quantify over triples of values at every width.", "anchors": ["include/stdx/rollover.hpp: cmp_less, cmp_equal"]}
{"id": "C09", "title": "saturate_cast clamps to the target range", "statement": "saturate_cast<To>(x) is x when x is representable in To, otherwise the nearest of numeric_limits<To>::min/max.", "quantifier": "every ordered pair of integral types (sign, width) and every value", "why_tests_cant": "The failing combinations of widths/signs and values are found only by considering all of them.", "anchors": ["include/stdx/numeric.hpp: saturate_cast"]}
{"id": "C10", "title": "intrusive_list is a sequence of nodes for every history", "statement": "For any sequence of push_front/push_back/insert/pop_front/pop_back/remove/clear with nodes that are not already linked, forward traversal from begin and backward traversal along prev give the same sequence, which is the one a plain list of node identities would have; nodes not in the list and not mentioned are untouched; with the checked policy popped/removed/cleared nodes have null links and can be inserted again.", "quantifier": "every finite set of nodes and every operation sequence", "why_tests_cant": "Pointer structures have unboundedly many shapes; head/tail/middle combinations multiply over histories.", "anchors": ["include/stdx/intrusive_list.hpp: intrusive_list", "include/stdx/detail/list_common.hpp: node_policy::checked"]}
{"id": "C11", "title": "intrusive_list with the unchecked policy is still a sequence of nodes", "statement": "With node_policy::unchecked, operations on nodes that are not currently in any list (whatever their stale link values) give the same sequence behaviour as C10.", "quantifier": "every initial content of the nodes' link fields and every operation sequence", "why_tests_cant": "Stale pointers take arbitrary values.", "anchors": ["include/stdx/intrusive_list.hpp: unchecked_insert, unchecked_push_front, unchecked_push_back", "include/stdx/detail/list_common.hpp: node_policy::unchecked"]}
{"id": "C12", "title": "the checked policy panics whenever a node that is already in the list is pushed", "statement": "With node_policy::checked, push_front/push_back/insert of a node that is already in the list calls panic, whatever the list.", "quantifier": "every reachable list and every node in it", "why_tests_cant": "The one undetected position is only reached for particular list shapes.", "anchors": ["include/stdx/detail/list_common.hpp: node_policy::checked::valid_for_push"]}
{"id": "C13", "title": "intrusive_forward_list is a sequence of nodes for every history", "statement": "As C10 for push_front/push_back/pop_front/clear of the singly linked list, both policies.", "quantifier": "every finite set of nodes and every operation sequence", "why_tests_cant": "As C10.", "anchors": ["include/stdx/intrusive_forward_list.hpp: intrusive_forward_list", "include/stdx/detail/list_common.hpp"]}
{"id": "C14", "title": "bitset is a set of indices below N for every history", "statement": "For any sequence of set/reset/flip (one, range, all), |=, &=, ^=, -, ~ and shifts, operator[], ==, count/size, any/all/none/empty and for_each give the answers of a mathematical subset of {0..N-1}; the bits of the storage above N are never observable.", "quantifier": "every size N>0, storage word width and operation sequence", "why_tests_cant": "Padding bits in the last storage word become set on some histories and must never leak.", "anchors": ["include/stdx/bitset.hpp: bitset::set, reset, flip, operator|=, operator&=, operator^=, operator~, operator==, count, all, any, none, operator[]"]}
{"id": "C15", "title": "bitset shifts move every bit by the shift amount and fill with zeros", "statement": "(b << s)[i] is b[i-s] if i>=s else false, (b >> s)[i] is b[i+s] if i+s<N else false.", "quantifier": "every N, storage word width, reachable value and shift amount", "why_tests_cant": "Multi-word carry logic over every shift amount and every reachable padding content.", "anchors": ["include/stdx/bitset.hpp: operator<<=, operator>>="]}
{"id": "C16", "title": "lowest_unset and transform_reduce depend only on the bits", "statement": "lowest_unset returns the least index below N that is unset, or N if there is none; transform_reduce folds exactly the set bits below N in ascending order; equal bitsets give equal answers.", "quantifier": "every N, storage width and reachable bitset", "why_tests_cant": "Observability of padding depends on how the value was reached.", "anchors": ["include/stdx/bitset.hpp: lowest_unset, transform_reduce"]}
{"id": "C17", "title": "bitset conversions round-trip", "statement": "bitset<N>{v} holds exactly the bits of v below N, to<T>() gives that value back for every unsigned integral type or enumeration T with at least N digits, and to_natural does so in the narrowest such type; place_bits holds exactly the listed bits; the string constructor reads the substring with the last character as bit 0.", "quantifier": "every N, storage width, value, position list and string", "why_tests_cant": "Quantifies over all values and all strings.", "anchors": ["include/stdx/bitset.hpp: bitset constructors, to, to_natural"]}
{"id": "C18", "title": "bitset for_each visits exactly the selected bits once, in ascending order", "statement": "for_each<set_bit> calls f once for each set index below N in ascending order, for_each<unset_bit> for each unset one, for_each<bit> for every index with its value.", "quantifier": "every N, storage width and reachable bitset", "why_tests_cant": "Quantifies over all values and word boundaries.", "anchors": ["include/stdx/bitset.hpp: for_each, set_bit, unset_bit, bit"]}
{"id": "C19", "title": "type_bitset bits are independent per type", "statement": "For any list of types, set<T>/reset<T>/flip<T> changes the answer of operator[] for T and for no other type.", "quantifier": "every type list (with or without duplicates)", "why_tests_cant": "Ranges over all type lists; the library documents de-duplication.", "anchors": ["include/stdx/bitset.hpp: type_bitset"]}
{"id": "C20", "title": "atomic_bitset operations are atomic: no interleaving loses an update", "statement": "For any number of threads running any programs of atomic_bitset operations, every interleaving yields results and a final value that a sequential execution of the same operations in some order on a mathematical set would give; set/reset/flip of an index return the previous value, so among threads that set the same clear bit exactly one observes it clear.", "quantifier": "every number of threads, program and schedule", "why_tests_cant": "Schedules cannot be enumerated.", "anchors": ["include/stdx/atomic_bitset.hpp: atomic_bitset::set, reset, flip, load, store", "include/stdx/atomic.hpp: atomic"]}
{"id": "C21", "title": "atomic read-modify-write operators return the right value under every schedule", "statement": "atomic<T>::fetch_op returns the old value and stores old op arg modulo 2^w; op=, ++ and -- return the value stored; under any interleaving of increments by several threads the final value is the initial one plus the number of increments modulo 2^w and the returned values are pairwise distinct as long as fewer than 2^w increments were made.", "quantifier": "every unsigned width, thread count and schedule", "why_tests_cant": "Schedules cannot be enumerated.", "anchors": ["include/stdx/atomic.hpp: atomic::fetch_add, fetch_sub, fetch_and, fetch_or, fetch_xor, operator+=, operator++"]}
{"id": "C22", "title": "byteswap and endian conversions are byte permutations and self-inverse", "statement": "byteswap reverses the byte sequence of the value for every width; byteswap(byteswap(x))=x; from_be(to_be(x))=x and from_le(to_le(x))=x on either endianness; to_be's in-memory byte sequence is most-significant first.", "quantifier": "every width and value", "why_tests_cant": "2^64 values.", "anchors": ["include/stdx/bit.hpp: byteswap, to_le, to_be, from_le, from_be"]}
{"id": "C23", "title": "bit_pack and bit_unpack are mutually inverse", "statement": "bit_pack(bit_unpack(x)) = x and bit_unpack(bit_pack(a...)) = a... with the first element most significant.", "quantifier": "every supported width pair and value", "why_tests_cant": "2^64 values.", "anchors": ["include/stdx/bit.hpp: bit_pack, bit_unpack"]}
{"id": "C24", "title": "bit_mask sets exactly the bits of the closed range", "statement": "bit_mask<T,Msb,Lsb>() (and the runtime-argument form) has bit i set iff Lsb<=i<=Msb, for scalar types and for arrays of words.", "quantifier": "every width, every Lsb<=Msb", "why_tests_cant": "All ranges over all array sizes.", "anchors": ["include/stdx/bit.hpp: bit_mask"]}
{"id": "C25", "title": "bit_destructure slices and loses nothing", "statement": "The pieces returned by bit_destructure<o1,..,ok>(x) are the bits [0,o1), [o1,o2), ... of x, and shifting them back reassembles x.", "quantifier": "every width, every increasing list of offsets, every value", "why_tests_cant": "Ranges over all offset lists and values.", "anchors": ["include/stdx/bit.hpp: bit_destructure"]}
{"id": "C26", "title": "bit counting, rotation and power-of-two functions meet their <bit> specification", "statement": "popcount, countl/countr zero/one, has_single_bit, bit_width, bit_floor, bit_ceil, rotl and rotr give the std::<bit> results for every width.", "quantifier": "every width, value and rotation amount", "why_tests_cant": "2^64 values; some fallbacks are wrong only above 2^32.", "anchors": ["include/stdx/bit.hpp: popcount, countl_zero, countr_zero, countl_one, countr_one, bit_width, bit_floor, bit_ceil, has_single_bit, rotl, rotr"]}
{"id": "C27", "title": "byterator reads back what was written and touches nothing else; alignment advance is exact", "statement": "write<V>(v) at p followed by a read<V> at p returns v; exactly the sizeof(V) bytes at p change; the iterator advances by sizeof(V); advance_to_alignment<V>() moves to the least multiple of sizeof(V) that is >= p.", "quantifier": "every memory content, address, value and size", "why_tests_cant": "All addresses, overlaps and sequences.", "anchors": ["include/stdx/byterator.hpp: byterator::peek, read, write, advance, advance_to_alignment"]}
{"id": "C28", "title": "span never designates elements outside its source", "statement": "Every span built by a constructor, conversion, first, last or subspan (static or dynamic, within preconditions) designates a contiguous sub-range of the source range; subspan composes.", "quantifier": "every source length, extent, offset and count, nested to any depth", "why_tests_cant": "All nested combinations of extents.", "anchors": ["include/stdx/span.hpp: span constructors, first, last, subspan, as_bytes"]}
{"id": "C29", "title": "sized conversion is the exact ceiling", "statement": "sized<T>{n}.in<U>() is the least number of U needed to store n T's.", "quantifier": "every pair of sizes and every n", "why_tests_cant": "Ranges over all sizes and counts.", "anchors": ["include/stdx/utility.hpp: sized, detail::size_conversion"]}
{"id": "C30", "title": "iterator algorithms call the function in order on exactly the documented elements", "statement": "for_each/for_each_n/transform/transform_n call the operation once per position in order with the i-th element of every range; for_each_butlast(n) stops n before the end whatever the iterator category; initial_medial_final calls iop on the first, fop on the last and mop on the rest.", "quantifier": "every range length, n, number of ranges and iterator category", "why_tests_cant": "All lengths and counts including n beyond the length.", "anchors": ["include/stdx/algorithm.hpp: for_each, for_each_n, for_each_butlast, for_each_butlastn, initial_medial_final, transform, transform_n"]}
{"id": "C31", "title": "transform_reduce is the left fold of the transformed elements", "statement": "transform_reduce(_n) returns rop(...rop(rop(init, top(x0..)), top(x1..))...).", "quantifier": "every range length and number of ranges", "why_tests_cant": "All lengths and functions.", "anchors": ["include/stdx/numeric.hpp: transform_reduce, transform_reduce_n"]}
{"id": "C32", "title": "ct_string concatenation and split are exact", "statement": "The concatenation has the characters of both in order and is associative with unit \"\"; split<S,c> gives (S,\"\") if c is absent and otherwise the parts before and after the first occurrence of c, so that first + c + second = S; type conversions round-trip.", "quantifier": "every string (embedded NULs included) and character", "why_tests_cant": "All strings.", "anchors": ["include/stdx/ct_string.hpp: operator+, split, ct_string_to_type, ct_string_from_type"]}
{"id": "C33", "title": "integer UDLs denote the positional value of the literal", "statement": "_c (and the size-suffixed literals) of any literal accepted by the lexer in base 2/8/10/16 with digit separators denotes its positional value when it fits the result type.", "quantifier": "every digit string", "why_tests_cant": "All literals.", "anchors": ["include/stdx/udls.hpp: parse_literal, _c, _k, _M, _G, _ki, _Mi, _Gi"]}
{"id": "C34", "title": "ct_format splits a format string losslessly into one piece per specifier", "statement": "For every format string the pieces handed to the per-argument formatter concatenate to the original, there is exactly one piece per counted specifier plus a final remainder, each piece contains exactly one specifier at its end, and the result of formatting is the concatenation of formatted pieces with runtime arguments kept in order.", "quantifier": "every format string and argument list", "why_tests_cant": "All strings, all mixes of compile-time and runtime arguments.", "anchors": ["include/stdx/ct_format.hpp: find_spec, count_specifiers, split_specifiers, ct_format"]}
{"id": "C35", "title": "ct_format named arguments locate their text", "statement": "For every compile-time named argument of a format result the recorded [begin,end) span of the result string is exactly the formatted text of that argument; for a runtime named argument the recorded index is its position in the argument tuple.", "quantifier": "every format string and argument list", "why_tests_cant": "All strings and nestings.", "anchors": ["include/stdx/ct_format.hpp: named_arg, apply_offset, format_result operator+"]}
{"id": "C36", "title": "the freestanding formatter writes the number it was given, in exactly formatted_size characters", "statement": "For every integer and base the characters written by format_to denote the value and formatted_size equals the number of characters written.", "quantifier": "every integer value, base 10 or 16, every prefix/suffix text", "why_tests_cant": "All integers including the minimum.", "anchors": ["include/stdx/detail/fmt.hpp: formatted_size, format_to"]}
{"id": "C37", "title": "call_by_need calls each function once with the first suitable contiguous arguments and drops nothing", "statement": "For every invocability relation: each function is called exactly once, in order, with the contiguous arguments that start leftmost and, at that start, are longest; every argument used by no call is passed through exactly once, in order; if some function has no suitable arguments compilation fails.", "quantifier": "every number of functions and arguments and every invocability relation", "why_tests_cant": "All invocability relations.", "anchors": ["include/stdx/call_by_need.hpp: compute_call_info, call_by_need"]}
{"id": "C38", "title": "tuple_cat, apply, fold and get are list operations", "statement": "tuple_cat of any tuples is the concatenation in order, apply passes every element of every tuple in order, fold_left/fold_right/join/tail/tuple_cons/tuple_snoc are the list functions.", "quantifier": "every number and size of tuples", "why_tests_cant": "All arities.", "anchors": ["include/stdx/tuple_algorithms.hpp: tuple_cat, apply, tuple_cons, tuple_snoc", "include/stdx/tuple.hpp: fold_left, fold_right, join, tail"]}
{"id": "C39", "title": "tuple filter, chunk_by and unique lose and reorder nothing they should not", "statement": "filter keeps exactly the elements whose type satisfies the predicate in order; the chunks of chunk_by concatenate to the input, are non-empty, homogeneous and maximal; unique keeps the first element of each chunk.", "quantifier": "every tuple and type function", "why_tests_cant": "All type sequences.", "anchors": ["include/stdx/tuple_algorithms.hpp: filter, chunk_by, unique"]}
{"id": "C40", "title": "tuple sort, gather_by, to_sorted_set and to_unsorted_set meet their specification", "statement": "sort is a permutation ordered by type name; gather_by groups all elements of the same type in one chunk; to_sorted_set has exactly one element of every type in name order; to_unsorted_set keeps the first element of every type in original order.", "quantifier": "every tuple, every (unstable) sorting function meeting std::sort's contract", "why_tests_cant": "std::sort is only specified up to permutation of equal keys.", "anchors": ["include/stdx/tuple_algorithms.hpp: sort, gather_by, to_sorted_set, to_unsorted_set"]}
{"id": "C41", "title": "cartesian_product enumerates all combinations once in lexicographic order", "statement": "The result has one tuple for each choice of one element per input, in lexicographic order of positions; its size is the product of sizes; the product of no tuples is one empty tuple.", "quantifier": "every number and sizes of tuples", "why_tests_cant": "All arities.", "anchors": ["include/stdx/tuple_algorithms.hpp: cartesian_product, cartesian_product_copy"]}
{"id": "C42", "title": "tuple comparison is lexicographic and one_of is membership", "statement": "operator== is element-wise equality, operator<=> is the lexicographic order; x == one_of{...} iff x equals some member.", "quantifier": "every tuple length and element order", "why_tests_cant": "All lengths and values.", "anchors": ["include/stdx/tuple.hpp: operator==, operator<=>, one_of"]}
{"id": "C43", "title": "env queries resolve to the innermost binding", "statement": "A query answers with the first matching property; extending an environment makes the new bindings win over the old ones and leaves all other queries unchanged; appending makes the later environment win.", "quantifier": "every environment and query; every extension and append of environments made with make_env_t, extend_env_t and append_env_t", "why_tests_cant": "All environments built in any way.", "anchors": ["include/stdx/env.hpp: env::query, make_env_t, extend_env_t, append_env_t"]}
{"id": "C44", "title": "stdx::optional behaves as an optional for every value other than the tombstone", "statement": "For non-tombstone values construct/assign/emplace/reset/has_value/value/value_or/transform/and_then/or_else/comparison behave as std::optional; transform obeys the functor laws, and_then the monad laws, and transform over several optionals the applicative laws, when no intermediate result is the tombstone.", "quantifier": "every value type, tombstone, history and function", "why_tests_cant": "All histories and functions.", "anchors": ["include/stdx/optional.hpp: optional"]}
{"id": "C45", "title": "latched and cached evaluate at most once between resets", "statement": "In any history of accesses a latched value calls its function at most once and every access returns that result; a cached value calls it at most once after each reset/refresh; a call that throws leaves the object empty so that a later access evaluates again.", "quantifier": "every history of accesses, resets and refreshes, and every pattern of throwing", "why_tests_cant": "All histories.", "anchors": ["include/stdx/latched.hpp: latched", "include/stdx/cached.hpp: cached"]}
{"id": "C46", "title": "argument-batching and binding utilities preserve argument order", "statement": "for_each_n_args calls the function on consecutive batches covering all arguments in order; bind_front/bind_back call with bound arguments before/after the call arguments.", "quantifier": "every number of arguments and batch size", "why_tests_cant": "All arities.", "anchors": ["include/stdx/for_each_n_args.hpp: for_each_n_args", "include/stdx/functional.hpp: bind_front, bind_back"]}
{"id": "C47", "title": "counting_iterator satisfies the random access iterator laws", "statement": "Incrementing n times is i+n, decrementing undoes it, (i+n)-i = n, y+(x-y) = x, ordering and equality agree with the difference, and a loop from a to b visits a, a+1, ..., b-1.", "quantifier": "every start value and offset", "why_tests_cant": "All values.", "anchors": ["include/stdx/iterator.hpp: counting_iterator"]}
{"id": "C48", "title": "type_map lookup returns the associated value or the default", "statement": "With distinct keys, lookup of a key returns the value paired with it and a missing key gives the default; reverse lookup likewise when values are distinct.", "quantifier": "every map and key", "why_tests_cant": "All maps.", "anchors": ["include/stdx/utility.hpp: type_map, type_lookup_t, reverse_type_lookup_t"]}
{"id": "C49", "title": "erase returning 0 leaves the container unchanged", "statement": "For cx_set, cx_map and cx_multimap: if an erase reports 0, the container's observable contents are unchanged.", "quantifier": "every container state reachable by any history and every erase argument", "why_tests_cant": "The violating multimap states (a key present with an empty value set) are only produced by particular histories.", "anchors": ["include/stdx/cx_multimap.hpp: cx_multimap::erase", "include/stdx/cx_set.hpp: cx_set::erase", "include/stdx/cx_map.hpp: cx_map::erase"]}
{"id": "C50", "title": "tuple transform, for_each, enumerate and the predicates visit corresponding elements in order", "statement": "With any number of tuples the function is called once per index, left to right, with the elements at that index, up to the end of the shortest tuple; all_of, any_of and none_of stop at the first decisive answer; enumerate also passes the index.", "quantifier": "every number and sizes of tuples, every effectful function", "why_tests_cant": "All arities, unequal lengths and effects.", "anchors": ["include/stdx/tuple_algorithms.hpp: transform, for_each, enumerate, all_of, any_of, none_of", "include/stdx/tuple.hpp: transform, for_each"]}
{"id": "C51", "title": "tuple lookup by type finds the one element that has it", "statement": "get<T> compiles iff exactly one element has type T (or an index function that gives T), and returns that element; contains_type says whether some element does.", "quantifier": "every tuple, index functions and type", "why_tests_cant": "All type sequences.", "anchors": ["include/stdx/tuple.hpp: get, tuple_impl", "include/stdx/tuple_algorithms.hpp: contains_type"]}
{"id": "C52", "title": "type_as_string is the compiler's name of the type", "statement": "type_as_string<T>() returns exactly the name the compiler gives T, so types with different names get different strings.", "quantifier": "every type name, GCC and Clang", "why_tests_cant": "Names are cut out of __PRETTY_FUNCTION__ by searching for characters that can also occur inside a name; tests try three names.", "anchors": ["include/stdx/ct_conversions.hpp: type_as_string"]}
{"id": "C53", "title": "enum_as_string is the enumerator's identifier", "statement": "enum_as_string<V>() returns the unqualified identifier of the enumerator, for every scope the enumeration is declared in; for a value with no enumerator it returns the compiler's cast expression such as (E)17.", "quantifier": "every qualifier and identifier, and every cast expression", "why_tests_cant": "All scopes (namespaces, anonymous namespaces, functions, classes) and names.", "anchors": ["include/stdx/ct_conversions.hpp: enum_as_string"]}
{"id": "C54", "title": "is_same_template_v compares templates", "statement": "is_same_template_v<T, U> is true exactly when T and U are specialisations of the same template.", "quantifier": "every pair of template names and argument lists", "why_tests_cant": "All names and argument lists, nested templates included.", "anchors": ["include/stdx/ct_conversions.hpp: template_base", "include/stdx/type_traits.hpp: is_same_template_v", "include/stdx/concepts.hpp: same_template_as"]}
{"id": "C55", "title": "forward_like is std::forward_like", "statement": "forward_like<T>(u) has the constness of T added to u and the value category of T, as std::forward_like has.", "quantifier": "every combination of const, volatile and reference of T and of the argument", "why_tests_cant": "The tests only use arguments that are not references; the combination that differs is not tried.", "anchors": ["include/stdx/utility.hpp: forward_like, forward_like_t"]}
{"id": "C56", "title": "as_unsigned and as_signed keep the bits and undo each other", "statement": "The result has the same width and bits as the argument, is unchanged when the signedness is already right, and converting back gives the original value. bool is rejected.", "quantifier": "every integer type and value", "why_tests_cant": "All values of all widths.", "anchors": ["include/stdx/utility.hpp: as_unsigned, as_signed"]}
{"id": "C57", "title": "is_aligned_with is divisibility", "statement": "is_aligned_with<T>(v) is true exactly when the alignment of T divides v.", "quantifier": "every alignment, integer value (signed, wider than a pointer) and address", "why_tests_cant": "All values and widths.", "anchors": ["include/stdx/utility.hpp: is_aligned_with"]}
{"id": "C58", "title": "smallest_uint_t is the narrowest type that fits", "statement": "For N up to 64, smallest_uint_t<N> has at least N bits and no narrower standard unsigned type does.", "quantifier": "every N up to 64", "why_tests_cant": "Boundaries on both sides of every width.", "anchors": ["include/stdx/bit.hpp: smallest_uint, smallest_uint_t"]}
{"id": "C59", "title": "arity counts parameters", "statement": "arity_t of a function or function object is its number of parameters; of a generic callable, the least number of arguments it can be called with. A callable that cannot be called with any number of arbitrary arguments has none.", "quantifier": "every callable and every number of parameters", "why_tests_cant": "All parameter counts and acceptance sets.", "anchors": ["include/stdx/function_traits.hpp: arity_t, generic_arity, nongeneric_arity_t"]}
{"id": "C60", "title": "STDX_MAP applies a macro to every argument", "statement": "STDX_MAP(f, x1, ..., xn) preprocesses to f(x1), ..., f(xn), with every f(xi) expanded: exactly one application per argument, in order, separated by commas and with nothing else left over; with no arguments it preprocesses to nothing. Arguments may contain parentheses.", "quantifier": "every set of program macros, every function name or function-like macro f, every list of arguments (any length, any tokens)", "why_tests_cant": "tests try zero, one and three arguments and one parenthesised argument; the number of scans, the end marker and the alternation of the two recursive macros depend on the whole list", "anchors": ["include/stdx/pp_map.hpp: STDX_MAP, STDX_EVAL, STDX_MAP_A, STDX_MAP_B, STDX_MAP_NEXT, STDX_MAP_GET_END", "include/stdx/ct_format.hpp: STDX_CT_FORMAT"]}
{"id": "C61", "title": "is_function_v holds exactly for function types", "statement": "is_function_v<T> is true if and only if T is a function type, whatever its cv, reference and noexcept qualifiers; it is false for references to functions and all object types.", "quantifier": "every C++ type", "why_tests_cant": "the trait is a trick on const and references; tests try a few types of the infinite set", "anchors": ["include/stdx/type_traits.hpp: is_function_v"]}
{"id": "C62", "title": "is_function_object_v and is_callable_v", "statement": "is_function_object_v<T> is true exactly for classes with a call operator, overloaded, templated or not; is_callable_v<T> exactly for these and for functions.", "quantifier": "every C++ type, every assignment of call operators", "why_tests_cant": "tests try a few types; the trait derives from the class", "anchors": ["include/stdx/type_traits.hpp: is_function_object_v, is_callable_v, detect_call_operator"]}
{"id": "C63", "title": "is_specialization_of_v recognises specializations", "statement": "is_specialization_of_v<U, T> (type, value or mixed) is true exactly for the specializations of T, cv-qualified or not, and for references to them.", "quantifier": "every type and every class template", "why_tests_cant": "all types and qualifications", "anchors": ["include/stdx/type_traits.hpp: is_specialization_of_v, is_type_specialization_of_v, is_value_specialization_of_v"]}
{"id": "C64", "title": "function traits name the parts of a signature", "statement": "For every callable with signature R(Args...), whether a function, function pointer, member function pointer or class with one call operator, return_t, args_t, nth_arg_t and their decayed versions name R, Args and each argument, and obj_arg_t the object type with its qualifiers; decayed arguments can be stored.", "quantifier": "every signature and every kind of callable", "why_tests_cant": "the specializations are written out by hand for each qualifier; tests try some combinations", "anchors": ["include/stdx/function_traits.hpp: function_traits, return_t, args_t, decayed_args_t, nth_arg_t, decayed_nth_arg_t, obj_arg_t"]}
{"id": "C65", "title": "expand_t undoes shrink_t", "statement": "expand_t<shrink_t<T>> is T, and expand_t<T> is T for a type that was not shrunk.", "quantifier": "every C++ type", "why_tests_cant": "the type goes through the return type of a function, which changes some types", "anchors": ["include/stdx/type_traits.hpp: type_identity, shrink_t, expand_t"]}
{"id": "C66", "title": "get gives references like std::get", "statement": "For an element of type T, get on an lvalue, a const lvalue, an rvalue and a const rvalue of a stdx::tuple has the type that std::get has on a std::tuple.", "quantifier": "every element type, every value category", "why_tests_cant": "references in tuples combine with every category", "anchors": ["include/stdx/tuple.hpp: get, operator[]"]}
{"id": "C67", "title": "structured bindings of tuples", "statement": "A structured binding of a stdx::tuple, by value, const value, reference or rvalue reference, introduces names with the types that one of a std::tuple with the same elements introduces.", "quantifier": "every list of element types, every form of binding, const tuple or not, every position", "why_tests_cant": "the types of the names depend on element type, form of binding and constness together", "anchors": ["include/stdx/tuple_destructure.hpp: tuple_size, tuple_element", "include/stdx/tuple.hpp: get"]}
{"id": "C68", "title": "make_array and template_for_each call once per element, in order", "statement": "make_array<N>(f) calls f<0>(), ..., f<N-1>() once each, in this order, and the array holds their results in the same order; make_array(sequence, f) does so for the values of any sequence, and make_array<D> takes the values of a template. No result changes its value. template_for_each calls f for each element of the list once, in order.", "quantifier": "every function with effects, every sequence, every type of result", "why_tests_cant": "order of effects and element types over all sequences; sequences without 0", "anchors": ["include/stdx/array.hpp: make_array", "include/stdx/type_traits.hpp: template_for_each"]}
{"id": "C69", "title": "make_array keeps the values it is given", "statement": "make_array(x1, ..., xn) of integers, with or without an explicit element type, holds x1, ..., xn unchanged, in order, in an element type that can represent all of them.", "quantifier": "every list of values of any integer types, any width of int", "why_tests_cant": "integer promotion and common types over all combinations of types and all values", "anchors": ["include/stdx/array.hpp: make_array"]}
{"id": "C70", "title": "priority_t selects the highest viable overload", "statement": "A call with priority<N> resolves to the viable overload whose priority is the highest not above N; overloads with distinct priorities are never ambiguous.", "quantifier": "every N and every overload set with any priorities and any subset viable", "why_tests_cant": "all overload sets", "anchors": ["include/stdx/priority.hpp: priority_t, priority"]}
{"id": "C71", "title": "atomics with any memory order", "statement": "Whatever memory orders are passed to the operations of an atomic or atomic_bitset, relaxed included, its operations take effect one at a time: no update is lost, exactly one of the threads setting a clear bit sees it clear, increments return different values, and the answers each thread gets are those of some interleaving of the calls.", "quantifier": "every program of every number of threads, every choice of memory orders, every execution the C++ memory model allows for the object", "why_tests_cant": "the machines tests run on show few of the executions relaxed orders allow", "anchors": ["include/stdx/atomic.hpp: atomic", "include/stdx/atomic_bitset.hpp: atomic_bitset"]}
{"id": "C72", "title": "tuple algorithms copy lvalues and move rvalues once", "statement": "The tuple algorithms that make new tuples (tuple_cat, tuple_cons, tuple_snoc, tail, make_tuple, filter, sort, chunk_by, gather_by, unique, to_sorted_set, to_unsorted_set) initialize every element of the result exactly once from the corresponding element of their arguments: elements of an lvalue are copied and the argument is unchanged, elements of an rvalue are moved, and no element of the result is made from an object that has already been moved from.", "quantifier": "every element type, every tuple, every value category of each argument and every order in which the compiler evaluates function arguments", "why_tests_cant": "which object is moved from twice depends on the value categories, on the algorithm's index arrays and on the order of evaluation, which differs between compilers", "anchors": ["include/stdx/tuple_algorithms.hpp: tuple_cat, tuple_cons, tuple_snoc, filter, sort_by, chunk_by, gather_by, unique, to_sorted_set, to_unsorted_set", "include/stdx/tuple.hpp: tail, make_tuple"]}
{"id": "C73", "title": "functions see the elements as they were", "statement": "transform, for_each, enumerate, all_of, any_of, none_of, fold_left, fold_right and for_each_n_args give each function call its elements as they were before the algorithm started, with the value category of the tuple, whatever earlier calls do to their own elements; what a call leaves in its elements is what the tuple holds afterwards, and nothing else changes.", "quantifier": "every function, including one that changes or moves from its arguments, every number of tuples, of elements, and every value category", "why_tests_cant": "functions with side effects on their arguments and all combinations of categories and sizes cannot be enumerated", "anchors": ["include/stdx/tuple_algorithms.hpp: transform, for_each, enumerate, all_of, any_of, none_of", "include/stdx/tuple.hpp: fold_left, fold_right", "include/stdx/for_each_n_args.hpp: for_each_n_args"]}
{"id": "C74", "title": "cartesian_product_copy copies the elements", "statement": "Every combination cartesian_product_copy returns holds the values of the elements it combines, also when a tuple is passed as an rvalue.", "quantifier": "every number of tuples, of elements, every value category and every order of evaluation of function arguments", "why_tests_cant": "whether a combination gets the value depends on the categories, on the sizes of the later tuples and on the compiler's order of evaluation", "anchors": ["include/stdx/tuple_algorithms.hpp: cartesian_product_copy"]}
{"id": "C75", "title": "call_by_need gives each function the arguments as passed", "statement": "Every function called by call_by_need sees the arguments chosen for it as they were passed, and the arguments no function takes come back untouched.", "quantifier": "every list of functions and arguments, every value category, every effect of a function on its arguments", "why_tests_cant": "it depends on which functions share an argument and on what the earlier ones do with it", "anchors": ["include/stdx/call_by_need.hpp: call_by_need"]}
{"id": "C76", "title": "saturate_cast clamps floating-point values", "statement": "saturate_cast from or to a floating-point type gives the value of the target nearest the argument (its integer part, for an integer target), clamped to the target's range, for every argument including infinities.", "quantifier": "every floating-point format, every integer type and every value", "why_tests_cant": "the boundary cases depend on the precisions, exponent ranges and sizes of both types; some are undefined behaviour that tests do not show", "anchors": ["include/stdx/numeric.hpp: saturate_cast"]}
{"id": "C77", "title": "references into containers stay valid", "statement": "A reference obtained from cx_vector, cx_queue, cx_map, cx_set or cx_multimap (to a set, or to a value in one) designates the same element until that element is removed, whatever else happens to the container: reading it gives the element and assigning through it changes the element.", "quantifier": "every element type, capacity and history of operations before and after the reference is obtained", "why_tests_cant": "whether an element has moved depends on the whole history, the wrap-around of the indices and the position of the element", "anchors": ["include/stdx/cx_queue.hpp: front, back, push", "include/stdx/cx_vector.hpp: operator[], back", "include/stdx/cx_map.hpp: get, erase", "include/stdx/cx_set.hpp: begin", "include/stdx/cx_multimap.hpp: get, insert, erase"]}
{"id": "C78", "title": "optional keeps the value category", "statement": "value, operator*, transform, and_then (member, free and |) hand the function or caller the optional's own value by the kind of reference the optional is used by, without copying; value_or, or_else and copying or moving an optional copy from lvalues and const rvalues and move from other rvalues, only when there is a value, and use the default or the function only when there is none; emplace, assignment and reset change nothing but the optional and the rvalues they take.", "quantifier": "every value type (also one that is unpacked), value category, tombstone, default and function, and every effect the function has on its arguments", "why_tests_cant": "the four overloads of every member and the effects of a function on the value multiply; a missed move or an extra copy shows only for particular types", "anchors": ["include/stdx/optional.hpp: value, value_or, or_else, transform, and_then, operator|, emplace, reset"]}
{"id": "C79", "title": "binders own what they bind", "statement": "bind_front and bind_back copy or move the function and the arguments into the binder once; whatever happens to other objects afterwards, every call gives the function the values the binder owns, by the kind of reference the binder is used by (as std::bind_front does), followed or preceded by the call's arguments as they are; calls of a const binder do not change it.", "quantifier": "every function object, list of bound arguments and history of calls and of changes to other objects", "why_tests_cant": "the histories and the effects of functions on bound values and on themselves are unbounded", "anchors": ["include/stdx/functional.hpp: bind_front, bind_back"]}
{"id": "C80", "title": "assigning to an optional is as for std::optional", "statement": "o = x compiles and does for a stdx::optional what it does for a std::optional: a value makes it hold the value, std::nullopt and {} make it empty.", "quantifier": "every value type and type of the right-hand side, by the properties the constraints ask for", "why_tests_cant": "it is overload resolution over all types", "anchors": ["include/stdx/optional.hpp: operator=, optional"]}
{"id": "C81", "title": "default memory orders give one order for all objects", "statement": "If threads share any number of atomic and atomic_bitset objects and no call asks for a weaker memory order, then all their calls, on all objects, take effect in one order that agrees with the order of each thread's own calls: in particular two threads that each store to one atomic and then load the other cannot both miss the other's store. Conversely every such order of the calls can happen.", "quantifier": "every set of objects, every program of every number of threads, every execution the C++ memory model allows, every moment of it", "why_tests_cant": "whether an operator or a member without an order argument passes on a weaker order shows only in rare executions on some machines", "anchors": ["include/stdx/atomic.hpp: atomic", "include/stdx/atomic_bitset.hpp: atomic_bitset"]}
{"id": "C82", "title": "release and acquire orders publish", "statement": "Calls may pass any memory order the operation allows, and each call performs its one operation with that order. If the calls that set a bit of an atomic_bitset, or modify an atomic, release, then an acquiring call that finds the bit set, or a value other than the initial one, comes after such a call: everything that thread did before is seen by everything this thread does afterwards, even through relaxed calls on other objects.", "quantifier": "every set of objects, every program of every number of threads with every choice of orders, every execution the C++ memory model allows", "why_tests_cant": "a lost release or acquire goes unnoticed on machines that order memory strongly", "anchors": ["include/stdx/atomic.hpp: atomic", "include/stdx/atomic_bitset.hpp: atomic_bitset"]}
{"id": "C83", "title": "a bit of an atomic_bitset works as a lock", "statement": "If threads take a bit with an acquiring set that returns the bit clear, and give it back with a releasing reset, then of any two successful attempts one comes after the end of the other's critical section, and calls made by two threads while holding the bit never race. Other bits of the same atomic_bitset may be changed at the same time, with any memory order.", "quantifier": "every program of every number of threads in which a thread gives back only a bit it holds, every execution the C++ memory model allows", "why_tests_cant": "exclusion and visibility must hold for every schedule and every reordering the memory model allows", "anchors": ["include/stdx/atomic_bitset.hpp: atomic_bitset"]}
{"id": "C84", "title": "with_result_of, latched, cached and transform build a function's result in place", "statement": "A result handed over through with_result_of - by the user to an emplace or an optional's constructor, by latched and cached on the first access, by optional::transform and the free transform - comes from exactly one call of the function, is what the new object holds, and is built where it is kept: a function that returns by value costs no copy or move, so non-movable results work. In every history of a latched or cached object nothing but the calls happens to a value.", "quantifier": "every callable (lambda, const or mutable, final class, function pointer; returning an object, an lvalue, an xvalue), every kind of result type, every place that stores it, every history, with and without the compilers' elision through conversion functions", "why_tests_cant": "which constructor an initialization selects depends on the result type and the rules of the language; tests use a few well behaved types and one compiler's rules", "anchors": ["include/stdx/functional.hpp: with_result_of", "include/stdx/latched.hpp: latched", "include/stdx/optional.hpp: optional, transform"]}
{"id": "C85", "title": "containers stay usable when an element's copy or assignment throws", "statement": "When copying, moving or assigning an element throws in the middle of push, pop, insert, insert_or_assign or erase, the container has the basic guarantee: nothing afterwards is undefined, and what it holds is known - a push or insert adds one half-assigned element, an erase or pop removes one. A user may expect more: that the call is undone, that a set still has no duplicates and a map no wrong associations, and that a queue's size agrees with its elements.", "quantifier": "every history of calls that return and calls that throw, every value an assignment may leave behind, every capacity and element type", "why_tests_cant": "the repository's tests use elements that never throw, and the state left behind depends on what was in the unused slots before", "anchors": ["include/stdx/cx_vector.hpp: cx_vector", "include/stdx/cx_queue.hpp: cx_queue", "include/stdx/cx_set.hpp: cx_set", "include/stdx/cx_map.hpp: cx_map", "include/stdx/cx_multimap.hpp: cx_multimap"]}
{"id": "C86", "title": "the value inside a stdx::optional is made and destroyed in turn, exceptions included", "statement": "Whatever element operations and user functions return or throw, a stdx::optional holds exactly one live object until it is destroyed, which destroys as many objects as were made; a transform, and_then, or_else, value_or or assignment that throws leaves the optional usable, and an emplace or reset that throws leaves it empty, as with std::optional.", "quantifier": "every history of calls, every choice of which constructor, assignment, comparison or function throws, every element type", "why_tests_cant": "the tests' types never throw and do not count their objects", "anchors": ["include/stdx/optional.hpp: optional"]}
{"id": "C87", "title": "containers hold what they were given and let go of what is removed", "statement": "Everything in the slots of a cx_vector, cx_queue, cx_set, cx_map or cx_multimap, and everything they hand out, is a value they were given or the initial value of a slot; there are always as many objects as the capacity says. An element that has been removed is no longer kept alive: what it owns (a shared_ptr, a file) is released when pop, erase or clear return.", "quantifier": "every history of calls, every capacity, every predicate on values, every element type", "why_tests_cant": "the tests look at the elements, not at the slots behind them, and use element types that own nothing", "anchors": ["include/stdx/cx_vector.hpp: cx_vector", "include/stdx/cx_queue.hpp: cx_queue", "include/stdx/cx_set.hpp: cx_set", "include/stdx/cx_map.hpp: cx_map"]}
{"id": "C88", "title": "atomic<bool>, atomic of an enumeration and of a pointer behave as their type", "statement": "stdx::atomic<T> for bool, enumerations and pointers offers the operations of std::atomic<T> that the documentation does not exclude, whether the configuration keeps T as itself or as an integer; an atomic<bool> kept as an integer behaves as one bool under every interleaving of any number of threads.", "quantifier": "every kind of T and both representations, every width of the integer, every program of every number of threads, every schedule", "why_tests_cant": "member functions of a class template are checked only when used, and the tests with a configured representation use load, exchange and the default constructor only; interleavings cannot be enumerated", "anchors": ["include/stdx/atomic.hpp: atomic", "test/detail/atomic_cfg.hpp", "docs/atomic.adoc"]}
{"id": "C89", "title": "CX_WRAP, CT_WRAP and CX_VALUE keep the meaning of their argument", "statement": "CX_WRAP(e) and CT_WRAP(e) give the value of e: either e is evaluated exactly once, or e has that value whenever it is evaluated and nothing is evaluated now; what the documentation lists as compile-time-friendly is never evaluated at run time; a type gives that type; CX_VALUE(e) gives a callable with the value of e.", "quantifier": "every expression of literals, variables, calls, conditions and assignments; every assignment of storage, constness and types to the variables and of bodies to the functions; every state", "why_tests_cant": "tests wrap a dozen expressions; which branch is taken depends on what the closure captures and on constant evaluation of the whole expression", "anchors": ["include/stdx/utility.hpp: CX_VALUE, CX_WRAP, CT_WRAP, STDX_IS_TYPE, ct", "docs/utility.adoc", "docs/ct_format.adoc"]}
{"id": "C90", "title": "A panic reaches the installed handler once, with its arguments", "statement": "stdx::panic and STDX_PANIC evaluate their arguments once and call the panic function of the handler installed for the given types exactly once with the compile-time string, if there is one, and the values of the arguments; without a handler nothing happens.", "quantifier": "every list of argument expressions, every program, state and set of installed handlers", "why_tests_cant": "the tests pass no arguments besides the reason; whether the macro compiles depends on what its arguments name", "anchors": ["include/stdx/panic.hpp: panic, STDX_PANIC, panic_handler", "docs/panic.adoc"]}
{"id": "C91", "title": "Latched values may depend on each other", "statement": "In any family of latched objects whose functions use the values of others, every use ends, each function is called at most once, and each object has the value its function defines, whatever is asked for first.", "quantifier": "every family of objects and every function that reads and changes a world, asks for values and for has_value; every use of the objects", "why_tests_cant": "the tests use one object whose function uses none; dependency graphs and orders of access are unbounded", "anchors": ["include/stdx/latched.hpp: latched", "include/stdx/cached.hpp: cached"]}
{"id": "C92", "title": "Several intrusive lists can share a pool of nodes", "statement": "Lists whose nodes come from one pool do not disturb each other: each behaves as a plain list, a node taken out of one can be put into another, lists can be swapped, dropped and made anew, and wrong uses (a node of another list) are detected.", "quantifier": "every number of lists and nodes, and every history of operations on them", "why_tests_cant": "the tests use one list at a time; histories over several lists are unbounded", "anchors": ["include/stdx/intrusive_list.hpp: intrusive_list::push_front, push_back, insert, remove, pop_front, pop_back, clear", "include/stdx/detail/list_common.hpp: node_policy::checked"]}
{"id": "C93", "title": "Iterators survive changes to an intrusive list, and loops may change it", "statement": "An iterator stays at its element whatever is inserted or removed around it; a loop that removes elements visits every element and removes just those asked for; a loop that appends elements visits those too.", "quantifier": "every list history, any number of iterators, every predicate and every function from elements to elements to append", "why_tests_cant": "the tests iterate over lists that do not change; the interleavings of iteration and change are unbounded", "anchors": ["include/stdx/intrusive_list.hpp: intrusive_list::begin, end, insert, remove, push_back, iterator_t", "include/stdx/detail/list_common.hpp: node_policy::checked::on_pop, node_policy::unchecked"]}
{"id": "C94", "title": "A loop over a cx_set or cx_map may erase the element it is at", "statement": "A loop over a cx_set or cx_map that erases the elements satisfying a condition visits every element once and removes just those, whichever way the loop is written.", "quantifier": "every set and map with distinct keys, every condition, both ways of taking end()", "why_tests_cant": "the tests do not erase while iterating; sizes, contents and conditions are unbounded", "anchors": ["include/stdx/cx_set.hpp: cx_set::begin, end, erase", "include/stdx/cx_map.hpp: cx_map::begin, end, erase", "include/stdx/cx_multimap.hpp: cx_multimap::erase(key)"]}
{"id": "C95", "title": "A function that throws ends the algorithm it was given to at that call", "statement": "If a function given to a range algorithm, a tuple algorithm, for_each_n_args, make_array or template_for_each throws, the calls before it have been made once each and in order, no call is made after it, the results already kept are destroyed last first, and the exception reaches the caller; if no function throws the algorithm ends as usual.", "quantifier": "all functions with side effects, all calls at which they may throw, all ranges and tuples", "why_tests_cant": "no test throws from a function given to an algorithm; lengths and the throwing call are unbounded", "anchors": ["include/stdx/algorithm.hpp: transform, transform_n, for_each, for_each_n, for_each_butlast, for_each_butlastn, initial_medial_final", "include/stdx/numeric.hpp: transform_reduce, transform_reduce_n", "include/stdx/tuple_algorithms.hpp: transform, for_each, enumerate, all_of, any_of, none_of", "include/stdx/tuple.hpp: fold_left, fold_right, join", "include/stdx/for_each_n_args.hpp: for_each_n_args", "include/stdx/array.hpp: make_array", "include/stdx/type_traits.hpp: template_for_each"]}
{"id": "C96", "title": "for_each gives back the function it was given", "statement": "The for_each and enumerate algorithms over tuples, bitsets and ranges accept a function object passed as an lvalue, a const lvalue or an rvalue, of a copyable or move-only type, and return it with the state it has after the calls: the object itself if it was passed by reference as an lvalue, otherwise an object holding that state.", "quantifier": "every function object type, value category, state and number of tuples", "why_tests_cant": "the tests pass rvalue lambdas; type properties, value categories and states are not enumerable", "anchors": ["include/stdx/tuple.hpp: for_each", "include/stdx/tuple_algorithms.hpp: for_each, unrolled_for_each, enumerate, unrolled_enumerate", "include/stdx/bitset.hpp: for_each, type_bitset::for_each", "include/stdx/algorithm.hpp: for_each, for_each_n, for_each_butlast, for_each_butlastn, initial_medial_final", "docs/tuple_algorithms.adoc: for_each"]}
{"id": "C97", "title": "Tuple algorithms call the function once per element, in order, and nothing else", "statement": "for_each, enumerate, transform, all_of, any_of and the comparison of tuples call the user's function or operator for the elements from first to last, once each and no further than needed, and call nothing else.", "quantifier": "all tuples, functions with side effects, result types with and without operators of their own, and orders of evaluation", "why_tests_cant": "the tests use functions returning void or bool without observing order; types, tuples and evaluation orders are unbounded and compiler-dependent", "anchors": ["include/stdx/tuple_algorithms.hpp: for_each, enumerate, transform, all_of, any_of", "include/stdx/tuple.hpp: for_each, transform, operator<=>", "include/stdx/type_traits.hpp: template_for_each"]}
{"id": "C98", "title": "STATIC_ASSERT compiles exactly if its condition is true", "statement": "STATIC_ASSERT(cond, ...) compiles iff cond is true, for every condition static_assert takes; otherwise the error shows the formatted message.", "quantifier": "all conditions, as token sequences and values, and all messages", "why_tests_cant": "the tests use the literals true and false; conditions and messages are unbounded", "anchors": ["include/stdx/static_assert.hpp: STATIC_ASSERT"]}
{"id": "C99", "title": "is_structural_v has no false positives and finds types that are easy to make", "statement": "If is_structural_v<T> is true, T can be the type of a template parameter. The converse holds for scalars, lvalue references, classes with one constexpr default constructor, and classes whose one constructor apart from copying takes at most ten values of such types.", "quantifier": "all types, as sets of constructors with any parameters, defaults and constant-evaluation results, and all limits on constant evaluation", "why_tests_cant": "the tests list about ten types; types nest without bound", "anchors": ["include/stdx/type_traits.hpp: is_structural_v", "include/stdx/concepts.hpp: structural"]}
{"id": "C100", "title": "Arguments may be references to the container's own elements", "statement": "push_back, push, insert, put, erase and contains of the containers, called with references to their own keys and values, do what they do for copies made before the call.", "quantifier": "all contents, all elements that each argument refers to, all equality functions", "why_tests_cant": "the tests pass values; the elements that arguments refer to, and the contents, are unbounded", "anchors": ["include/stdx/cx_vector.hpp: push_back", "include/stdx/cx_queue.hpp: push", "include/stdx/cx_set.hpp: contains, insert, erase", "include/stdx/cx_map.hpp: contains, insert_or_assign, erase", "include/stdx/cx_multimap.hpp: insert, erase"]}
{"id": "C101", "title": "rollover_t has a common type with integers and other rollover_t", "statement": "std::common_type_t of two rollover_t, or of a rollover_t and an integer in either order, is the rollover_t of the unsigned type of higher rank.", "quantifier": "all pairs of integer types, on all platforms", "why_tests_cant": "the tests use one type at a time, with std::chrono; pairs of types and platforms are not enumerable", "anchors": ["include/stdx/rollover.hpp: std::common_type specializations"]}
{"id": "C102", "title": "Formatting what ct_format leaves gives what formatting all at once gives", "statement": "For every format string and every mix of compile-time arguments, run-time arguments and results of ct_format, formatting the result's string with the result's arguments gives the text that formatting the whole string with all the arguments gives; with only compile-time arguments the result's string is that text.", "quantifier": "every format string, formatter of values, list of arguments and nesting of results", "why_tests_cant": "All strings and all ways to divide the arguments between compile time and run time.", "anchors": ["include/stdx/ct_format.hpp: ct_format, format1, format_result"]}
{"id": "C103", "title": "Tuples hold the values they are made from", "statement": "A tuple made by tuple{...}, make_tuple or make_indexed_tuple has one element for each argument, in order, which is a copy of it or its moved value (for arrays and functions a pointer); one made by forward_as_tuple has references; a run-time argument of ct_format becomes one argument of the result.", "quantifier": "every list of arguments of any types, constness and value category, tuples of tuples included", "why_tests_cant": "All lists of types, nested to any depth.", "anchors": ["include/stdx/tuple.hpp: tuple, make_tuple, make_indexed_tuple, forward_as_tuple", "include/stdx/ct_format.hpp: format1"]}
{"id": "C104", "title": "Relaxed calls that do not race take effect one after the other", "statement": "Several atomics and atomic_bitsets are shared by threads, with any memory orders. If, of any two calls that different threads make on one of some objects, not both only reading, one happens before the other, then the calls on these objects have one order that agrees with every thread's program and gives every reply and the final values. Objects that are used only while a bit of an atomic_bitset is held as a lock have this property, and in that order critical sections are not interleaved; so a counter that is incremented by a relaxed load and a relaxed store under the lock loses nothing.", "quantifier": "every number of threads, programs, objects, every execution that the C++ memory model allows, finished or not", "why_tests_cant": "The memory model allows far more executions than hardware at hand shows; no finite number of runs covers them, and tests on strong hardware see none of the weak ones.", "anchors": ["include/stdx/atomic.hpp: load, store, exchange, fetch_add", "include/stdx/atomic_bitset.hpp: set, reset, load"]}
{"id": "C105", "title": "Calls on one atomic take effect one after the other, so numbers drawn from it differ", "statement": "Several atomics and atomic_bitsets are shared by threads, with any memory orders. The calls on any one of them have one order that agrees with every thread's program and gives every reply and the final value. If all calls on an atomic integer of w bits are loads, fetch_add(1), += 1 or ++, then the numbers that these calls say they have drawn are exactly the start value and its successors, modulo 2^w, one for each call; they differ from each other if there are at most 2^w of them.", "quantifier": "every number of threads, programs, objects, every execution that the C++ memory model allows, finished or not", "why_tests_cant": "Two threads that draw the same number do so only in rare interleavings; no finite number of runs covers them.", "anchors": ["include/stdx/atomic.hpp: fetch_add, operator++, operator+=, load"]}
{"id": "C106", "title": "An atomic integer works as a reference count", "statement": "Threads share an atomic integer that starts with the number of references they have; they add one with fetch_add(1), += 1 or ++ and take one away with fetch_sub(1), -= 1 or --, only while they have a reference, and there are never more than the type can count. Whatever the memory orders, no such call finds the count at zero, and at most one finds that it has taken the last one away: exactly one if and only if every thread ends without a reference. If the calls that take one away release and that last one acquires, everything that any thread did while it had a reference happens before that last call.", "quantifier": "every number of threads, programs, start values, every execution that the C++ memory model allows, finished or not", "why_tests_cant": "A use after the last reference is gone shows only in rare interleavings, and missing synchronization only on weakly ordered hardware.", "anchors": ["include/stdx/atomic.hpp: fetch_add, fetch_sub, operator++, operator--, operator+=, operator-="]}
{"id": "C107", "title": "The tuple algorithms take exactly the types that have elements", "statement": "has_tuple_protocol holds for std::array, std::pair, std::tuple, stdx::tuple, indexed_tuple, make_integer_sequence, stdx::span of static extent, of every size and element types, and for a class with a static size() of type std::size_t whose get<0> gives its tuple_element; also const or by reference. It does not hold for other types. The unrolled algorithms take these and go through as many steps as the shortest has elements; for_each, enumerate, all_of, any_of and none_of take the same unless all arguments are array-like.", "quantifier": "every type, nested in any way, and every number of arguments", "why_tests_cant": "Tests check a few types on one platform; a type for which the concept holds by mistake makes an algorithm that does nothing.", "anchors": ["include/stdx/concepts.hpp: has_tuple_protocol, has_array_protocol", "include/stdx/type_traits.hpp: tuple_size_v, tuple_element", "include/stdx/tuple_algorithms.hpp: for_each, enumerate, all_of, any_of, none_of, unrolled_for_each"]}
{"id": "C108", "title": "ct_capacity is the room that the type of its argument has", "statement": "ct_capacity(x) compiles exactly if x is an array, std::array, std::span or stdx::span of static extent, or a cx_ container, const or by reference or not, and gives the number of elements that fit; ct_capacity_v of the type, const or not, is the same.", "quantifier": "every type, element type and size", "why_tests_cant": "A few examples do not show which specialization is selected for the others.", "anchors": ["include/stdx/iterator.hpp: ct_capacity, ct_capacity_v", "include/stdx/span.hpp, cx_vector.hpp, cx_queue.hpp, cx_set.hpp, cx_map.hpp, cx_multimap.hpp: ct_capacity_v"]}
{"id": "C109", "title": "Tombstones need not be written for floating-point types, pointers and tuples of types that have one", "statement": "Floating-point types, pointers, types with tombstone_traits and tuple-like types of at least one such part have a tombstone, other types do not. An optional over such a type is made empty, and a value is taken for empty exactly if every part of it is plus infinity, null, or the tombstone of its type: a tuple with some tombstones among its parts is a value. A tombstone given by tombstone_value marks the values equal to it.", "quantifier": "every type nested from these, every value", "why_tests_cant": "Which of the values of a nested type are lost as tombstones is a statement about all of them.", "anchors": ["include/stdx/optional.hpp: tombstone_traits, has_tombstone_v, tombstone_value"]}
{"id": "C110", "title": "transform and and_then of an optional over a tuple call the function with the elements", "statement": "For an optional over a std::tuple, std::pair or stdx::tuple, transform and and_then call the function with the elements, each passed as the optional is; for other types with the value. The free transform takes optionals of one library and calls the function with the values if all have one; its result is an optional of that library. Unpacking happens if it is necessary: a function that takes the tuple itself is called with the tuple.", "quantifier": "every type of value, every function (by which argument lists it takes), every value category, every number of optionals", "why_tests_cant": "Which types and functions are taken one way, the other, or not at all is a statement about all of them.", "anchors": ["include/stdx/optional.hpp: transform, and_then, unwrap_invoke, convert_optional", "include/stdx/tuple.hpp: apply", "docs/optional.adoc: Unpacking transform and and_then"]}
{"id": "C111", "title": "ct_format formats at compile time what is known at compile time, and only that", "statement": "Integral constants, enumerators in integral constants (by name), types (by name), compile-time strings of either kind, and numbers, strings and enumerators in CX_VALUE are formatted at compile time, through any number of wrappers. Results of ct_format are spliced in with their runtime arguments, wrapped or not and whatever type of string they have; formatting one with {} gives it back. All other arguments stay runtime arguments. An object of a type with ct_format_as is formatted as what that function gives.", "quantifier": "every argument built from these kinds, nested in any way", "why_tests_cant": "Tests format one argument of each kind; the cases are tried in an order that depends on what the wrapped value is.", "anchors": ["include/stdx/ct_format.hpp: arg_value, format1, convert_output, format_as, format_result", "include/stdx/type_traits.hpp: is_cx_value_v"]}
{"id": "C112", "title": "A span over an array has no more elements than the array, or does not compile", "statement": "Making a span of static extent from a C array or std::array compiles exactly if the extent is at most the number of elements and const is not dropped; of dynamic extent, it has the size of the array. span s{x} has the size of x as extent, and const elements exactly if x has.", "quantifier": "every array type and size, const or not, named or temporary; every extent; both kinds of initialization", "why_tests_cant": "Which constructor is used depends on const, value category and initialization; tests reject one combination.", "anchors": ["include/stdx/span.hpp: span constructors and deduction guides"]}
{"id": "C113", "title": "An optional is made from values as a std::optional is", "statement": "optional<T>{u} and optional<T>{std::in_place, args...} hold T(u) and T(args...), as std::optional does, for arithmetic types, aggregates and classes, from arguments of any arithmetic types.", "quantifier": "every type of value and of arguments, every number of arguments", "why_tests_cant": "A statement about all pairs of types; unit tests construct from values of the same type.", "anchors": ["include/stdx/optional.hpp: optional constructors", "docs/optional.adoc"]}
{"id": "C114", "title": "apply_sequence and template_for_each use every element of a list", "statement": "template_for_each<L>(f) calls f<X>() once for each element X of L in order, and apply_sequence<L>(f) is f<Xs...>() with all of them, for type lists, value lists, integer sequences and the library's own make_index_sequence<N>, whose elements are 0 to N-1; nth_t and nth_v are the element at an index.", "quantifier": "every list of types or values, every sequence length and index", "why_tests_cant": "A statement about all lists and lengths; the documented sum over make_index_sequence<3> comes out right for N = 3 only.", "anchors": ["include/stdx/type_traits.hpp: template_for_each, apply_sequence, nth_t, nth_v", "include/stdx/utility.hpp: make_integer_sequence, get", "docs/type_traits.adoc"]}
{"id": "C115", "title": "A list of timers ordered by cmp_less is in the order of the times", "statement": "A program that keeps timers of a clock of rollover_t in a list ordered by cmp_less, and takes those that are due from the front, lets every timer go off when its time has come, in the order of the times, however often the clock rolls over, as long as no timer is set further ahead than the documented half of the range.", "quantifier": "every history of setting timers, time passing and taking the timers that are due; every clock width", "why_tests_cant": "A statement about all histories over any number of rollovers; unit tests compare pairs of values.", "anchors": ["include/stdx/rollover.hpp: cmp_less, operator+", "docs/rollover.adoc"]}
{"id": "C116", "title": "Durations and times that count with rollover_t convert between units", "statement": "A std::chrono duration or time point that counts with rollover_t, converted to another unit, shows the time in that unit modulo the range; differences and equality between units agree with the times.", "quantifier": "every time, every ratio of units, every width of the counter", "why_tests_cant": "A statement about all times and ratios, including those after a rollover; unit tests convert three seconds.", "anchors": ["include/stdx/rollover.hpp: rollover_t, std::common_type", "docs/rollover.adoc"]}
{"id": "C117", "title": "Two threads can build a lock from the loads and stores of three atomics", "statement": "Two threads that use Peterson's algorithm on three atomics with the default memory orders, or with release and acquire orders if they yield the turn by exchange, exclude each other: of any two critical sections one is over before the other is entered, so data used only there, with whatever memory orders, behaves as if the calls were made one after the other. With release and acquire orders and plain stores of the turn both threads can be in their critical sections.", "quantifier": "every execution that the memory model allows of any programs whose calls on the three atomics follow the algorithm, with any number of critical sections and of other threads and objects; every type of atomic", "why_tests_cant": "The failures need reorderings that a test on one machine need not show, and the guarantee is about all interleavings and all values the memory model lets a load return.", "anchors": ["include/stdx/atomic.hpp: load, store, exchange, operator=, operator T"]}
{"id": "C118", "title": "Functions that keep state can be given to the folds over tuples", "statement": "fold_left, fold_right and join of a tuple work with a function object that keeps state of its own, copyable or not: each call sees what the earlier calls left in the object, as with std::accumulate.", "quantifier": "every tuple, function object, state of it and world it works on", "why_tests_cant": "A statement about all function objects and tuples of any size; the unit tests' stateful function keeps its state outside of the object.", "anchors": ["include/stdx/tuple.hpp: fold_left, fold_right, join, fold_helper, join_helper", "docs/tuple.adoc"]}
{"id": "C119", "title": "A ring buffer over two atomic counters passes every item on, in order, however often the counters roll over", "statement": "One thread puts items into the slots of a ring buffer and counts them with an atomic, another takes them out and counts them with a second atomic; each looks at the other's counter with an acquiring load and increases its own with a releasing call. Then pop number i finds what push number i left, no call on a slot races with another, whatever its own memory order, and the difference of the counters, which roll over, is the number of items. If the increase is relaxed, or the load, a pop can find something else.", "quantifier": "every execution that the memory model allows of any programs in which two threads use the counters and slots in this way, with any number of items, of other threads and of other objects; every counter width, every number of slots below its range; counters increased by store, assignment, exchange, ++, += or fetch_add; looking at the other counter every time or only now and then", "why_tests_cant": "The guarantee is about all interleavings, all values the memory model lets a load return and any number of rollovers; the failures with relaxed orders need reorderings that a test on one machine need not show.", "anchors": ["include/stdx/atomic.hpp: load, store, operator++, fetch_add, exchange, operator=, operator T"]}
{"id": "C120", "title": "Sums of strings and string types spell their operands, however they are grouped, and equal strings are the same type", "statement": "An expression over ct_string and cts_t with +, unary +, (), ct_string{} and ct<>() compiles exactly if only types are unwrapped; it spells its constants from left to right and is a type if all summands are. Other groupings and wrappings of the same constants give the same array, so the same type. cts_t<X> and cts_t<Y> are the same type exactly if X == Y. A cts_t relates to ct_string as std::integral_constant to int.", "quantifier": "every expression of any size over any strings, embedded zeros included", "why_tests_cant": "All expressions and all strings; the tests add and compare a few literals.", "anchors": ["include/stdx/ct_string.hpp: cts_t, operator+, operator==, ct, operator\"\"_ctst, ct_string(T)"]}
{"id": "C121", "title": "The concepts that stdx has where there is no <concepts> hold for the same types as the standard's", "statement": "Where the standard library has no concepts, stdx defines floating_point, integral, signed_integral, unsigned_integral, convertible_to, derived_from, same_as, equality_comparable, totally_ordered, invocable and predicate. Each holds for the same types as the one in std, so that a program compiles on both. same_any is membership, same_none its opposite, same_as_unqualified compares without references and qualifiers.", "quantifier": "every type, or list of types, whatever its traits and whatever its expressions give", "why_tests_cant": "The tests use one standard library, which has the concepts, and a few types.", "anchors": ["include/stdx/concepts.hpp: equality_comparable, totally_ordered, predicate, invocable, same_as, convertible_to, derived_from, same_any, same_none, same_as_unqualified"]}
{"id": "C122", "title": "is_complete_v says whether a type is complete", "statement": "Each use of is_complete_v<T>, or of the concept complete, tells whether T is complete at that place: a class from its definition on, an array of known bound of a complete type, not void. If a class is asked about, again, only when nothing was asked before its definition, every answer is right; in general the answer is that of the first use in the translation unit.", "quantifier": "every sequence of class definitions and questions in a translation unit; every type made from classes, scalars, pointers, references and arrays", "why_tests_cant": "The answers depend on the order of all the text before; a test sees one order.", "anchors": ["include/stdx/type_traits.hpp: is_complete_v", "include/stdx/concepts.hpp: complete"]}
{"id": "C123", "title": "Intrusive lists and forward lists can share a pool of nodes", "statement": "Nodes with a prev and a next pointer may go from an intrusive_list to an intrusive_forward_list and back: with the checked policy each list, of either kind, behaves as a plain list of its own and never panics as long as a node is put into a list only while it is in none; a node still in some list is detected; the same holds between lists with different policies.", "quantifier": "every number of lists of either kind, every number of nodes, and every history of operations on them", "why_tests_cant": "the tests use one list of one kind at a time; histories over several lists are unbounded", "anchors": ["include/stdx/intrusive_list.hpp: intrusive_list", "include/stdx/intrusive_forward_list.hpp: intrusive_forward_list::push_front, push_back, pop_front, clear", "include/stdx/detail/list_common.hpp: node_policy::checked, node_policy::unchecked, has_prev_pointer"]}
{"id": "C124", "title": "single_linkable and double_linkable hold for the types the lists accept", "statement": "A class satisfies single_linkable (double_linkable) exactly if every operation of intrusive_forward_list (intrusive_list) compiles for it, and the forward list uses no member but next.", "quantifier": "every program of classes with single inheritance and members next and prev of any pointer or other type", "why_tests_cant": "the tests try one good and one bad class per concept; a program can have any classes", "anchors": ["include/stdx/detail/list_common.hpp: single_linkable, double_linkable, has_prev_pointer, node_policy::checked", "include/stdx/intrusive_list.hpp: intrusive_list", "include/stdx/intrusive_forward_list.hpp: intrusive_forward_list"]}
{"id": "C125", "title": "safe_identity and expand never give a reference that dangles", "statement": "What is declared with decltype(auto) or auto&& from safe_identity(e) or expand(e) can be used afterwards and has the value of e: the same object for an lvalue, a new object for an rvalue. Nothing else changes.", "quantifier": "every expression made of names, moves, prvalues and calls of safe_identity, expand and std::identity in any nesting, every class and every state of the objects", "why_tests_cant": "the tests check the types of a few calls and one copy and one move; lifetimes end outside the call and depend on the whole expression", "anchors": ["include/stdx/functional.hpp: safe_identity", "include/stdx/type_traits.hpp: expand, detail::maybe_expand"]}
{"id": "C126", "title": "Messages written with byterator and to_be or to_le are read on any machine", "statement": "A message written field by field with byterator, its integers converted with to_be or to_le, has every field at its offset and changes no other byte. A program that reads the fields in the same order with from_be or from_le gets the same values, on a machine of either byte order and in any buffer that is aligned alike.", "quantifier": "every sequence of fields (integers, byte arrays, gaps, alignments) and values, every buffer and offset with room for it, every pair of machines", "why_tests_cant": "the tests read and write single values on the machine that runs them", "anchors": ["include/stdx/byterator.hpp: byterator::read, write, advance, advance_to_alignment", "include/stdx/bit.hpp: to_be, to_le, from_be, from_le, byteswap"]}
{"id": "C127", "title": "Sets and maps whose keys can be equal without being the same", "statement": "Whatever the == of the keys is, a cx_set, cx_map or cx_multimap behaves as the list of the objects stored in it. insert adds an element exactly when nothing equal is stored, and otherwise leaves the stored object as it is. put on a key equal to a stored one replaces the value and keeps the stored key. erase takes out one equal element and nothing else. If == is symmetric, equal elements are never stored together.", "quantifier": "every relation the == of keys and values may be, every history of operations within capacity, every initial list, repeated elements included", "why_tests_cant": "the tests use integer keys, whose == is identity", "anchors": ["include/stdx/cx_set.hpp: cx_set", "include/stdx/cx_map.hpp: cx_map", "include/stdx/cx_multimap.hpp: cx_multimap"]}
{"id": "C128", "title": "Signals through an atomic_bitset and values handed over with exchange are neither lost nor received twice", "statement": "Threads signal by setting a bit of an atomic_bitset and take the signal with reset of that bit or of a range. Each time the bit was found off and turned on is matched by exactly one call that found it on and turned it off, or the bit is still on. A thread that uses load and then reset() can lose a signal. With exchange on an atomic, every value given is returned to exactly one exchange or is the value left.", "quantifier": "every number of threads and every program of set, reset and flip calls (one bit, ranges, all) on the bit and any calls on other bits, every choice of memory orders and every execution these allow; every program of exchange and load calls", "why_tests_cant": "which thread comes first between two calls is not under the control of a test", "anchors": ["include/stdx/atomic_bitset.hpp: set, reset, flip, load", "include/stdx/atomic.hpp: atomic::exchange"]}
{"id": "C129", "title": "A bitset whose size is an enumerator is a set of enumerators", "statement": "With stdx::bitset<E::MAX>, operator[], set, reset and flip take values of E and integers and reject every other enumeration at compile time. The variables behave as sets of the values of E below MAX: for_each and transform_reduce call the function with the members, as values of E, in ascending order, and lowest_unset returns the least value that is not a member, or MAX. The same enumeration check holds for construction from places and for atomic_bitset.", "quantifier": "every enumeration with any underlying type, every size, word type and history of calls on any number of variables; every index type", "why_tests_cant": "the check and the casts depend on the types, of which there are arbitrarily many; which enumerators come back depends on the whole history", "anchors": ["include/stdx/bitset.hpp: bitset, admissible_enum, iter_arg_t, for_each, transform_reduce, lowest_unset", "include/stdx/atomic_bitset.hpp: set, reset, flip, operator[]"]}
{"id": "C130", "title": "Tuples are compared only as wholes", "statement": "As with std::tuple, t == u and t <=> u compile only for tuples of the same size whose elements can be compared pairwise, and then compare all elements (== element-wise, <=> lexicographically). Comparing tuples of different sizes, tuples with elements that cannot be compared, or a tuple and an object that is no tuple is a compile-time error.", "quantifier": "every pair of tuple types (with or without index functions), every relation saying which element types can be compared, every value", "why_tests_cant": "which operator is selected depends on the types of all elements of both tuples; tests show one pair of types each", "anchors": ["include/stdx/tuple.hpp: element::operator==, element::operator<=>, tuple_impl::operator==, tuple_impl::operator<=>, tuple, indexed_tuple"]}
{"id": "C131", "title": "Containers can be walked in both directions", "statement": "For cx_vector, span and ct_string, a loop from begin() to end() or cbegin() to cend() visits exactly the elements in order, and one from rbegin() to rend() or crbegin() to crend() visits them in reverse order; a const container (for span: const elements) and the c-functions give access to const elements only.", "quantifier": "every history of a cx_vector of any capacity, every span into any array, every string; const and mutable objects and elements", "why_tests_cant": "members of templates are only compiled when used: a function no test calls may not compile at all", "anchors": ["include/stdx/cx_vector.hpp: cx_vector::begin, cx_vector::end, cx_vector::rbegin, cx_vector::rend, cx_vector::crbegin, cx_vector::crend", "include/stdx/span.hpp: span::begin, span::rbegin, span::crbegin", "include/stdx/ct_string.hpp: ct_string::begin, ct_string::rbegin"]}
{"id": "C132", "title": "The algorithms take types of namespace std as they take others", "statement": "for_each_butlastn, for_each_butlast and initial_medial_final return the documented tuples, cartesian_product and cartesian_product_copy give the tuple of all combinations, and to_underlying gives the value of an enumerator, whatever namespaces the types of the iterators, functions, elements and enumerations come from.", "quantifier": "every type built from classes and enumerations of any namespace, pointers, references and template arguments; any number of iterators; any tuples of tuples", "why_tests_cant": "a call by unqualified name also finds functions of namespace std for types associated with it, at any depth of pointers and template arguments; tests use int, pointers and forward_list", "anchors": ["include/stdx/algorithm.hpp: for_each_butlastn, for_each_butlast, initial_medial_final", "include/stdx/tuple_algorithms.hpp: cartesian_product, cartesian_product_copy", "include/stdx/type_traits.hpp: to_underlying, underlying_type_t"]}
{"id": "C133", "title": "Const objects cannot be changed through the library's interface", "statement": "With const access to a container, optional, latched or cached value, tuple, list or span of const, every chain of calls of the library, through any nesting of these types, gives const access only, so nothing it reaches can be changed; a tuple with references or a span stays itself as it is, whatever is done through it. The keys of a cx_set or cx_map cannot be changed in place, as in std::set and std::map, so they stay distinct.", "quantifier": "every type nested from these, every chain of calls and every program of assignments through such chains, every memory", "why_tests_cant": "const-correctness is a statement about all programs that compile, including those nobody has written", "anchors": ["include/stdx/cx_vector.hpp: cx_vector", "include/stdx/cx_queue.hpp: cx_queue::front, cx_queue::back", "include/stdx/cx_set.hpp: cx_set::begin", "include/stdx/cx_map.hpp: cx_map::begin, cx_map::get", "include/stdx/optional.hpp: optional::value", "include/stdx/latched.hpp: latched::value", "include/stdx/cached.hpp: cached::refresh", "include/stdx/span.hpp: span, as_writable_bytes", "include/stdx/intrusive_list.hpp: intrusive_list::front, intrusive_list::back", "include/stdx/intrusive_forward_list.hpp: intrusive_forward_list::front, intrusive_forward_list::back", "include/stdx/byterator.hpp: byterator::byterator"]}
{"id": "C134", "title": "The elements of a span are the elements of what it was made from", "statement": "Whatever a span is made from, if the construction compiles, then the span has as many elements as its source, s[i] refers to the i-th element of the source for every i, and as_bytes of it covers the bytes of the source.", "quantifier": "every source (pointers, arrays, spans, other ranges), every element type and base class with any layout, any number of elements at any addresses", "why_tests_cant": "which element types, class layouts and ranges users combine is open, and a wrong element is memory that a test may find harmless", "anchors": ["include/stdx/span.hpp: span::span, span::operator[], span_base::size_bytes"]}
{"id": "C135", "title": "Folding a tuple calls the given function, whatever operators the elements have", "statement": "fold_left, fold_right and join over a tuple call the given function with the elements, whatever overloads of operator+ the element types, their namespaces and the library have.", "quantifier": "every set of overloads of operator+ (templates included), every implicit conversion, every tuple of elements of any value category and constness, every function", "why_tests_cant": "the operators of element types are open; one that is found in addition changes which function is called or whether the code compiles", "anchors": ["include/stdx/tuple.hpp: tuple_impl::fold_left, tuple_impl::fold_right, tuple_impl::join, fold_helper, join_helper", "include/stdx/ct_format.hpp: operator+"]}
{"id": "C136", "title": "A latched or cached value can be shared by threads", "statement": "Threads may make const calls (value, *, ->, has_value) on one latched or cached object at the same time, as they may on a const object of the standard library: there is no data race, the function is called once and all threads get the same value. Calls that do not overlap give what they give to one thread.", "quantifier": "every number of threads, every list of calls per thread, every schedule of their steps, every sequence of values and throws of the function", "why_tests_cant": "a race shows under few schedules, and then not always", "anchors": ["include/stdx/latched.hpp: latched, populate", "include/stdx/cached.hpp: cached, reset, refresh"]}
{"id": "C137", "title": "overload calls the function for the type of the argument", "statement": "A call of stdx::overload{f...} (for example by std::visit) goes to the function that takes the argument's own type, whatever conversions there are, and to a generic function for types without one; without either it goes to the one function with the closest conversion, and if two are equally close it does not compile; the order of the functions does not matter; each function keeps its own state and gets exactly its calls, in order.", "quantifier": "every set of functions (by value, reference, generic, mutable or not), every argument of any type, constness and value category, every implicit conversion between the types, every sequence of calls on a const or non-const object", "why_tests_cant": "types and conversions are open, and a function or conversion added elsewhere can change which function is called", "anchors": ["include/stdx/utility.hpp: overload"]}
{"id": "C138", "title": "A policy or panic handler may throw, and calls it refuses do nothing", "statement": "A cx_queue with an overflow policy of the user's tells the policy the number of elements and the capacity before every push, and the number of elements before every pop, front and back; a call that the policy (or a panic handler) refuses by throwing leaves the queue, or the intrusive lists and their nodes, as they were, and the program may go on.", "quantifier": "every policy with any state of its own, every capacity, element type and history of calls with any number of refused ones; any number of lists of both kinds and of nodes", "why_tests_cant": "policies and handlers are open, and what follows a refused call is an unbounded history", "anchors": ["include/stdx/cx_queue.hpp: cx_queue, safe_overflow_policy", "include/stdx/detail/list_common.hpp: node_policy::checked", "include/stdx/panic.hpp: panic_handler, STDX_PANIC"]}
{"id": "C139", "title": "List calls are constant-time and local, clear() and walks are linear", "statement": "Pushing, popping, inserting in the middle and removing from the middle read and write the links of a bounded number of nodes (at most nine accesses, on a forward list at most three), whatever the length of the list: those of the node given and of the neighbours of the place. clear() with the checked policy and walking the list visit each node of the list once, in order; clear() with the unchecked policy touches none. No call touches a node that is neither in the list nor given to it, so calls on lists without common nodes share no memory but their own.", "quantifier": "both policies and handlers, every length of list, every initial memory, every history and next call; the bounds in every state at all", "why_tests_cant": "a bound on the work for every length of list is not an observation of any test", "anchors": ["include/stdx/intrusive_list.hpp: intrusive_list", "include/stdx/intrusive_forward_list.hpp: intrusive_forward_list", "include/stdx/detail/list_common.hpp: node_policy::checked, node_policy::unchecked"]}
{"id": "C140", "title": "Lookups compare the stored keys in order, and an == that throws leaves the container as it was", "statement": "A call of cx_set, cx_map or cx_multimap that looks for a key calls the key's == with the stored keys, in order, on the left and the key sought on the right, up to the first that is equal: at most size() times (a multimap looks up the key at most three times and the value once), and other calls do not call ==. If == throws the container is unchanged, also if == answers differently each time. merge() has merged the keys before the one at which == threw, and erase(k, v) on a multimap may have erased the last value of the key, which then stays without values. After any such history every loop over the container is defined.", "quantifier": "every ==, also one that throws, keeps state or is not an equivalence; every capacity and element type; every history of calls that return or throw; every next call", "why_tests_cant": "which call of == throws and what it answers is an arbitrary function of the history; a test fixes one", "anchors": ["include/stdx/cx_set.hpp: cx_set", "include/stdx/cx_map.hpp: cx_map", "include/stdx/cx_multimap.hpp: cx_multimap"]}
{"id": "C141", "title": "Copies of latched and cached values keep the value and do not call the function again", "statement": "A copy of a latched or cached object holds the value that the original held, and calls the function only if the original held none; however often an evaluated object and its copies are copied and accessed, the function is called once. Copies are independent: reset, refresh, assignment and writes through the reference from refresh() change one object only. An object that was moved from calls the function again when it is accessed, and the value can be moved out of an rvalue.", "quantifier": "every function (it may throw and depend on the world), every history of construction, copies, moves, assignments, accesses, resets, refreshes and writes over any number of objects", "why_tests_cant": "histories and numbers of objects are unbounded; no test copies or moves an object", "anchors": ["include/stdx/latched.hpp: latched", "include/stdx/cached.hpp: cached"]}
{"id": "C142", "title": "Copying and assigning the nodes of an intrusive_list or intrusive_forward_list leaves the list as it is", "statement": "A node can be copied and assigned like any other object: the list still contains the same nodes in the same order, and a copy is in no list, so that it can be put in one.", "quantifier": "both lists, both policies, any first contents of the nodes, every history of list operations, new nodes, copies and assignments over a growing set of nodes", "why_tests_cant": "histories, the number of nodes and the places of the assigned nodes in the list are unbounded; no test copies a node", "anchors": ["include/stdx/intrusive_list.hpp: intrusive_list", "include/stdx/intrusive_forward_list.hpp: intrusive_forward_list", "include/stdx/detail/list_common.hpp: single_linkable, double_linkable, node_policy"]}
{"id": "C143", "title": "Containers are values: copies are independent, assignment replaces, swap exchanges, and a moved-from container is still a container", "statement": "cx_vector, cx_queue, cx_set, cx_map and cx_multimap can be copied, assigned, moved and swapped: what is done to one container is never seen through another, and one that was moved from is still a vector, queue, set or map.", "quantifier": "all five containers, all capacities, element types and ways elements look after being moved from; every history of member functions, copies, assignments, moves and swaps over a growing number of containers", "why_tests_cant": "histories, the number of containers and the element types are unbounded; the tests copy and move only a few literals", "anchors": ["include/stdx/cx_vector.hpp: cx_vector", "include/stdx/cx_queue.hpp: cx_queue", "include/stdx/cx_set.hpp: cx_set", "include/stdx/cx_map.hpp: cx_map, cx_map_value", "include/stdx/cx_multimap.hpp: cx_multimap"]}
{"id": "C144", "title": "apply is the call with all elements, and join works the same way as fold_left", "statement": "apply(f, ts...) calls f once with all elements of the tuples, arrays and pairs ts, in order and with their value categories, and the caller gets what f returns, as with std::apply; join(op) gives ((x0 op x1) op x2) ... and treats the elements as fold_left does.", "quantifier": "all functions and operations, with effects of their own, that may change their arguments and return objects or references; all numbers and sizes of tuples; copyable and move-only elements, as lvalues, const lvalues and rvalues; every order of evaluation", "why_tests_cant": "functions, tuples and categories are unbounded, and no test looks at the reference apply returns or at the categories join's operation sees", "anchors": ["include/stdx/tuple.hpp: tuple::apply, apply, tuple::join, join_helper, fold_helper", "include/stdx/tuple_algorithms.hpp: apply"]}
{"id": "C145", "title": "rollover_t of several types and numbers combine modulo 2^w, and only by explicit conversions", "statement": "With a rollover_t on either side an operator compiles only if both operands are rollover_t of the same type, and <, <=, > and >= never do; rollover_t are made from numbers and from other rollover_t explicitly, and an expression of such conversions and +, -, * has the value of the same expression of integers modulo 2^w.", "quantifier": "all expressions with rollover_t of any number of types, integers and floating-point numbers, all values, all widths of int", "why_tests_cant": "the expressions, and the types in them, are unbounded; a test that an expression does not compile covers one expression", "anchors": ["include/stdx/rollover.hpp: rollover_t's constructors, operator underlying_t, as_underlying, operator-, the friend operators and cmp_less"]}
{"id": "C146", "title": "Threads that wait for a lock built from atomic<bool> get it", "statement": "If each thread takes steps again and again and none keeps the lock for ever, then a thread that waits for Peterson's lock, made of the loads and stores of three atomic<bool>, gets it. Of any number of threads that wait for a lock taken by exchange(true) and given back by = false, one gets it; a given one may wait for ever. Two threads never have either lock.", "quantifier": "all fair schedules without end, all numbers of threads, all times inside and outside the lock", "why_tests_cant": "a run without end cannot be observed, and there are uncountably many schedules", "anchors": ["include/stdx/atomic.hpp: atomic<bool>'s constructor, load, store, operator=, exchange"]}
{"id": "C147", "title": "A lock of numbers drawn from an atomic counter is fair although the counter rolls over", "statement": "Threads draw a number with fetch_add(1) from one unsigned atomic, wait until a second one has that value, and increment the second when they leave. If there are no more threads than the type has values, each thread takes steps again and again and none stays for ever, then every thread that waits comes in; threads come in in the order in which they drew; two are never inside. With more threads than values two can be inside.", "quantifier": "all fair schedules without end, all numbers of threads, all widths of the type and of the word it is kept in", "why_tests_cant": "a run without end cannot be observed, and the counters have to roll over with every number of threads waiting", "anchors": ["include/stdx/atomic.hpp: atomic<T>'s constructor, load, fetch_add, operator++"]}
{"id": "C148", "title": "unary_plus and dereference do what the operators + and * do", "statement": "A call of unary_plus<> or dereference<> with any expression compiles exactly if the operator does, and gives the same type, constness, value category and value or object. unary_plus<T> and dereference<T> do the same for operands of type T and, like std::negate<T>, take what converts to T and give a T.", "quantifier": "all types, constness and value categories of the operand, all overloaded operators", "why_tests_cant": "the types of operands and the operators of classes are the user's: a test sees a few", "anchors": ["include/stdx/functional.hpp: unary_plus, dereference"]}
{"id": "C149", "title": "A queue over two atomic counters between two threads never stalls and loses nothing", "statement": "One thread puts items into atomic slots, increments one counter after each, and waits while the other counter is as many behind as there are slots; another waits while the counters are equal, takes an item and increments the other counter. If both take steps again and again, every item comes out and as many can be put in as one likes, in order, with no more under way than there are slots, however often the counters roll over, as long as there are fewer slots than the counters have values. With as many or more items are lost.", "quantifier": "all fair schedules without end, all items, all numbers of slots, all widths of counters, items and the words they are kept in", "why_tests_cant": "a run without end cannot be observed, and the counters have to roll over with the queue full, empty and in between", "anchors": ["include/stdx/atomic.hpp: atomic<T>'s constructor, load, store, operator++"]}
{"id": "C150", "title": "A barrier of two atomic counters holds all threads back until the last has come, and lets all go on", "statement": "Threads that work in rounds read one counter, increment another, and wait until the first changes, except the last to come, which finds the count equal to the number of threads, sets it to zero and increments the first. If all take steps again and again and none works for ever, every thread gets to every round, and while one works in a round none still works in another, however often the counters roll over, as long as there are fewer threads than the counters have values. With as many or more nobody gets beyond the first round.", "quantifier": "all fair schedules without end, all numbers of threads and rounds, all widths of the counters and the words they are kept in", "why_tests_cant": "a run without end cannot be observed, and a thread may be held up at any point while the others go on to the next round", "anchors": ["include/stdx/atomic.hpp: atomic<T>'s constructor, load, operator=, operator++"]}
{"id": "C151", "title": "A sequence lock of an atomic counter and atomic words gives readers whole versions", "statement": "A writer increments a counter, assigns new values to a number of words and increments the counter again; readers load the counter until it is even, load the words, and begin again if the counter has changed. What a reader gets is one of the versions that were there while it read, whatever the schedule, if the counter does not come round to the same number meanwhile. The writer never waits, and a reader gets the last version when the writer stops. If the counter may come round, readers can get a mixture of versions; while the writer goes on a reader may have to try for ever.", "quantifier": "all schedules without end, all numbers of readers, words and versions, all widths of the counter, the words and what they are kept in", "why_tests_cant": "the writer may go on at any point while a reader reads, any number of times, and runs without end cannot be observed", "anchors": ["include/stdx/atomic.hpp: atomic<T>'s constructor, load, operator=, operator++"]}
{"id": "C152", "title": "Which memory orders a sequence lock needs", "statement": "One thread increases an atomic counter by one before and after it modifies a number of atomics and atomic_bitsets, the words; other threads load the counter, read words and load the counter again. If they find the same even number both times, the words they read belong to one version, the one with that number: provided that the writer's calls that finish a version and those that modify words release, that the reader's first load of the counter and its reads of words acquire, and that the counter has not come round meanwhile. The reader's second load and the calls with which the writer begins a version may have any order; with the default order everywhere all is well. Each of the four conditions is needed: without it a reader may be given a mixture.", "quantifier": "all executions the memory model allows, all numbers and kinds of words, all calls on them, all numbers of readers, all widths of the counter", "why_tests_cant": "weakly ordered executions depend on the hardware and the compiler, and a test sees few of them", "anchors": ["include/stdx/atomic.hpp: atomic<T>::load, store, exchange, fetch_add, operator++, their memory_order arguments", "include/stdx/atomic_bitset.hpp: atomic_bitset's calls and their memory_order arguments"]}
{"id": "C153", "title": "Which memory orders a ticket lock needs", "statement": "Threads share a critical section by two atomic counters: a thread draws a number by adding one to the first, waits until it finds its number in the second, and leaves by adding one to the second or by storing the next number. If the calls that leave release and the loads of the second counter acquire, then of two threads that enter one has left before the other finds that it may enter, any two calls that threads make in their critical sections are ordered whatever their own memory orders, and a thread whose draw happens before another's is served before it. The counters may roll over if there are no more threads than numbers and draws acquire and release; draws may be relaxed if there are no more of them than numbers. With the default order everywhere all is well for up to as many threads as numbers. If the calls that leave are relaxed, or the loads, what one thread stores in its critical section may be missed by the next; if draws are relaxed and there is one more of them than numbers, two threads may be in their critical sections at the same time.", "quantifier": "all executions the memory model allows, all numbers of threads, all numbers of rounds, all calls that threads make in and outside their critical sections, all widths of the counters", "why_tests_cant": "weakly ordered executions depend on the hardware and the compiler, a test sees few of them, and a counter's rollover is not reached", "anchors": ["include/stdx/atomic.hpp: atomic<T>::load, store, fetch_add, operator++, operator+=, their memory_order arguments"]}
{"id": "C154", "title": "An atomic integer that threads count down tells when all are done", "statement": "An atomic integer starts with an agreed number; threads take one away when they have done something, at most as often as was agreed, and threads look at it. Whatever the memory orders: a thread that finds 0 knows that one was taken away exactly as often as was agreed; whoever looks after that finds 0, too; and if one is taken away as often as was agreed, the value becomes 0 and exactly one call is told that it was the last. If taking one away releases and the load that finds 0 acquires, everything that the threads did before they took one away happens before that load. If either is relaxed, what a thread did before may be missed.", "quantifier": "all executions the memory model allows, all agreed numbers, all numbers of threads, all mixtures of calls that take one away and look, all widths of the integer", "why_tests_cant": "weakly ordered executions depend on the hardware and the compiler, and a test sees few of them", "anchors": ["include/stdx/atomic.hpp: atomic<T>::load, fetch_sub, operator--, operator-=, their memory_order arguments"]}
{"id": "C155", "title": "Threads that work in phases can keep in step with one atomic counter", "statement": "An atomic integer starts with 0; each of several threads adds one at the end of each of its phases, and ends the next phase only after it has found that all threads have ended this one, that is, a value of at least the number of threads times the number of phases; the counter does not roll over. Whatever the memory orders: who finds this is right, and no thread gets more than one phase ahead of another. If adding one releases and the load that finds this acquires, everything that any thread did in the phases that have ended happens before that load and everything after it. If either is relaxed, what a thread did in a phase that has ended may be missed.", "quantifier": "all executions the memory model allows, all numbers of threads and phases, all calls on other objects in the phases, all widths of the integer", "why_tests_cant": "weakly ordered executions depend on the hardware and the compiler, and a test sees few of them", "anchors": ["include/stdx/atomic.hpp: atomic<T>::load, fetch_add, operator++, operator+=, their memory_order arguments"]}
