import json
P=[]
def p(id,title,statement,quant,why,anchors):
    P.append(dict(id=id,title=title,statement=statement,quantifier=quant,why_tests_cant=why,anchors=anchors))
H="include/stdx/"
p("C01","cx_queue is a FIFO queue for every history",
 "Starting from a default-constructed cx_queue of capacity N, after any sequence of push/pop/clear in which no push is made when full and no pop when empty, size/empty/full/front/back and every value returned by pop are those of an unbounded FIFO list; in particular pops return values in push order, and the ring indices stay in range however often they wrap.",
 "every element type, every capacity N, 0 included, every finite sequence of operations",
 "The ring wraps at positions that depend on the whole history; a test fixes one capacity and a handful of wraps.",
 [H+"cx_queue.hpp: cx_queue::push, pop, front, back, clear, size, empty, full"])
p("C02","cx_queue over/underflow is always reported and never corrupts (with a handler that does not return)",
 "With safe_overflow_policy the panic handler is called exactly when push is called on a full queue or pop/front/back on an empty one; if the handler does not return the queue is unchanged. If the handler returns (the documented default), the queue's state no longer represents any queue (size exceeds the capacity, or wraps below zero).",
 "every capacity, every history, both a returning and a non-returning panic handler",
 "Quantifies over all histories and both handler behaviours.",
 [H+"cx_queue.hpp: safe_overflow_policy, unsafe_overflow_policy", H+"panic.hpp: default_panic_handler"])
p("C03","cx_vector is a bounded list for every history",
 "Any sequence of push_back/pop_back/clear/element writes/resize_and_overwrite on a cx_vector within its capacity yields the size, elements, iteration order, back() and equality of a plain list; equality ignores stale storage past the size.",
 "every element type, capacity, operation sequence",
 "Equality and iteration must be independent of the stale slots left behind by any previous history.",
 [H+"cx_vector.hpp: cx_vector::push_back, pop_back, clear, operator==, resize_and_overwrite"])
p("C04","cx_map is a finite map for every history",
 "From a default-constructed cx_map, for any sequence of insert_or_assign/put/erase/clear/pop_back (no insertion of a new key when full, no pop_back when empty) contains/get/size/iteration agree with a finite map; insert_or_assign returns true iff the key was absent, erase returns 1 iff it was present; keys stay pairwise distinct.",
 "every key type with decidable equality, value type, capacity and operation sequence",
 "Swap-with-last erase makes the layout depend on the whole history.",
 [H+"cx_map.hpp: cx_map::insert_or_assign, put, erase, get, contains, pop_back, clear"])
p("C05","cx_set is a finite set for every history",
 "From a default-constructed cx_set, for any sequence of insert/erase/merge/pop_back/clear within capacity, contains/size/iteration agree with a mathematical set, insert returns true iff absent, erase returns 1 iff present, merge is union. A cx_set constructed from pairwise distinct values starts as the set of those values (the constructor does not remove duplicates).",
 "every key type with decidable equality, capacity and operation sequence; every constructor argument list",
 "Layout depends on history; the constructor claim ranges over every argument list.",
 [H+"cx_set.hpp: cx_set::insert, erase, merge, pop_back, contains"])
p("C06","cx_multimap is a finite relation with explicit keys for every history",
 "For any sequence of insert(k), insert(k,v), erase(k), erase(k,v), clear, the contains(k)/contains(k,v)/get answers are those of a map from keys to sets; erase(k,v) returns the number of (k,v) pairs removed, erase(k) the number of keys; erase(k,v) also drops k when no value is left; the set returned by get(k) can be modified in place like any cx_set; iteration visits every key once, with its values.",
 "every key/value type, capacity and operation sequence",
 "Interaction between empty value sets and key removal depends on the history.",
 [H+"cx_multimap.hpp: cx_multimap::insert, put, erase, contains, get"])
p("C07","rollover_t arithmetic is arithmetic modulo 2^w, with no undefined behaviour",
 "For every unsigned underlying width w, +, -, *, ++, --, unary -, ~-free operators of rollover_t compute the mathematical result modulo 2^w without undefined behaviour.",
 "every width w in {8,16,32,64} and every pair of values",
 "2^128 input pairs; the promotion rules make a narrow width misbehave only at large values.",
 [H+"rollover.hpp: rollover_t::operator+=, operator-=, operator*=, operator++, operator--"])
p("C08","rollover_t::cmp_less splits the cycle in half and is a strict total order on any half window",
 "For every value exactly half of the cycle is less than it and half is greater; on any set of values lying within half the bit range cmp_less is irreflexive, transitive, asymmetric and total and agrees with the numeric order of the offsets; it is invariant under adding the same amount to both sides.",
 "every width, every value, every window",
 "Order properties quantify over triples of values at every width.",
 [H+"rollover.hpp: cmp_less, cmp_equal"])
p("C09","saturate_cast clamps to the target range",
 "saturate_cast<To>(x) is x when x is representable in To, otherwise the nearest of numeric_limits<To>::min/max.",
 "every ordered pair of integral types (sign, width) and every value",
 "The failing combinations of widths/signs and values are found only by considering all of them.",
 [H+"numeric.hpp: saturate_cast"])
p("C10","intrusive_list is a sequence of nodes for every history",
 "For any sequence of push_front/push_back/insert/pop_front/pop_back/remove/clear with nodes that are not already linked, forward traversal from begin and backward traversal along prev give the same sequence, which is the one a plain list of node identities would have; nodes not in the list and not mentioned are untouched; with the checked policy popped/removed/cleared nodes have null links and can be inserted again.",
 "every finite set of nodes and every operation sequence",
 "Pointer structures have unboundedly many shapes; head/tail/middle combinations multiply over histories.",
 [H+"intrusive_list.hpp: intrusive_list", H+"detail/list_common.hpp: node_policy::checked"])
p("C11","intrusive_list with the unchecked policy is still a sequence of nodes",
 "With node_policy::unchecked, operations on nodes that are not currently in any list (whatever their stale link values) give the same sequence behaviour as C10.",
 "every initial content of the nodes' link fields and every operation sequence",
 "Stale pointers take arbitrary values.",
 [H+"intrusive_list.hpp: unchecked_insert, unchecked_push_front, unchecked_push_back", H+"detail/list_common.hpp: node_policy::unchecked"])
p("C12","the checked policy panics whenever a node that is already in the list is pushed",
 "With node_policy::checked, push_front/push_back/insert of a node that is already in the list calls panic, whatever the list.",
 "every reachable list and every node in it",
 "The one undetected position is only reached for particular list shapes.",
 [H+"detail/list_common.hpp: node_policy::checked::valid_for_push"])
p("C13","intrusive_forward_list is a sequence of nodes for every history",
 "As C10 for push_front/push_back/pop_front/clear of the singly linked list, both policies.",
 "every finite set of nodes and every operation sequence",
 "As C10.",
 [H+"intrusive_forward_list.hpp: intrusive_forward_list", H+"detail/list_common.hpp"])
p("C14","bitset is a set of indices below N for every history",
 "For any sequence of set/reset/flip (one, range, all), |=, &=, ^=, -, ~ and shifts, operator[], ==, count/size, any/all/none/empty and for_each give the answers of a mathematical subset of {0..N-1}; the bits of the storage above N are never observable.",
 "every size N>0, storage word width and operation sequence",
 "Padding bits in the last storage word become set on some histories and must never leak.",
 [H+"bitset.hpp: bitset::set, reset, flip, operator|=, operator&=, operator^=, operator~, operator==, count, all, any, none, operator[]"])
p("C15","bitset shifts move every bit by the shift amount and fill with zeros",
 "(b << s)[i] is b[i-s] if i>=s else false, (b >> s)[i] is b[i+s] if i+s<N else false.",
 "every N, storage word width, reachable value and shift amount",
 "Multi-word carry logic over every shift amount and every reachable padding content.",
 [H+"bitset.hpp: operator<<=, operator>>="])
p("C16","lowest_unset and transform_reduce depend only on the bits",
 "lowest_unset returns the least index below N that is unset, or N if there is none; transform_reduce folds exactly the set bits below N in ascending order; equal bitsets give equal answers.",
 "every N, storage width and reachable bitset",
 "Observability of padding depends on how the value was reached.",
 [H+"bitset.hpp: lowest_unset, transform_reduce"])
p("C17","bitset conversions round-trip",
 "bitset<N>{v} holds exactly the bits of v below N, to<T>() gives that value back for every unsigned integral type or enumeration T with at least N digits, and to_natural does so in the narrowest such type; place_bits holds exactly the listed bits; the string constructor reads the substring with the last character as bit 0.",
 "every N, storage width, value, position list and string",
 "Quantifies over all values and all strings.",
 [H+"bitset.hpp: bitset constructors, to, to_natural"])
p("C18","bitset for_each visits exactly the selected bits once, in ascending order",
 "for_each<set_bit> calls f once for each set index below N in ascending order, for_each<unset_bit> for each unset one, for_each<bit> for every index with its value.",
 "every N, storage width and reachable bitset",
 "Quantifies over all values and word boundaries.",
 [H+"bitset.hpp: for_each, set_bit, unset_bit, bit"])
p("C19","type_bitset bits are independent per type",
 "For any list of types, set<T>/reset<T>/flip<T> changes the answer of operator[] for T and for no other type.",
 "every type list (with or without duplicates)",
 "Ranges over all type lists; the library documents de-duplication.",
 [H+"bitset.hpp: type_bitset"])
p("C20","atomic_bitset operations are atomic: no interleaving loses an update",
 "For any number of threads running any programs of atomic_bitset operations, every interleaving yields results and a final value that a sequential execution of the same operations in some order on a mathematical set would give; set/reset/flip of an index return the previous value, so among threads that set the same clear bit exactly one observes it clear.",
 "every number of threads, program and schedule",
 "Schedules cannot be enumerated.",
 [H+"atomic_bitset.hpp: atomic_bitset::set, reset, flip, load, store", H+"atomic.hpp: atomic"])
p("C21","atomic read-modify-write operators return the right value under every schedule",
 "atomic<T>::fetch_op returns the old value and stores old op arg modulo 2^w; op=, ++ and -- return the value stored; under any interleaving of increments by several threads the final value is the initial one plus the number of increments modulo 2^w and the returned values are pairwise distinct as long as fewer than 2^w increments were made.",
 "every unsigned width, thread count and schedule",
 "Schedules cannot be enumerated.",
 [H+"atomic.hpp: atomic::fetch_add, fetch_sub, fetch_and, fetch_or, fetch_xor, operator+=, operator++"])
p("C22","byteswap and endian conversions are byte permutations and self-inverse",
 "byteswap reverses the byte sequence of the value for every width; byteswap(byteswap(x))=x; from_be(to_be(x))=x and from_le(to_le(x))=x on either endianness; to_be's in-memory byte sequence is most-significant first.",
 "every width and value",
 "2^64 values.",
 [H+"bit.hpp: byteswap, to_le, to_be, from_le, from_be"])
p("C23","bit_pack and bit_unpack are mutually inverse",
 "bit_pack(bit_unpack(x)) = x and bit_unpack(bit_pack(a...)) = a... with the first element most significant.",
 "every supported width pair and value",
 "2^64 values.",
 [H+"bit.hpp: bit_pack, bit_unpack"])
p("C24","bit_mask sets exactly the bits of the closed range",
 "bit_mask<T,Msb,Lsb>() (and the runtime-argument form) has bit i set iff Lsb<=i<=Msb, for scalar types and for arrays of words.",
 "every width, every Lsb<=Msb",
 "All ranges over all array sizes.",
 [H+"bit.hpp: bit_mask"])
p("C25","bit_destructure slices and loses nothing",
 "The pieces returned by bit_destructure<o1,..,ok>(x) are the bits [0,o1), [o1,o2), ... of x, and shifting them back reassembles x.",
 "every width, every increasing list of offsets, every value",
 "Ranges over all offset lists and values.",
 [H+"bit.hpp: bit_destructure"])
p("C26","bit counting, rotation and power-of-two functions meet their <bit> specification",
 "popcount, countl/countr zero/one, has_single_bit, bit_width, bit_floor, bit_ceil, rotl and rotr give the std::<bit> results for every width.",
 "every width, value and rotation amount",
 "2^64 values; some fallbacks are wrong only above 2^32.",
 [H+"bit.hpp: popcount, countl_zero, countr_zero, countl_one, countr_one, bit_width, bit_floor, bit_ceil, has_single_bit, rotl, rotr"])
p("C27","byterator reads back what was written and touches nothing else; alignment advance is exact",
 "write<V>(v) at p followed by a read<V> at p returns v; exactly the sizeof(V) bytes at p change; the iterator advances by sizeof(V); advance_to_alignment<V>() moves to the least multiple of sizeof(V) that is >= p.",
 "every memory content, address, value and size",
 "All addresses, overlaps and sequences.",
 [H+"byterator.hpp: byterator::peek, read, write, advance, advance_to_alignment"])
p("C28","span never designates elements outside its source",
 "Every span built by a constructor, conversion, first, last or subspan (static or dynamic, within preconditions) designates a contiguous sub-range of the source range; subspan composes.",
 "every source length, extent, offset and count, nested to any depth",
 "All nested combinations of extents.",
 [H+"span.hpp: span constructors, first, last, subspan, as_bytes"])
p("C29","sized conversion is the exact ceiling",
 "sized<T>{n}.in<U>() is the least number of U needed to store n T's.",
 "every pair of sizes and every n",
 "Ranges over all sizes and counts.",
 [H+"utility.hpp: sized, detail::size_conversion"])
p("C30","iterator algorithms call the function in order on exactly the documented elements",
 "for_each/for_each_n/transform/transform_n call the operation once per position in order with the i-th element of every range; for_each_butlast(n) stops n before the end whatever the iterator category; initial_medial_final calls iop on the first, fop on the last and mop on the rest.",
 "every range length, n, number of ranges and iterator category",
 "All lengths and counts including n beyond the length.",
 [H+"algorithm.hpp: for_each, for_each_n, for_each_butlast, for_each_butlastn, initial_medial_final, transform, transform_n"])
p("C31","transform_reduce is the left fold of the transformed elements",
 "transform_reduce(_n) returns rop(...rop(rop(init, top(x0..)), top(x1..))...).",
 "every range length and number of ranges",
 "All lengths and functions.",
 [H+"numeric.hpp: transform_reduce, transform_reduce_n"])
p("C32","ct_string concatenation and split are exact",
 "The concatenation has the characters of both in order and is associative with unit \"\"; split<S,c> gives (S,\"\") if c is absent and otherwise the parts before and after the first occurrence of c, so that first + c + second = S; type conversions round-trip.",
 "every string (embedded NULs included) and character",
 "All strings.",
 [H+"ct_string.hpp: operator+, split, ct_string_to_type, ct_string_from_type"])
p("C33","integer UDLs denote the positional value of the literal",
 "_c (and the size-suffixed literals) of any literal accepted by the lexer in base 2/8/10/16 with digit separators denotes its positional value when it fits the result type.",
 "every digit string",
 "All literals.",
 [H+"udls.hpp: parse_literal, _c, _k, _M, _G, _ki, _Mi, _Gi"])
p("C34","ct_format splits a format string losslessly into one piece per specifier",
 "For every format string the pieces handed to the per-argument formatter concatenate to the original, there is exactly one piece per counted specifier plus a final remainder, each piece contains exactly one specifier at its end, and the result of formatting is the concatenation of formatted pieces with runtime arguments kept in order.",
 "every format string and argument list",
 "All strings, all mixes of compile-time and runtime arguments.",
 [H+"ct_format.hpp: find_spec, count_specifiers, split_specifiers, ct_format"])
p("C35","ct_format named arguments locate their text",
 "For every compile-time named argument of a format result the recorded [begin,end) span of the result string is exactly the formatted text of that argument; for a runtime named argument the recorded index is its position in the argument tuple.",
 "every format string and argument list",
 "All strings and nestings.",
 [H+"ct_format.hpp: named_arg, apply_offset, format_result operator+"])
p("C36","the freestanding formatter writes the number it was given, in exactly formatted_size characters",
 "For every integer and base the characters written by format_to denote the value and formatted_size equals the number of characters written.",
 "every integer value, base 10 or 16, every prefix/suffix text",
 "All integers including the minimum.",
 [H+"detail/fmt.hpp: formatted_size, format_to"])
p("C37","call_by_need calls each function once with the first suitable contiguous arguments and drops nothing",
 "For every invocability relation: each function is called exactly once, in order, with the contiguous arguments that start leftmost and, at that start, are longest; every argument used by no call is passed through exactly once, in order; if some function has no suitable arguments compilation fails.",
 "every number of functions and arguments and every invocability relation",
 "All invocability relations.",
 [H+"call_by_need.hpp: compute_call_info, call_by_need"])
p("C38","tuple_cat, apply, fold and get are list operations",
 "tuple_cat of any tuples is the concatenation in order, apply passes every element of every tuple in order, fold_left/fold_right/join/tail/tuple_cons/tuple_snoc are the list functions.",
 "every number and size of tuples",
 "All arities.",
 [H+"tuple_algorithms.hpp: tuple_cat, apply, tuple_cons, tuple_snoc", H+"tuple.hpp: fold_left, fold_right, join, tail"])
p("C39","tuple filter, chunk_by and unique lose and reorder nothing they should not",
 "filter keeps exactly the elements whose type satisfies the predicate in order; the chunks of chunk_by concatenate to the input, are non-empty, homogeneous and maximal; unique keeps the first element of each chunk.",
 "every tuple and type function",
 "All type sequences.",
 [H+"tuple_algorithms.hpp: filter, chunk_by, unique"])
p("C40","tuple sort, gather_by, to_sorted_set and to_unsorted_set meet their specification",
 "sort is a permutation ordered by type name; gather_by groups all elements of the same type in one chunk; to_sorted_set has exactly one element of every type in name order; to_unsorted_set keeps the first element of every type in original order.",
 "every tuple, every (unstable) sorting function meeting std::sort's contract",
 "std::sort is only specified up to permutation of equal keys.",
 [H+"tuple_algorithms.hpp: sort, gather_by, to_sorted_set, to_unsorted_set"])
p("C41","cartesian_product enumerates all combinations once in lexicographic order",
 "The result has one tuple for each choice of one element per input, in lexicographic order of positions; its size is the product of sizes; the product of no tuples is one empty tuple.",
 "every number and sizes of tuples",
 "All arities.",
 [H+"tuple_algorithms.hpp: cartesian_product, cartesian_product_copy"])
p("C42","tuple comparison is lexicographic and one_of is membership",
 "operator== is element-wise equality, operator<=> is the lexicographic order; x == one_of{...} iff x equals some member.",
 "every tuple length and element order",
 "All lengths and values.",
 [H+"tuple.hpp: operator==, operator<=>, one_of"])
p("C43","env queries resolve to the innermost binding",
 "A query answers with the first matching property; extending an environment makes the new bindings win over the old ones and leaves all other queries unchanged; appending makes the later environment win.",
 "every environment and query; every extension and append of environments made with make_env_t, extend_env_t and append_env_t",
 "All environments built in any way.",
 [H+"env.hpp: env::query, make_env_t, extend_env_t, append_env_t"])
p("C44","stdx::optional behaves as an optional for every value other than the tombstone",
 "For non-tombstone values construct/assign/emplace/reset/has_value/value/value_or/transform/and_then/or_else/comparison behave as std::optional; transform obeys the functor laws, and_then the monad laws, and transform over several optionals the applicative laws, when no intermediate result is the tombstone.",
 "every value type, tombstone, history and function",
 "All histories and functions.",
 [H+"optional.hpp: optional"])
p("C45","latched and cached evaluate at most once between resets",
 "In any history of accesses a latched value calls its function at most once and every access returns that result; a cached value calls it at most once after each reset/refresh; a call that throws leaves the object empty so that a later access evaluates again.",
 "every history of accesses, resets and refreshes, and every pattern of throwing",
 "All histories.",
 [H+"latched.hpp: latched", H+"cached.hpp: cached"])
p("C46","argument-batching and binding utilities preserve argument order",
 "for_each_n_args calls the function on consecutive batches covering all arguments in order; bind_front/bind_back call with bound arguments before/after the call arguments.",
 "every number of arguments and batch size",
 "All arities.",
 [H+"for_each_n_args.hpp: for_each_n_args", H+"functional.hpp: bind_front, bind_back"])
p("C47","counting_iterator satisfies the random access iterator laws",
 "Incrementing n times is i+n, decrementing undoes it, (i+n)-i = n, y+(x-y) = x, ordering and equality agree with the difference, and a loop from a to b visits a, a+1, ..., b-1.",
 "every start value and offset",
 "All values.",
 [H+"iterator.hpp: counting_iterator"])
p("C48","type_map lookup returns the associated value or the default",
 "With distinct keys, lookup of a key returns the value paired with it and a missing key gives the default; reverse lookup likewise when values are distinct.",
 "every map and key",
 "All maps.",
 [H+"utility.hpp: type_map, type_lookup_t, reverse_type_lookup_t"])
p("C49","erase returning 0 leaves the container unchanged",
 "For cx_set, cx_map and cx_multimap: if an erase reports 0, the container's observable contents are unchanged.",
 "every container state reachable by any history and every erase argument",
 "The violating multimap states (a key present with an empty value set) are only produced by particular histories.",
 [H+"cx_multimap.hpp: cx_multimap::erase", H+"cx_set.hpp: cx_set::erase", H+"cx_map.hpp: cx_map::erase"])
p("C50","tuple transform, for_each, enumerate and the predicates visit corresponding elements in order",
 "With any number of tuples the function is called once per index, left to right, with the elements at that index, up to the end of the shortest tuple; all_of, any_of and none_of stop at the first decisive answer; enumerate also passes the index.",
 "every number and sizes of tuples, every effectful function",
 "All arities, unequal lengths and effects.",
 [H+"tuple_algorithms.hpp: transform, for_each, enumerate, all_of, any_of, none_of", H+"tuple.hpp: transform, for_each"])
p("C51","tuple lookup by type finds the one element that has it",
 "get<T> compiles iff exactly one element has type T (or an index function that gives T), and returns that element; contains_type says whether some element does.",
 "every tuple, index functions and type",
 "All type sequences.",
 [H+"tuple.hpp: get, tuple_impl", H+"tuple_algorithms.hpp: contains_type"])
p("C52","type_as_string is the compiler's name of the type",
 "type_as_string<T>() returns exactly the name the compiler gives T, so types with different names get different strings.",
 "every type name, GCC and Clang",
 "Names are cut out of __PRETTY_FUNCTION__ by searching for characters that can also occur inside a name; tests try three names.",
 [H+"ct_conversions.hpp: type_as_string"])
p("C53","enum_as_string is the enumerator's identifier",
 "enum_as_string<V>() returns the unqualified identifier of the enumerator, for every scope the enumeration is declared in; for a value with no enumerator it returns the compiler's cast expression such as (E)17.",
 "every qualifier and identifier, and every cast expression",
 "All scopes (namespaces, anonymous namespaces, functions, classes) and names.",
 [H+"ct_conversions.hpp: enum_as_string"])
p("C54","is_same_template_v compares templates",
 "is_same_template_v<T, U> is true exactly when T and U are specialisations of the same template.",
 "every pair of template names and argument lists",
 "All names and argument lists, nested templates included.",
 [H+"ct_conversions.hpp: template_base", H+"type_traits.hpp: is_same_template_v", H+"concepts.hpp: same_template_as"])
p("C55","forward_like is std::forward_like",
 "forward_like<T>(u) has the constness of T added to u and the value category of T, as std::forward_like has.",
 "every combination of const, volatile and reference of T and of the argument",
 "The tests only use arguments that are not references; the combination that differs is not tried.",
 [H+"utility.hpp: forward_like, forward_like_t"])
p("C56","as_unsigned and as_signed keep the bits and undo each other",
 "The result has the same width and bits as the argument, is unchanged when the signedness is already right, and converting back gives the original value. bool is rejected.",
 "every integer type and value",
 "All values of all widths.",
 [H+"utility.hpp: as_unsigned, as_signed"])
p("C57","is_aligned_with is divisibility",
 "is_aligned_with<T>(v) is true exactly when the alignment of T divides v.",
 "every alignment, integer value (signed, wider than a pointer) and address",
 "All values and widths.",
 [H+"utility.hpp: is_aligned_with"])
p("C58","smallest_uint_t is the narrowest type that fits",
 "For N up to 64, smallest_uint_t<N> has at least N bits and no narrower standard unsigned type does.",
 "every N up to 64",
 "Boundaries on both sides of every width.",
 [H+"bit.hpp: smallest_uint, smallest_uint_t"])
p("C59","arity counts parameters",
 "arity_t of a function or function object is its number of parameters; of a generic callable, the least number of arguments it can be called with. A callable that cannot be called with any number of arbitrary arguments has none.",
 "every callable and every number of parameters",
 "All parameter counts and acceptance sets.",
 [H+"function_traits.hpp: arity_t, generic_arity, nongeneric_arity_t"])
p("C60","STDX_MAP applies a macro to every argument",
  "STDX_MAP(f, x1, ..., xn) preprocesses to f(x1), ..., f(xn), with every f(xi) expanded: exactly one application per argument, in order, separated by commas and with nothing else left over; with no arguments it preprocesses to nothing. Arguments may contain parentheses.",
  "every set of program macros, every function name or function-like macro f, every list of arguments (any length, any tokens)",
  "tests try zero, one and three arguments and one parenthesised argument; the number of scans, the end marker and the alternation of the two recursive macros depend on the whole list",
  [H+"pp_map.hpp: STDX_MAP, STDX_EVAL, STDX_MAP_A, STDX_MAP_B, STDX_MAP_NEXT, STDX_MAP_GET_END", H+"ct_format.hpp: STDX_CT_FORMAT"])
p("C61","is_function_v holds exactly for function types",
  "is_function_v<T> is true if and only if T is a function type, whatever its cv, reference and noexcept qualifiers; it is false for references to functions and all object types.",
  "every C++ type",
  "the trait is a trick on const and references; tests try a few types of the infinite set",
  [H+"type_traits.hpp: is_function_v"])
p("C62","is_function_object_v and is_callable_v",
  "is_function_object_v<T> is true exactly for classes with a call operator, overloaded, templated or not; is_callable_v<T> exactly for these and for functions.",
  "every C++ type, every assignment of call operators",
  "tests try a few types; the trait derives from the class",
  [H+"type_traits.hpp: is_function_object_v, is_callable_v, detect_call_operator"])
p("C63","is_specialization_of_v recognises specializations",
  "is_specialization_of_v<U, T> (type, value or mixed) is true exactly for the specializations of T, cv-qualified or not, and for references to them.",
  "every type and every class template",
  "all types and qualifications",
  [H+"type_traits.hpp: is_specialization_of_v, is_type_specialization_of_v, is_value_specialization_of_v"])
p("C64","function traits name the parts of a signature",
  "For every callable with signature R(Args...), whether a function, function pointer, member function pointer or class with one call operator, return_t, args_t, nth_arg_t and their decayed versions name R, Args and each argument, and obj_arg_t the object type with its qualifiers; decayed arguments can be stored.",
  "every signature and every kind of callable",
  "the specializations are written out by hand for each qualifier; tests try some combinations",
  [H+"function_traits.hpp: function_traits, return_t, args_t, decayed_args_t, nth_arg_t, decayed_nth_arg_t, obj_arg_t"])
p("C65","expand_t undoes shrink_t",
  "expand_t<shrink_t<T>> is T, and expand_t<T> is T for a type that was not shrunk.",
  "every C++ type",
  "the type goes through the return type of a function, which changes some types",
  [H+"type_traits.hpp: type_identity, shrink_t, expand_t"])
p("C66","get gives references like std::get",
  "For an element of type T, get on an lvalue, a const lvalue, an rvalue and a const rvalue of a stdx::tuple has the type that std::get has on a std::tuple.",
  "every element type, every value category",
  "references in tuples combine with every category",
  [H+"tuple.hpp: get, operator[]"])
p("C67","structured bindings of tuples",
  "A structured binding of a stdx::tuple, by value, const value, reference or rvalue reference, introduces names with the types that one of a std::tuple with the same elements introduces.",
  "every list of element types, every form of binding, const tuple or not, every position",
  "the types of the names depend on element type, form of binding and constness together",
  [H+"tuple_destructure.hpp: tuple_size, tuple_element", H+"tuple.hpp: get"])
p("C68","make_array and template_for_each call once per element, in order",
  "make_array<N>(f) calls f<0>(), ..., f<N-1>() once each, in this order, and the array holds their results in the same order; make_array(sequence, f) does so for the values of any sequence, and make_array<D> takes the values of a template. No result changes its value. template_for_each calls f for each element of the list once, in order.",
  "every function with effects, every sequence, every type of result",
  "order of effects and element types over all sequences; sequences without 0",
  [H+"array.hpp: make_array", H+"type_traits.hpp: template_for_each"])
p("C69","make_array keeps the values it is given",
  "make_array(x1, ..., xn) of integers, with or without an explicit element type, holds x1, ..., xn unchanged, in order, in an element type that can represent all of them.",
  "every list of values of any integer types, any width of int",
  "integer promotion and common types over all combinations of types and all values",
  [H+"array.hpp: make_array"])
p("C70","priority_t selects the highest viable overload",
  "A call with priority<N> resolves to the viable overload whose priority is the highest not above N; overloads with distinct priorities are never ambiguous.",
  "every N and every overload set with any priorities and any subset viable",
  "all overload sets",
  [H+"priority.hpp: priority_t, priority"])
p("C71","atomics with any memory order",
  "Whatever memory orders are passed to the operations of an atomic or atomic_bitset, relaxed included, its operations take effect one at a time: no update is lost, exactly one of the threads setting a clear bit sees it clear, increments return different values, and the answers each thread gets are those of some interleaving of the calls.",
  "every program of every number of threads, every choice of memory orders, every execution the C++ memory model allows for the object",
  "the machines tests run on show few of the executions relaxed orders allow",
  [H+"atomic.hpp: atomic", H+"atomic_bitset.hpp: atomic_bitset"])
p("C72","tuple algorithms copy lvalues and move rvalues once",
  "The tuple algorithms that make new tuples (tuple_cat, tuple_cons, tuple_snoc, tail, make_tuple, filter, sort, chunk_by, gather_by, unique, to_sorted_set, to_unsorted_set) initialize every element of the result exactly once from the corresponding element of their arguments: elements of an lvalue are copied and the argument is unchanged, elements of an rvalue are moved, and no element of the result is made from an object that has already been moved from.",
  "every element type, every tuple, every value category of each argument and every order in which the compiler evaluates function arguments",
  "which object is moved from twice depends on the value categories, on the algorithm's index arrays and on the order of evaluation, which differs between compilers",
  [H+"tuple_algorithms.hpp: tuple_cat, tuple_cons, tuple_snoc, filter, sort_by, chunk_by, gather_by, unique, to_sorted_set, to_unsorted_set", H+"tuple.hpp: tail, make_tuple"])
p("C73","functions see the elements as they were",
  "transform, for_each, enumerate, all_of, any_of, none_of, fold_left, fold_right and for_each_n_args give each function call its elements as they were before the algorithm started, with the value category of the tuple, whatever earlier calls do to their own elements; what a call leaves in its elements is what the tuple holds afterwards, and nothing else changes.",
  "every function, including one that changes or moves from its arguments, every number of tuples, of elements, and every value category",
  "functions with side effects on their arguments and all combinations of categories and sizes cannot be enumerated",
  [H+"tuple_algorithms.hpp: transform, for_each, enumerate, all_of, any_of, none_of", H+"tuple.hpp: fold_left, fold_right", H+"for_each_n_args.hpp: for_each_n_args"])
p("C74","cartesian_product_copy copies the elements",
  "Every combination cartesian_product_copy returns holds the values of the elements it combines, also when a tuple is passed as an rvalue.",
  "every number of tuples, of elements, every value category and every order of evaluation of function arguments",
  "whether a combination gets the value depends on the categories, on the sizes of the later tuples and on the compiler's order of evaluation",
  [H+"tuple_algorithms.hpp: cartesian_product_copy"])
p("C75","call_by_need gives each function the arguments as passed",
  "Every function called by call_by_need sees the arguments chosen for it as they were passed, and the arguments no function takes come back untouched.",
  "every list of functions and arguments, every value category, every effect of a function on its arguments",
  "it depends on which functions share an argument and on what the earlier ones do with it",
  [H+"call_by_need.hpp: call_by_need"])
p("C76","saturate_cast clamps floating-point values",
  "saturate_cast from or to a floating-point type gives the value of the target nearest the argument (its integer part, for an integer target), clamped to the target's range, for every argument including infinities.",
  "every floating-point format, every integer type and every value",
  "the boundary cases depend on the precisions, exponent ranges and sizes of both types; some are undefined behaviour that tests do not show",
  [H+"numeric.hpp: saturate_cast"])
p("C77","references into containers stay valid",
  "A reference obtained from cx_vector, cx_queue, cx_map, cx_set or cx_multimap (to a set, or to a value in one) designates the same element until that element is removed, whatever else happens to the container: reading it gives the element and assigning through it changes the element.",
  "every element type, capacity and history of operations before and after the reference is obtained",
  "whether an element has moved depends on the whole history, the wrap-around of the indices and the position of the element",
  [H+"cx_queue.hpp: front, back, push", H+"cx_vector.hpp: operator[], back", H+"cx_map.hpp: get, erase", H+"cx_set.hpp: begin", H+"cx_multimap.hpp: get, insert, erase"])
p("C78","optional keeps the value category",
  "value, operator*, transform, and_then (member, free and |) hand the function or caller the optional's own value by the kind of reference the optional is used by, without copying; value_or, or_else and copying or moving an optional copy from lvalues and const rvalues and move from other rvalues, only when there is a value, and use the default or the function only when there is none; emplace, assignment and reset change nothing but the optional and the rvalues they take.",
  "every value type (also one that is unpacked), value category, tombstone, default and function, and every effect the function has on its arguments",
  "the four overloads of every member and the effects of a function on the value multiply; a missed move or an extra copy shows only for particular types",
  [H+"optional.hpp: value, value_or, or_else, transform, and_then, operator|, emplace, reset"])
p("C79","binders own what they bind",
  "bind_front and bind_back copy or move the function and the arguments into the binder once; whatever happens to other objects afterwards, every call gives the function the values the binder owns, by the kind of reference the binder is used by (as std::bind_front does), followed or preceded by the call's arguments as they are; calls of a const binder do not change it.",
  "every function object, list of bound arguments and history of calls and of changes to other objects",
  "the histories and the effects of functions on bound values and on themselves are unbounded",
  [H+"functional.hpp: bind_front, bind_back"])
p("C80","assigning to an optional is as for std::optional",
  "o = x compiles and does for a stdx::optional what it does for a std::optional: a value makes it hold the value, std::nullopt and {} make it empty.",
  "every value type and type of the right-hand side, by the properties the constraints ask for",
  "it is overload resolution over all types",
  [H+"optional.hpp: operator=, optional"])
p("C81","default memory orders give one order for all objects",
  "If threads share any number of atomic and atomic_bitset objects and no call asks for a weaker memory order, then all their calls, on all objects, take effect in one order that agrees with the order of each thread's own calls: in particular two threads that each store to one atomic and then load the other cannot both miss the other's store. Conversely every such order of the calls can happen.",
  "every set of objects, every program of every number of threads, every execution the C++ memory model allows, every moment of it",
  "whether an operator or a member without an order argument passes on a weaker order shows only in rare executions on some machines",
  [H+"atomic.hpp: atomic", H+"atomic_bitset.hpp: atomic_bitset"])
p("C82","release and acquire orders publish",
  "Calls may pass any memory order the operation allows, and each call performs its one operation with that order. If the calls that set a bit of an atomic_bitset, or modify an atomic, release, then an acquiring call that finds the bit set, or a value other than the initial one, comes after such a call: everything that thread did before is seen by everything this thread does afterwards, even through relaxed calls on other objects.",
  "every set of objects, every program of every number of threads with every choice of orders, every execution the C++ memory model allows",
  "a lost release or acquire goes unnoticed on machines that order memory strongly",
  [H+"atomic.hpp: atomic", H+"atomic_bitset.hpp: atomic_bitset"])
p("C83","a bit of an atomic_bitset works as a lock",
  "If threads take a bit with an acquiring set that returns the bit clear, and give it back with a releasing reset, then of any two successful attempts one comes after the end of the other's critical section, and calls made by two threads while holding the bit never race. Other bits of the same atomic_bitset may be changed at the same time, with any memory order.",
  "every program of every number of threads in which a thread gives back only a bit it holds, every execution the C++ memory model allows",
  "exclusion and visibility must hold for every schedule and every reordering the memory model allows",
  [H+"atomic_bitset.hpp: atomic_bitset"])

p("C84","with_result_of, latched, cached and transform build a function's result in place",
  "A result handed over through with_result_of - by the user to an emplace or an optional's constructor, by latched and cached on the first access, by optional::transform and the free transform - comes from exactly one call of the function, is what the new object holds, and is built where it is kept: a function that returns by value costs no copy or move, so non-movable results work. In every history of a latched or cached object nothing but the calls happens to a value.",
  "every callable (lambda, const or mutable, final class, function pointer; returning an object, an lvalue, an xvalue), every kind of result type, every place that stores it, every history, with and without the compilers' elision through conversion functions",
  "which constructor an initialization selects depends on the result type and the rules of the language; tests use a few well behaved types and one compiler's rules",
  [H+"functional.hpp: with_result_of", H+"latched.hpp: latched", H+"optional.hpp: optional, transform"])

p("C85","containers stay usable when an element's copy or assignment throws",
  "When copying, moving or assigning an element throws in the middle of push, pop, insert, insert_or_assign or erase, the container has the basic guarantee: nothing afterwards is undefined, and what it holds is known - a push or insert adds one half-assigned element, an erase or pop removes one. A user may expect more: that the call is undone, that a set still has no duplicates and a map no wrong associations, and that a queue's size agrees with its elements.",
  "every history of calls that return and calls that throw, every value an assignment may leave behind, every capacity and element type",
  "the repository's tests use elements that never throw, and the state left behind depends on what was in the unused slots before",
  [H+"cx_vector.hpp: cx_vector", H+"cx_queue.hpp: cx_queue", H+"cx_set.hpp: cx_set", H+"cx_map.hpp: cx_map", H+"cx_multimap.hpp: cx_multimap"])

p("C86","the value inside a stdx::optional is made and destroyed in turn, exceptions included",
  "Whatever element operations and user functions return or throw, a stdx::optional holds exactly one live object until it is destroyed, which destroys as many objects as were made; a transform, and_then, or_else, value_or or assignment that throws leaves the optional usable, and an emplace or reset that throws leaves it empty, as with std::optional.",
  "every history of calls, every choice of which constructor, assignment, comparison or function throws, every element type",
  "the tests' types never throw and do not count their objects",
  [H+"optional.hpp: optional"])

p("C87","containers hold what they were given and let go of what is removed",
  "Everything in the slots of a cx_vector, cx_queue, cx_set, cx_map or cx_multimap, and everything they hand out, is a value they were given or the initial value of a slot; there are always as many objects as the capacity says. An element that has been removed is no longer kept alive: what it owns (a shared_ptr, a file) is released when pop, erase or clear return.",
  "every history of calls, every capacity, every predicate on values, every element type",
  "the tests look at the elements, not at the slots behind them, and use element types that own nothing",
  [H+"cx_vector.hpp: cx_vector", H+"cx_queue.hpp: cx_queue", H+"cx_set.hpp: cx_set", H+"cx_map.hpp: cx_map"])

p("C88","atomic<bool>, atomic of an enumeration and of a pointer behave as their type",
  "stdx::atomic<T> for bool, enumerations and pointers offers the operations of std::atomic<T> that the documentation does not exclude, whether the configuration keeps T as itself or as an integer; an atomic<bool> kept as an integer behaves as one bool under every interleaving of any number of threads.",
  "every kind of T and both representations, every width of the integer, every program of every number of threads, every schedule",
  "member functions of a class template are checked only when used, and the tests with a configured representation use load, exchange and the default constructor only; interleavings cannot be enumerated",
  [H+"atomic.hpp: atomic", "test/detail/atomic_cfg.hpp", "docs/atomic.adoc"])

p("C89","CX_WRAP, CT_WRAP and CX_VALUE keep the meaning of their argument",
  "CX_WRAP(e) and CT_WRAP(e) give the value of e: either e is evaluated exactly once, or e has that value whenever it is evaluated and nothing is evaluated now; what the documentation lists as compile-time-friendly is never evaluated at run time; a type gives that type; CX_VALUE(e) gives a callable with the value of e.",
  "every expression of literals, variables, calls, conditions and assignments; every assignment of storage, constness and types to the variables and of bodies to the functions; every state",
  "tests wrap a dozen expressions; which branch is taken depends on what the closure captures and on constant evaluation of the whole expression",
  [H+"utility.hpp: CX_VALUE, CX_WRAP, CT_WRAP, STDX_IS_TYPE, ct", "docs/utility.adoc", "docs/ct_format.adoc"])

p("C90","A panic reaches the installed handler once, with its arguments",
  "stdx::panic and STDX_PANIC evaluate their arguments once and call the panic function of the handler installed for the given types exactly once with the compile-time string, if there is one, and the values of the arguments; without a handler nothing happens.",
  "every list of argument expressions, every program, state and set of installed handlers",
  "the tests pass no arguments besides the reason; whether the macro compiles depends on what its arguments name",
  [H+"panic.hpp: panic, STDX_PANIC, panic_handler", "docs/panic.adoc"])

p("C91","Latched values may depend on each other",
  "In any family of latched objects whose functions use the values of others, every use ends, each function is called at most once, and each object has the value its function defines, whatever is asked for first.",
  "every family of objects and every function that reads and changes a world, asks for values and for has_value; every use of the objects",
  "the tests use one object whose function uses none; dependency graphs and orders of access are unbounded",
  [H+"latched.hpp: latched", H+"cached.hpp: cached"])

p("C92","Several intrusive lists can share a pool of nodes",
  "Lists whose nodes come from one pool do not disturb each other: each behaves as a plain list, a node taken out of one can be put into another, lists can be swapped, dropped and made anew, and wrong uses (a node of another list) are detected.",
  "every number of lists and nodes, and every history of operations on them",
  "the tests use one list at a time; histories over several lists are unbounded",
  [H+"intrusive_list.hpp: intrusive_list::push_front, push_back, insert, remove, pop_front, pop_back, clear", H+"detail/list_common.hpp: node_policy::checked"])

p("C93","Iterators survive changes to an intrusive list, and loops may change it",
  "An iterator stays at its element whatever is inserted or removed around it; a loop that removes elements visits every element and removes just those asked for; a loop that appends elements visits those too.",
  "every list history, any number of iterators, every predicate and every function from elements to elements to append",
  "the tests iterate over lists that do not change; the interleavings of iteration and change are unbounded",
  [H+"intrusive_list.hpp: intrusive_list::begin, end, insert, remove, push_back, iterator_t", H+"detail/list_common.hpp: node_policy::checked::on_pop, node_policy::unchecked"])

p("C94","A loop over a cx_set or cx_map may erase the element it is at",
  "A loop over a cx_set or cx_map that erases the elements satisfying a condition visits every element once and removes just those, whichever way the loop is written.",
  "every set and map with distinct keys, every condition, both ways of taking end()",
  "the tests do not erase while iterating; sizes, contents and conditions are unbounded",
  [H+"cx_set.hpp: cx_set::begin, end, erase", H+"cx_map.hpp: cx_map::begin, end, erase", H+"cx_multimap.hpp: cx_multimap::erase(key)"])

p("C95","A function that throws ends the algorithm it was given to at that call",
  "If a function given to a range algorithm, a tuple algorithm, for_each_n_args, make_array or template_for_each throws, the calls before it have been made once each and in order, no call is made after it, the results already kept are destroyed last first, and the exception reaches the caller; if no function throws the algorithm ends as usual.",
  "all functions with side effects, all calls at which they may throw, all ranges and tuples",
  "no test throws from a function given to an algorithm; lengths and the throwing call are unbounded",
  [H+"algorithm.hpp: transform, transform_n, for_each, for_each_n, for_each_butlast, for_each_butlastn, initial_medial_final", H+"numeric.hpp: transform_reduce, transform_reduce_n", H+"tuple_algorithms.hpp: transform, for_each, enumerate, all_of, any_of, none_of", H+"tuple.hpp: fold_left, fold_right, join", H+"for_each_n_args.hpp: for_each_n_args", H+"array.hpp: make_array", H+"type_traits.hpp: template_for_each"])

p("C96","for_each gives back the function it was given",
  "The for_each and enumerate algorithms over tuples, bitsets and ranges accept a function object passed as an lvalue, a const lvalue or an rvalue, of a copyable or move-only type, and return it with the state it has after the calls: the object itself if it was passed by reference as an lvalue, otherwise an object holding that state.",
  "every function object type, value category, state and number of tuples",
  "the tests pass rvalue lambdas; type properties, value categories and states are not enumerable",
  [H+"tuple.hpp: for_each", H+"tuple_algorithms.hpp: for_each, unrolled_for_each, enumerate, unrolled_enumerate", H+"bitset.hpp: for_each, type_bitset::for_each", H+"algorithm.hpp: for_each, for_each_n, for_each_butlast, for_each_butlastn, initial_medial_final", "docs/tuple_algorithms.adoc: for_each"])

p("C97","Tuple algorithms call the function once per element, in order, and nothing else",
  "for_each, enumerate, transform, all_of, any_of and the comparison of tuples call the user's function or operator for the elements from first to last, once each and no further than needed, and call nothing else.",
  "all tuples, functions with side effects, result types with and without operators of their own, and orders of evaluation",
  "the tests use functions returning void or bool without observing order; types, tuples and evaluation orders are unbounded and compiler-dependent",
  [H+"tuple_algorithms.hpp: for_each, enumerate, transform, all_of, any_of", H+"tuple.hpp: for_each, transform, operator<=>", H+"type_traits.hpp: template_for_each"])

p("C98","STATIC_ASSERT compiles exactly if its condition is true",
  "STATIC_ASSERT(cond, ...) compiles iff cond is true, for every condition static_assert takes; otherwise the error shows the formatted message.",
  "all conditions, as token sequences and values, and all messages",
  "the tests use the literals true and false; conditions and messages are unbounded",
  [H+"static_assert.hpp: STATIC_ASSERT"])

p("C99","is_structural_v has no false positives and finds types that are easy to make",
  "If is_structural_v<T> is true, T can be the type of a template parameter. The converse holds for scalars, lvalue references, classes with one constexpr default constructor, and classes whose one constructor apart from copying takes at most ten values of such types.",
  "all types, as sets of constructors with any parameters, defaults and constant-evaluation results, and all limits on constant evaluation",
  "the tests list about ten types; types nest without bound",
  [H+"type_traits.hpp: is_structural_v", H+"concepts.hpp: structural"])

p("C100","Arguments may be references to the container's own elements",
  "push_back, push, insert, put, erase and contains of the containers, called with references to their own keys and values, do what they do for copies made before the call.",
  "all contents, all elements that each argument refers to, all equality functions",
  "the tests pass values; the elements that arguments refer to, and the contents, are unbounded",
  [H+"cx_vector.hpp: push_back", H+"cx_queue.hpp: push", H+"cx_set.hpp: contains, insert, erase", H+"cx_map.hpp: contains, insert_or_assign, erase", H+"cx_multimap.hpp: insert, erase"])

p("C101","rollover_t has a common type with integers and other rollover_t",
  "std::common_type_t of two rollover_t, or of a rollover_t and an integer in either order, is the rollover_t of the unsigned type of higher rank.",
  "all pairs of integer types, on all platforms",
  "the tests use one type at a time, with std::chrono; pairs of types and platforms are not enumerable",
  [H+"rollover.hpp: std::common_type specializations"])

p("C102","Formatting what ct_format leaves gives what formatting all at once gives",
 "For every format string and every mix of compile-time arguments, run-time arguments and results of ct_format, formatting the result's string with the result's arguments gives the text that formatting the whole string with all the arguments gives; with only compile-time arguments the result's string is that text.",
 "every format string, formatter of values, list of arguments and nesting of results",
 "All strings and all ways to divide the arguments between compile time and run time.",
 [H+"ct_format.hpp: ct_format, format1, format_result"])

p("C103","Tuples hold the values they are made from",
 "A tuple made by tuple{...}, make_tuple or make_indexed_tuple has one element for each argument, in order, which is a copy of it or its moved value (for arrays and functions a pointer); one made by forward_as_tuple has references; a run-time argument of ct_format becomes one argument of the result.",
 "every list of arguments of any types, constness and value category, tuples of tuples included",
 "All lists of types, nested to any depth.",
 [H+"tuple.hpp: tuple, make_tuple, make_indexed_tuple, forward_as_tuple", H+"ct_format.hpp: format1"])

p("C104","Relaxed calls that do not race take effect one after the other",
 "Several atomics and atomic_bitsets are shared by threads, with any memory orders. If, of any two calls that different threads make on one of some objects, not both only reading, one happens before the other, then the calls on these objects have one order that agrees with every thread's program and gives every reply and the final values. Objects that are used only while a bit of an atomic_bitset is held as a lock have this property, and in that order critical sections are not interleaved; so a counter that is incremented by a relaxed load and a relaxed store under the lock loses nothing.",
 "every number of threads, programs, objects, every execution that the C++ memory model allows, finished or not",
 "The memory model allows far more executions than hardware at hand shows; no finite number of runs covers them, and tests on strong hardware see none of the weak ones.",
 [H+"atomic.hpp: load, store, exchange, fetch_add", H+"atomic_bitset.hpp: set, reset, load"])

p("C105","Calls on one atomic take effect one after the other, so numbers drawn from it differ",
 "Several atomics and atomic_bitsets are shared by threads, with any memory orders. The calls on any one of them have one order that agrees with every thread's program and gives every reply and the final value. If all calls on an atomic integer of w bits are loads, fetch_add(1), += 1 or ++, then the numbers that these calls say they have drawn are exactly the start value and its successors, modulo 2^w, one for each call; they differ from each other if there are at most 2^w of them.",
 "every number of threads, programs, objects, every execution that the C++ memory model allows, finished or not",
 "Two threads that draw the same number do so only in rare interleavings; no finite number of runs covers them.",
 [H+"atomic.hpp: fetch_add, operator++, operator+=, load"])
p("C106","An atomic integer works as a reference count",
 "Threads share an atomic integer that starts with the number of references they have; they add one with fetch_add(1), += 1 or ++ and take one away with fetch_sub(1), -= 1 or --, only while they have a reference, and there are never more than the type can count. Whatever the memory orders, no such call finds the count at zero, and at most one finds that it has taken the last one away: exactly one if and only if every thread ends without a reference. If the calls that take one away release and that last one acquires, everything that any thread did while it had a reference happens before that last call.",
 "every number of threads, programs, start values, every execution that the C++ memory model allows, finished or not",
 "A use after the last reference is gone shows only in rare interleavings, and missing synchronization only on weakly ordered hardware.",
 [H+"atomic.hpp: fetch_add, fetch_sub, operator++, operator--, operator+=, operator-="])

p("C107","The tuple algorithms take exactly the types that have elements",
 "has_tuple_protocol holds for std::array, std::pair, std::tuple, stdx::tuple, indexed_tuple, make_integer_sequence, stdx::span of static extent, of every size and element types, and for a class with a static size() of type std::size_t whose get<0> gives its tuple_element; also const or by reference. It does not hold for other types. The unrolled algorithms take these and go through as many steps as the shortest has elements; for_each, enumerate, all_of, any_of and none_of take the same unless all arguments are array-like.",
 "every type, nested in any way, and every number of arguments",
 "Tests check a few types on one platform; a type for which the concept holds by mistake makes an algorithm that does nothing.",
 [H+"concepts.hpp: has_tuple_protocol, has_array_protocol",H+"type_traits.hpp: tuple_size_v, tuple_element",H+"tuple_algorithms.hpp: for_each, enumerate, all_of, any_of, none_of, unrolled_for_each"])
p("C108","ct_capacity is the room that the type of its argument has",
 "ct_capacity(x) compiles exactly if x is an array, std::array, std::span or stdx::span of static extent, or a cx_ container, const or by reference or not, and gives the number of elements that fit; ct_capacity_v of the type, const or not, is the same.",
 "every type, element type and size",
 "A few examples do not show which specialization is selected for the others.",
 [H+"iterator.hpp: ct_capacity, ct_capacity_v",H+"span.hpp, cx_vector.hpp, cx_queue.hpp, cx_set.hpp, cx_map.hpp, cx_multimap.hpp: ct_capacity_v"])
p("C109","Tombstones need not be written for floating-point types, pointers and tuples of types that have one",
 "Floating-point types, pointers, types with tombstone_traits and tuple-like types of at least one such part have a tombstone, other types do not. An optional over such a type is made empty, and a value is taken for empty exactly if every part of it is plus infinity, null, or the tombstone of its type: a tuple with some tombstones among its parts is a value. A tombstone given by tombstone_value marks the values equal to it.",
 "every type nested from these, every value",
 "Which of the values of a nested type are lost as tombstones is a statement about all of them.",
 [H+"optional.hpp: tombstone_traits, has_tombstone_v, tombstone_value"])

p("C110","transform and and_then of an optional over a tuple call the function with the elements",
 "For an optional over a std::tuple, std::pair or stdx::tuple, transform and and_then call the function with the elements, each passed as the optional is; for other types with the value. The free transform takes optionals of one library and calls the function with the values if all have one; its result is an optional of that library. Unpacking happens if it is necessary: a function that takes the tuple itself is called with the tuple.",
 "every type of value, every function (by which argument lists it takes), every value category, every number of optionals",
 "Which types and functions are taken one way, the other, or not at all is a statement about all of them.",
 [H+"optional.hpp: transform, and_then, unwrap_invoke, convert_optional",H+"tuple.hpp: apply","docs/optional.adoc: Unpacking transform and and_then"])

p("C111","ct_format formats at compile time what is known at compile time, and only that",
 "Integral constants, enumerators in integral constants (by name), types (by name), compile-time strings of either kind, and numbers, strings and enumerators in CX_VALUE are formatted at compile time, through any number of wrappers. Results of ct_format are spliced in with their runtime arguments, wrapped or not and whatever type of string they have; formatting one with {} gives it back. All other arguments stay runtime arguments. An object of a type with ct_format_as is formatted as what that function gives.",
 "every argument built from these kinds, nested in any way",
 "Tests format one argument of each kind; the cases are tried in an order that depends on what the wrapped value is.",
 [H+"ct_format.hpp: arg_value, format1, convert_output, format_as, format_result",H+"type_traits.hpp: is_cx_value_v"])

p("C112","A span over an array has no more elements than the array, or does not compile",
 "Making a span of static extent from a C array or std::array compiles exactly if the extent is at most the number of elements and const is not dropped; of dynamic extent, it has the size of the array. span s{x} has the size of x as extent, and const elements exactly if x has.",
 "every array type and size, const or not, named or temporary; every extent; both kinds of initialization",
 "Which constructor is used depends on const, value category and initialization; tests reject one combination.",
 [H+"span.hpp: span constructors and deduction guides"])

p("C113","An optional is made from values as a std::optional is",
 "optional<T>{u} and optional<T>{std::in_place, args...} hold T(u) and T(args...), as std::optional does, for arithmetic types, aggregates and classes, from arguments of any arithmetic types.",
 "every type of value and of arguments, every number of arguments",
 "A statement about all pairs of types; unit tests construct from values of the same type.",
 [H+"optional.hpp: optional constructors","docs/optional.adoc"])

p("C114","apply_sequence and template_for_each use every element of a list",
 "template_for_each<L>(f) calls f<X>() once for each element X of L in order, and apply_sequence<L>(f) is f<Xs...>() with all of them, for type lists, value lists, integer sequences and the library's own make_index_sequence<N>, whose elements are 0 to N-1; nth_t and nth_v are the element at an index.",
 "every list of types or values, every sequence length and index",
 "A statement about all lists and lengths; the documented sum over make_index_sequence<3> comes out right for N = 3 only.",
 [H+"type_traits.hpp: template_for_each, apply_sequence, nth_t, nth_v",H+"utility.hpp: make_integer_sequence, get","docs/type_traits.adoc"])

p("C115","A list of timers ordered by cmp_less is in the order of the times",
 "A program that keeps timers of a clock of rollover_t in a list ordered by cmp_less, and takes those that are due from the front, lets every timer go off when its time has come, in the order of the times, however often the clock rolls over, as long as no timer is set further ahead than the documented half of the range.",
 "every history of setting timers, time passing and taking the timers that are due; every clock width",
 "A statement about all histories over any number of rollovers; unit tests compare pairs of values.",
 [H+"rollover.hpp: cmp_less, operator+","docs/rollover.adoc"])

p("C116","Durations and times that count with rollover_t convert between units",
 "A std::chrono duration or time point that counts with rollover_t, converted to another unit, shows the time in that unit modulo the range; differences and equality between units agree with the times.",
 "every time, every ratio of units, every width of the counter",
 "A statement about all times and ratios, including those after a rollover; unit tests convert three seconds.",
 [H+"rollover.hpp: rollover_t, std::common_type","docs/rollover.adoc"])

p("C117","Two threads can build a lock from the loads and stores of three atomics",
 "Two threads that use Peterson's algorithm on three atomics with the default memory orders, or with release and acquire orders if they yield the turn by exchange, exclude each other: of any two critical sections one is over before the other is entered, so data used only there, with whatever memory orders, behaves as if the calls were made one after the other. With release and acquire orders and plain stores of the turn both threads can be in their critical sections.",
 "every execution that the memory model allows of any programs whose calls on the three atomics follow the algorithm, with any number of critical sections and of other threads and objects; every type of atomic",
 "The failures need reorderings that a test on one machine need not show, and the guarantee is about all interleavings and all values the memory model lets a load return.",
 [H+"atomic.hpp: load, store, exchange, operator=, operator T"])

p("C118","Functions that keep state can be given to the folds over tuples",
 "fold_left, fold_right and join of a tuple work with a function object that keeps state of its own, copyable or not: each call sees what the earlier calls left in the object, as with std::accumulate.",
 "every tuple, function object, state of it and world it works on",
 "A statement about all function objects and tuples of any size; the unit tests' stateful function keeps its state outside of the object.",
 [H+"tuple.hpp: fold_left, fold_right, join, fold_helper, join_helper","docs/tuple.adoc"])

p("C119","A ring buffer over two atomic counters passes every item on, in order, however often the counters roll over",
 "One thread puts items into the slots of a ring buffer and counts them with an atomic, another takes them out and counts them with a second atomic; each looks at the other's counter with an acquiring load and increases its own with a releasing call. Then pop number i finds what push number i left, no call on a slot races with another, whatever its own memory order, and the difference of the counters, which roll over, is the number of items. If the increase is relaxed, or the load, a pop can find something else.",
 "every execution that the memory model allows of any programs in which two threads use the counters and slots in this way, with any number of items, of other threads and of other objects; every counter width, every number of slots below its range; counters increased by store, assignment, exchange, ++, += or fetch_add; looking at the other counter every time or only now and then",
 "The guarantee is about all interleavings, all values the memory model lets a load return and any number of rollovers; the failures with relaxed orders need reorderings that a test on one machine need not show.",
 [H+"atomic.hpp: load, store, operator++, fetch_add, exchange, operator=, operator T"])

p("C120","Sums of strings and string types spell their operands, however they are grouped, and equal strings are the same type",
 "An expression over ct_string and cts_t with +, unary +, (), ct_string{} and ct<>() compiles exactly if only types are unwrapped; it spells its constants from left to right and is a type if all summands are. Other groupings and wrappings of the same constants give the same array, so the same type. cts_t<X> and cts_t<Y> are the same type exactly if X == Y. A cts_t relates to ct_string as std::integral_constant to int.",
 "every expression of any size over any strings, embedded zeros included",
 "All expressions and all strings; the tests add and compare a few literals.",
 [H+"ct_string.hpp: cts_t, operator+, operator==, ct, operator\"\"_ctst, ct_string(T)"])

p("C121","The concepts that stdx has where there is no <concepts> hold for the same types as the standard's",
 "Where the standard library has no concepts, stdx defines floating_point, integral, signed_integral, unsigned_integral, convertible_to, derived_from, same_as, equality_comparable, totally_ordered, invocable and predicate. Each holds for the same types as the one in std, so that a program compiles on both. same_any is membership, same_none its opposite, same_as_unqualified compares without references and qualifiers.",
 "every type, or list of types, whatever its traits and whatever its expressions give",
 "The tests use one standard library, which has the concepts, and a few types.",
 [H+"concepts.hpp: equality_comparable, totally_ordered, predicate, invocable, same_as, convertible_to, derived_from, same_any, same_none, same_as_unqualified"])

p("C122","is_complete_v says whether a type is complete",
 "Each use of is_complete_v<T>, or of the concept complete, tells whether T is complete at that place: a class from its definition on, an array of known bound of a complete type, not void. If a class is asked about, again, only when nothing was asked before its definition, every answer is right; in general the answer is that of the first use in the translation unit.",
 "every sequence of class definitions and questions in a translation unit; every type made from classes, scalars, pointers, references and arrays",
 "The answers depend on the order of all the text before; a test sees one order.",
 [H+"type_traits.hpp: is_complete_v",H+"concepts.hpp: complete"])

p("C123","Intrusive lists and forward lists can share a pool of nodes",
  "Nodes with a prev and a next pointer may go from an intrusive_list to an intrusive_forward_list and back: with the checked policy each list, of either kind, behaves as a plain list of its own and never panics as long as a node is put into a list only while it is in none; a node still in some list is detected; the same holds between lists with different policies.",
  "every number of lists of either kind, every number of nodes, and every history of operations on them",
  "the tests use one list of one kind at a time; histories over several lists are unbounded",
  [H+"intrusive_list.hpp: intrusive_list", H+"intrusive_forward_list.hpp: intrusive_forward_list::push_front, push_back, pop_front, clear", H+"detail/list_common.hpp: node_policy::checked, node_policy::unchecked, has_prev_pointer"])

p("C124","single_linkable and double_linkable hold for the types the lists accept",
  "A class satisfies single_linkable (double_linkable) exactly if every operation of intrusive_forward_list (intrusive_list) compiles for it, and the forward list uses no member but next.",
  "every program of classes with single inheritance and members next and prev of any pointer or other type",
  "the tests try one good and one bad class per concept; a program can have any classes",
  [H+"detail/list_common.hpp: single_linkable, double_linkable, has_prev_pointer, node_policy::checked", H+"intrusive_list.hpp: intrusive_list", H+"intrusive_forward_list.hpp: intrusive_forward_list"])

p("C125","safe_identity and expand never give a reference that dangles",
  "What is declared with decltype(auto) or auto&& from safe_identity(e) or expand(e) can be used afterwards and has the value of e: the same object for an lvalue, a new object for an rvalue. Nothing else changes.",
  "every expression made of names, moves, prvalues and calls of safe_identity, expand and std::identity in any nesting, every class and every state of the objects",
  "the tests check the types of a few calls and one copy and one move; lifetimes end outside the call and depend on the whole expression",
  [H+"functional.hpp: safe_identity", H+"type_traits.hpp: expand, detail::maybe_expand"])

p("C126","Messages written with byterator and to_be or to_le are read on any machine",
  "A message written field by field with byterator, its integers converted with to_be or to_le, has every field at its offset and changes no other byte. A program that reads the fields in the same order with from_be or from_le gets the same values, on a machine of either byte order and in any buffer that is aligned alike.",
  "every sequence of fields (integers, byte arrays, gaps, alignments) and values, every buffer and offset with room for it, every pair of machines",
  "the tests read and write single values on the machine that runs them",
  [H+"byterator.hpp: byterator::read, write, advance, advance_to_alignment", H+"bit.hpp: to_be, to_le, from_be, from_le, byteswap"])

p("C127","Sets and maps whose keys can be equal without being the same",
  "Whatever the == of the keys is, a cx_set, cx_map or cx_multimap behaves as the list of the objects stored in it. insert adds an element exactly when nothing equal is stored, and otherwise leaves the stored object as it is. put on a key equal to a stored one replaces the value and keeps the stored key. erase takes out one equal element and nothing else. If == is symmetric, equal elements are never stored together.",
  "every relation the == of keys and values may be, every history of operations within capacity, every initial list, repeated elements included",
  "the tests use integer keys, whose == is identity",
  [H+"cx_set.hpp: cx_set", H+"cx_map.hpp: cx_map", H+"cx_multimap.hpp: cx_multimap"])

p("C128","Signals through an atomic_bitset and values handed over with exchange are neither lost nor received twice",
  "Threads signal by setting a bit of an atomic_bitset and take the signal with reset of that bit or of a range. Each time the bit was found off and turned on is matched by exactly one call that found it on and turned it off, or the bit is still on. A thread that uses load and then reset() can lose a signal. With exchange on an atomic, every value given is returned to exactly one exchange or is the value left.",
  "every number of threads and every program of set, reset and flip calls (one bit, ranges, all) on the bit and any calls on other bits, every choice of memory orders and every execution these allow; every program of exchange and load calls",
  "which thread comes first between two calls is not under the control of a test",
  [H+"atomic_bitset.hpp: set, reset, flip, load", H+"atomic.hpp: atomic::exchange"])

p("C129","A bitset whose size is an enumerator is a set of enumerators",
  "With stdx::bitset<E::MAX>, operator[], set, reset and flip take values of E and integers and reject every other enumeration at compile time. The variables behave as sets of the values of E below MAX: for_each and transform_reduce call the function with the members, as values of E, in ascending order, and lowest_unset returns the least value that is not a member, or MAX. The same enumeration check holds for construction from places and for atomic_bitset.",
  "every enumeration with any underlying type, every size, word type and history of calls on any number of variables; every index type",
  "the check and the casts depend on the types, of which there are arbitrarily many; which enumerators come back depends on the whole history",
  [H+"bitset.hpp: bitset, admissible_enum, iter_arg_t, for_each, transform_reduce, lowest_unset", H+"atomic_bitset.hpp: set, reset, flip, operator[]"])

p("C130","Tuples are compared only as wholes",
  "As with std::tuple, t == u and t <=> u compile only for tuples of the same size whose elements can be compared pairwise, and then compare all elements (== element-wise, <=> lexicographically). Comparing tuples of different sizes, tuples with elements that cannot be compared, or a tuple and an object that is no tuple is a compile-time error.",
  "every pair of tuple types (with or without index functions), every relation saying which element types can be compared, every value",
  "which operator is selected depends on the types of all elements of both tuples; tests show one pair of types each",
  [H+"tuple.hpp: element::operator==, element::operator<=>, tuple_impl::operator==, tuple_impl::operator<=>, tuple, indexed_tuple"])

p("C131","Containers can be walked in both directions",
  "For cx_vector, span and ct_string, a loop from begin() to end() or cbegin() to cend() visits exactly the elements in order, and one from rbegin() to rend() or crbegin() to crend() visits them in reverse order; a const container (for span: const elements) and the c-functions give access to const elements only.",
  "every history of a cx_vector of any capacity, every span into any array, every string; const and mutable objects and elements",
  "members of templates are only compiled when used: a function no test calls may not compile at all",
  [H+"cx_vector.hpp: cx_vector::begin, cx_vector::end, cx_vector::rbegin, cx_vector::rend, cx_vector::crbegin, cx_vector::crend",H+"span.hpp: span::begin, span::rbegin, span::crbegin",H+"ct_string.hpp: ct_string::begin, ct_string::rbegin"])

p("C132","The algorithms take types of namespace std as they take others",
  "for_each_butlastn, for_each_butlast and initial_medial_final return the documented tuples, cartesian_product and cartesian_product_copy give the tuple of all combinations, and to_underlying gives the value of an enumerator, whatever namespaces the types of the iterators, functions, elements and enumerations come from.",
  "every type built from classes and enumerations of any namespace, pointers, references and template arguments; any number of iterators; any tuples of tuples",
  "a call by unqualified name also finds functions of namespace std for types associated with it, at any depth of pointers and template arguments; tests use int, pointers and forward_list",
  [H+"algorithm.hpp: for_each_butlastn, for_each_butlast, initial_medial_final",H+"tuple_algorithms.hpp: cartesian_product, cartesian_product_copy",H+"type_traits.hpp: to_underlying, underlying_type_t"])

p("C133","Const objects cannot be changed through the library's interface",
  "With const access to a container, optional, latched or cached value, tuple, list or span of const, every chain of calls of the library, through any nesting of these types, gives const access only, so nothing it reaches can be changed; a tuple with references or a span stays itself as it is, whatever is done through it. The keys of a cx_set or cx_map cannot be changed in place, as in std::set and std::map, so they stay distinct.",
  "every type nested from these, every chain of calls and every program of assignments through such chains, every memory",
  "const-correctness is a statement about all programs that compile, including those nobody has written",
  [H+"cx_vector.hpp: cx_vector",H+"cx_queue.hpp: cx_queue::front, cx_queue::back",H+"cx_set.hpp: cx_set::begin",H+"cx_map.hpp: cx_map::begin, cx_map::get",H+"optional.hpp: optional::value",H+"latched.hpp: latched::value",H+"cached.hpp: cached::refresh",H+"span.hpp: span, as_writable_bytes",H+"intrusive_list.hpp: intrusive_list::front, intrusive_list::back",H+"intrusive_forward_list.hpp: intrusive_forward_list::front, intrusive_forward_list::back",H+"byterator.hpp: byterator::byterator"])

p("C134","The elements of a span are the elements of what it was made from",
  "Whatever a span is made from, if the construction compiles, then the span has as many elements as its source, s[i] refers to the i-th element of the source for every i, and as_bytes of it covers the bytes of the source.",
  "every source (pointers, arrays, spans, other ranges), every element type and base class with any layout, any number of elements at any addresses",
  "which element types, class layouts and ranges users combine is open, and a wrong element is memory that a test may find harmless",
  [H+"span.hpp: span::span, span::operator[], span_base::size_bytes"])

p("C135","Folding a tuple calls the given function, whatever operators the elements have",
  "fold_left, fold_right and join over a tuple call the given function with the elements, whatever overloads of operator+ the element types, their namespaces and the library have.",
  "every set of overloads of operator+ (templates included), every implicit conversion, every tuple of elements of any value category and constness, every function",
  "the operators of element types are open; one that is found in addition changes which function is called or whether the code compiles",
  [H+"tuple.hpp: tuple_impl::fold_left, tuple_impl::fold_right, tuple_impl::join, fold_helper, join_helper",H+"ct_format.hpp: operator+"])

p("C136","A latched or cached value can be shared by threads",
  "Threads may make const calls (value, *, ->, has_value) on one latched or cached object at the same time, as they may on a const object of the standard library: there is no data race, the function is called once and all threads get the same value. Calls that do not overlap give what they give to one thread.",
  "every number of threads, every list of calls per thread, every schedule of their steps, every sequence of values and throws of the function",
  "a race shows under few schedules, and then not always",
  [H+"latched.hpp: latched, populate",H+"cached.hpp: cached, reset, refresh"])

p("C137","overload calls the function for the type of the argument",
  "A call of stdx::overload{f...} (for example by std::visit) goes to the function that takes the argument's own type, whatever conversions there are, and to a generic function for types without one; without either it goes to the one function with the closest conversion, and if two are equally close it does not compile; the order of the functions does not matter; each function keeps its own state and gets exactly its calls, in order.",
  "every set of functions (by value, reference, generic, mutable or not), every argument of any type, constness and value category, every implicit conversion between the types, every sequence of calls on a const or non-const object",
  "types and conversions are open, and a function or conversion added elsewhere can change which function is called",
  [H+"utility.hpp: overload"])

p("C138","A policy or panic handler may throw, and calls it refuses do nothing",
  "A cx_queue with an overflow policy of the user's tells the policy the number of elements and the capacity before every push, and the number of elements before every pop, front and back; a call that the policy (or a panic handler) refuses by throwing leaves the queue, or the intrusive lists and their nodes, as they were, and the program may go on.",
  "every policy with any state of its own, every capacity, element type and history of calls with any number of refused ones; any number of lists of both kinds and of nodes",
  "policies and handlers are open, and what follows a refused call is an unbounded history",
  [H+"cx_queue.hpp: cx_queue, safe_overflow_policy", H+"detail/list_common.hpp: node_policy::checked", H+"panic.hpp: panic_handler, STDX_PANIC"])

p("C139","List calls are constant-time and local, clear() and walks are linear",
  "Pushing, popping, inserting in the middle and removing from the middle read and write the links of a bounded number of nodes (at most nine accesses, on a forward list at most three), whatever the length of the list: those of the node given and of the neighbours of the place. clear() with the checked policy and walking the list visit each node of the list once, in order; clear() with the unchecked policy touches none. No call touches a node that is neither in the list nor given to it, so calls on lists without common nodes share no memory but their own.",
  "both policies and handlers, every length of list, every initial memory, every history and next call; the bounds in every state at all",
  "a bound on the work for every length of list is not an observation of any test",
  [H+"intrusive_list.hpp: intrusive_list", H+"intrusive_forward_list.hpp: intrusive_forward_list", H+"detail/list_common.hpp: node_policy::checked, node_policy::unchecked"])

p("C140","Lookups compare the stored keys in order, and an == that throws leaves the container as it was",
  "A call of cx_set, cx_map or cx_multimap that looks for a key calls the key's == with the stored keys, in order, on the left and the key sought on the right, up to the first that is equal: at most size() times (a multimap looks up the key at most three times and the value once), and other calls do not call ==. If == throws the container is unchanged, also if == answers differently each time. merge() has merged the keys before the one at which == threw, and erase(k, v) on a multimap may have erased the last value of the key, which then stays without values. After any such history every loop over the container is defined.",
  "every ==, also one that throws, keeps state or is not an equivalence; every capacity and element type; every history of calls that return or throw; every next call",
  "which call of == throws and what it answers is an arbitrary function of the history; a test fixes one",
  [H+"cx_set.hpp: cx_set", H+"cx_map.hpp: cx_map", H+"cx_multimap.hpp: cx_multimap"])

p("C141","Copies of latched and cached values keep the value and do not call the function again",
  "A copy of a latched or cached object holds the value that the original held, and calls the function only if the original held none; however often an evaluated object and its copies are copied and accessed, the function is called once. Copies are independent: reset, refresh, assignment and writes through the reference from refresh() change one object only. An object that was moved from calls the function again when it is accessed, and the value can be moved out of an rvalue.",
  "every function (it may throw and depend on the world), every history of construction, copies, moves, assignments, accesses, resets, refreshes and writes over any number of objects",
  "histories and numbers of objects are unbounded; no test copies or moves an object",
  [H+"latched.hpp: latched", H+"cached.hpp: cached"])

p("C142","Copying and assigning the nodes of an intrusive_list or intrusive_forward_list leaves the list as it is",
  "A node can be copied and assigned like any other object: the list still contains the same nodes in the same order, and a copy is in no list, so that it can be put in one.",
  "both lists, both policies, any first contents of the nodes, every history of list operations, new nodes, copies and assignments over a growing set of nodes",
  "histories, the number of nodes and the places of the assigned nodes in the list are unbounded; no test copies a node",
  [H+"intrusive_list.hpp: intrusive_list", H+"intrusive_forward_list.hpp: intrusive_forward_list", H+"detail/list_common.hpp: single_linkable, double_linkable, node_policy"])

p("C143","Containers are values: copies are independent, assignment replaces, swap exchanges, and a moved-from container is still a container",
  "cx_vector, cx_queue, cx_set, cx_map and cx_multimap can be copied, assigned, moved and swapped: what is done to one container is never seen through another, and one that was moved from is still a vector, queue, set or map.",
  "all five containers, all capacities, element types and ways elements look after being moved from; every history of member functions, copies, assignments, moves and swaps over a growing number of containers",
  "histories, the number of containers and the element types are unbounded; the tests copy and move only a few literals",
  [H+"cx_vector.hpp: cx_vector", H+"cx_queue.hpp: cx_queue", H+"cx_set.hpp: cx_set", H+"cx_map.hpp: cx_map, cx_map_value", H+"cx_multimap.hpp: cx_multimap"])

p("C144","apply is the call with all elements, and join works the same way as fold_left",
  "apply(f, ts...) calls f once with all elements of the tuples, arrays and pairs ts, in order and with their value categories, and the caller gets what f returns, as with std::apply; join(op) gives ((x0 op x1) op x2) ... and treats the elements as fold_left does.",
  "all functions and operations, with effects of their own, that may change their arguments and return objects or references; all numbers and sizes of tuples; copyable and move-only elements, as lvalues, const lvalues and rvalues; every order of evaluation",
  "functions, tuples and categories are unbounded, and no test looks at the reference apply returns or at the categories join's operation sees",
  [H+"tuple.hpp: tuple::apply, apply, tuple::join, join_helper, fold_helper", H+"tuple_algorithms.hpp: apply"])

p("C145","rollover_t of several types and numbers combine modulo 2^w, and only by explicit conversions",
  "With a rollover_t on either side an operator compiles only if both operands are rollover_t of the same type, and <, <=, > and >= never do; rollover_t are made from numbers and from other rollover_t explicitly, and an expression of such conversions and +, -, * has the value of the same expression of integers modulo 2^w.",
  "all expressions with rollover_t of any number of types, integers and floating-point numbers, all values, all widths of int",
  "the expressions, and the types in them, are unbounded; a test that an expression does not compile covers one expression",
  [H+"rollover.hpp: rollover_t's constructors, operator underlying_t, as_underlying, operator-, the friend operators and cmp_less"])

p("C146","Threads that wait for a lock built from atomic<bool> get it",
  "If each thread takes steps again and again and none keeps the lock for ever, then a thread that waits for Peterson's lock, made of the loads and stores of three atomic<bool>, gets it. Of any number of threads that wait for a lock taken by exchange(true) and given back by = false, one gets it; a given one may wait for ever. Two threads never have either lock.",
  "all fair schedules without end, all numbers of threads, all times inside and outside the lock",
  "a run without end cannot be observed, and there are uncountably many schedules",
  [H+"atomic.hpp: atomic<bool>'s constructor, load, store, operator=, exchange"])

p("C147","A lock of numbers drawn from an atomic counter is fair although the counter rolls over",
  "Threads draw a number with fetch_add(1) from one unsigned atomic, wait until a second one has that value, and increment the second when they leave. If there are no more threads than the type has values, each thread takes steps again and again and none stays for ever, then every thread that waits comes in; threads come in in the order in which they drew; two are never inside. With more threads than values two can be inside.",
  "all fair schedules without end, all numbers of threads, all widths of the type and of the word it is kept in",
  "a run without end cannot be observed, and the counters have to roll over with every number of threads waiting",
  [H+"atomic.hpp: atomic<T>'s constructor, load, fetch_add, operator++"])

p("C148","unary_plus and dereference do what the operators + and * do",
  "A call of unary_plus<> or dereference<> with any expression compiles exactly if the operator does, and gives the same type, constness, value category and value or object. unary_plus<T> and dereference<T> do the same for operands of type T and, like std::negate<T>, take what converts to T and give a T.",
  "all types, constness and value categories of the operand, all overloaded operators",
  "the types of operands and the operators of classes are the user's: a test sees a few",
  [H+"functional.hpp: unary_plus, dereference"])

p("C149","A queue over two atomic counters between two threads never stalls and loses nothing",
  "One thread puts items into atomic slots, increments one counter after each, and waits while the other counter is as many behind as there are slots; another waits while the counters are equal, takes an item and increments the other counter. If both take steps again and again, every item comes out and as many can be put in as one likes, in order, with no more under way than there are slots, however often the counters roll over, as long as there are fewer slots than the counters have values. With as many or more items are lost.",
  "all fair schedules without end, all items, all numbers of slots, all widths of counters, items and the words they are kept in",
  "a run without end cannot be observed, and the counters have to roll over with the queue full, empty and in between",
  [H+"atomic.hpp: atomic<T>'s constructor, load, store, operator++"])

p("C150","A barrier of two atomic counters holds all threads back until the last has come, and lets all go on",
  "Threads that work in rounds read one counter, increment another, and wait until the first changes, except the last to come, which finds the count equal to the number of threads, sets it to zero and increments the first. If all take steps again and again and none works for ever, every thread gets to every round, and while one works in a round none still works in another, however often the counters roll over, as long as there are fewer threads than the counters have values. With as many or more nobody gets beyond the first round.",
  "all fair schedules without end, all numbers of threads and rounds, all widths of the counters and the words they are kept in",
  "a run without end cannot be observed, and a thread may be held up at any point while the others go on to the next round",
  [H+"atomic.hpp: atomic<T>'s constructor, load, operator=, operator++"])

p("C151","A sequence lock of an atomic counter and atomic words gives readers whole versions",
  "A writer increments a counter, assigns new values to a number of words and increments the counter again; readers load the counter until it is even, load the words, and begin again if the counter has changed. What a reader gets is one of the versions that were there while it read, whatever the schedule, if the counter does not come round to the same number meanwhile. The writer never waits, and a reader gets the last version when the writer stops. If the counter may come round, readers can get a mixture of versions; while the writer goes on a reader may have to try for ever.",
  "all schedules without end, all numbers of readers, words and versions, all widths of the counter, the words and what they are kept in",
  "the writer may go on at any point while a reader reads, any number of times, and runs without end cannot be observed",
  [H+"atomic.hpp: atomic<T>'s constructor, load, operator=, operator++"])

p("C152","Which memory orders a sequence lock needs",
  "One thread increases an atomic counter by one before and after it modifies a number of atomics and atomic_bitsets, the words; other threads load the counter, read words and load the counter again. If they find the same even number both times, the words they read belong to one version, the one with that number: provided that the writer's calls that finish a version and those that modify words release, that the reader's first load of the counter and its reads of words acquire, and that the counter has not come round meanwhile. The reader's second load and the calls with which the writer begins a version may have any order; with the default order everywhere all is well. Each of the four conditions is needed: without it a reader may be given a mixture.",
  "all executions the memory model allows, all numbers and kinds of words, all calls on them, all numbers of readers, all widths of the counter",
  "weakly ordered executions depend on the hardware and the compiler, and a test sees few of them",
  [H+"atomic.hpp: atomic<T>::load, store, exchange, fetch_add, operator++, their memory_order arguments", H+"atomic_bitset.hpp: atomic_bitset's calls and their memory_order arguments"])

p("C153","Which memory orders a ticket lock needs",
  "Threads share a critical section by two atomic counters: a thread draws a number by adding one to the first, waits until it finds its number in the second, and leaves by adding one to the second or by storing the next number. If the calls that leave release and the loads of the second counter acquire, then of two threads that enter one has left before the other finds that it may enter, any two calls that threads make in their critical sections are ordered whatever their own memory orders, and a thread whose draw happens before another's is served before it. The counters may roll over if there are no more threads than numbers and draws acquire and release; draws may be relaxed if there are no more of them than numbers. With the default order everywhere all is well for up to as many threads as numbers. If the calls that leave are relaxed, or the loads, what one thread stores in its critical section may be missed by the next; if draws are relaxed and there is one more of them than numbers, two threads may be in their critical sections at the same time.",
  "all executions the memory model allows, all numbers of threads, all numbers of rounds, all calls that threads make in and outside their critical sections, all widths of the counters",
  "weakly ordered executions depend on the hardware and the compiler, a test sees few of them, and a counter's rollover is not reached",
  [H+"atomic.hpp: atomic<T>::load, store, fetch_add, operator++, operator+=, their memory_order arguments"])

p("C154","An atomic integer that threads count down tells when all are done",
  "An atomic integer starts with an agreed number; threads take one away when they have done something, at most as often as was agreed, and threads look at it. Whatever the memory orders: a thread that finds 0 knows that one was taken away exactly as often as was agreed; whoever looks after that finds 0, too; and if one is taken away as often as was agreed, the value becomes 0 and exactly one call is told that it was the last. If taking one away releases and the load that finds 0 acquires, everything that the threads did before they took one away happens before that load. If either is relaxed, what a thread did before may be missed.",
  "all executions the memory model allows, all agreed numbers, all numbers of threads, all mixtures of calls that take one away and look, all widths of the integer",
  "weakly ordered executions depend on the hardware and the compiler, and a test sees few of them",
  [H+"atomic.hpp: atomic<T>::load, fetch_sub, operator--, operator-=, their memory_order arguments"])

p("C155","Threads that work in phases can keep in step with one atomic counter",
  "An atomic integer starts with 0; each of several threads adds one at the end of each of its phases, and ends the next phase only after it has found that all threads have ended this one, that is, a value of at least the number of threads times the number of phases; the counter does not roll over. Whatever the memory orders: who finds this is right, and no thread gets more than one phase ahead of another. If adding one releases and the load that finds this acquires, everything that any thread did in the phases that have ended happens before that load and everything after it. If either is relaxed, what a thread did in a phase that has ended may be missed.",
  "all executions the memory model allows, all numbers of threads and phases, all calls on other objects in the phases, all widths of the integer",
  "weakly ordered executions depend on the hardware and the compiler, and a test sees few of them",
  [H+"atomic.hpp: atomic<T>::load, fetch_add, operator++, operator+=, their memory_order arguments"])

with open('/verif/properties.jsonl','w') as f:
    for x in P: f.write(json.dumps(x)+"\n")
print(len(P))
