# Formal model of intel/cpp-std-extensions (stdx) in Coq 8.16.1

## Method

* Every component is modelled by small total Gallina functions transcribed from the
  headers in `/repo/include/stdx`. Each definition cites file and lines.
* Undefined behaviour, panics and thrown exceptions are distinct outcomes in the model
  (`option`, or a result type), never a normal-looking value.
* Fixed-width integers are `N` or `Z` with explicit `mod 2^w`; widths are parameters.
* Types, when the code manipulates them as data (tuples, type lists, environments), are
  modelled as elements of a type with decidable equality, and heterogeneous tuples as
  lists of (type, value) pairs.
* Function arguments that are run by the library are modelled as pure functions, or as
  a trace of calls when the property is about which calls are made.
* Each component has `XModel.v` (the code), `XSpec.v` when the specification is not a
  one-liner, `XProofs.v` (lemmas) and `XProps.v` (the property theorems only, each closed
  by `exact` and followed by `Print Assumptions`).
* `*Tests.v` replay the assertions of `/repo/test` in the models, one `Example` per test
  case. They are tests: they check the transcription against behaviour the repository
  records, and no claim in `MANIFEST.json` rests on them.

## Plan per property

| id | modelled | proof |
|----|----------|-------|
| C01 | ring buffer record (storage list, push/pop index, size), step function | refinement to a list by induction over op lists |
| C02 | same with an abstract panic handler that returns or not | case analysis + invariants; witness for the returning handler |
| C03 | storage array + size; VecProgModel: callbacks of resize_and_overwrite as programs that read, write, return or throw | refinement to list; induction on the callback |
| C04 | storage array of pairs + size | refinement to a finite map (function key -> option value) |
| C05 | as C04 for keys; merge; constructor | refinement to a set; witness for duplicate constructor arguments |
| C06 | cx_map of cx_sets | refinement to key -> option set; witness for erase returning 0 |
| C07 | operators with C++ integer promotion made explicit | modular arithmetic; witness for 16-bit multiplication |
| C08 | cmp_less on w-bit values | modular arithmetic for all w |
| C09 | saturate_cast branches with C++ conversions | arithmetic; witnesses for the two wrong sign/width combinations |
| C10 | heap node -> (prev,next), head/tail, policy | representation predicate, refinement to node list |
| C11 | same, unchecked policy | same; witness for insert at end() |
| C12 | same | proof for lists of length >= 2; witness for the singleton |
| C13 | heap node -> next | as C10 |
| C14 | word list + width + N | bit-level abstraction, refinement to nat -> bool |
| C15 | shift loops over words | bit-level proof; witnesses for padding leaks |
| C16 | lowest_unset, transform_reduce loops | witnesses, and proofs under clean padding |
| C17 | constructors, to | bit-level proof |
| C18 | per-word loops of set_bit/unset_bit/bit | loop invariants |
| C19 | type list, de-duplicated list, index_of | proof without duplicates; witness with duplicates |
| C20 | threads as op lists, interleaving semantics over one word | refinement to set; counting |
| C21 | same over w-bit integer | modular arithmetic over schedules; for signed types a simulation by the same calls where int is wider than everything, and an invariant over the changes still to come |
| C22 | byte lists of words | list reversal |
| C23 | shifts and ors; conversion of the arguments of bit_pack | arithmetic; every list with a value that does not fit |
| C24 | mask recursion | bit-level |
| C25 | slicing recursion | bit-level / arithmetic |
| C26 | constexpr fallbacks | bit-level; witness for bit_ceil/bit_floor fallbacks |
| C27 | memory address -> byte, pointer | frame + round-trip; alignment arithmetic |
| C28 | (offset,size,extent) views | interval inclusion; witness for static to larger static; a null pointer as one into an array of length 0 |
| C29 | size_conversion formula | arithmetic; witness for non-dividing sizes |
| C30, C31 | loops over iterator positions with call trace | induction |
| C32 | lists of characters with terminator | induction |
| C33 | parser on character lists | induction |
| C34, C35 | find_spec/count/split on character lists, format_result algebra | induction; witnesses for escapes and nested braces |
| C36 | digit loops | induction |
| C37 | search loops over base/length with invocability oracle | induction |
| C38-C42 | lists of typed elements | induction |
| C43 | lists of (query,value) | induction; witness for hand-made duplicates |
| C44 | value + tombstone | case analysis |
| C45 | state machine with throwing oracle | invariant over histories |
| C46, C47, C48 | list functions, arithmetic, lookup | induction |
| C49 | the erase functions of C04-C06 | part of the conformance proofs; witness for the multimap |
| C50, C51 | lists of typed elements, calls on a world | induction |
| C52-C54 | character lists, string_view searches; `__PRETTY_FUNCTION__` as text + "= " + name + ending | list lemmas; universal refutations for names with '=' or nested '<' |
| C55 | const/volatile/reference of a type | case analysis over all combinations |
| C56-C58 | integers with width and signedness | modular arithmetic, bits |
| C59 | signature and accepted argument counts of a callable | induction over the search |
| C60 | token streams, the header's macros and the preprocessor's expansion algorithm (disabled macros, painted names, argument prescan) | one invariant for "k calls done", each scan advances it by one; induction over the EVAL levels counts the scans |
| C61-C65 | C++ types as trees (qualifiers, references, arrays, functions, templates), the standard's transformations on them | case analysis over all types; universal refutations for the exceptions |
| C66, C67 | the type of get for each value category; the rules of [dcl.struct.bind] over tuple_size, tuple_element and get | case analysis, against the same rules for std::tuple |
| C68 | calls on a world; result types and braced-list conversions as parameters | induction over the sequence |
| C69 | integer types, promotion, common_type, narrowing in braced lists | invariant of the fold of common types |
| C70 | overload sets as (priority, viable) lists, ranking of derived-to-base conversions | search lemma |
| C71 | axiomatic executions of one atomic object: modification order and the four coherence rules of [intro.races], no order between objects | every execution is simulated by an interleaving (induction on the modification order), then C20 and C21 apply |
| C72 | the tuple models at references (category, object, type) with a store; initializing from an rvalue empties the object; function arguments in any order | the result of C38-C41 as a list of references, then: building from a list that names no rvalue object twice gives the old values |
| C73 | the same with user functions that answer and rewrite their arguments | induction over the calls: a call changes no object a later call names |
| C74 | cartesian_product_copy with a store, any order of evaluation | closed form of the result by induction on the tuples; refuted in general |
| C75 | call_by_need at references | transfer of C37; refuted for shared rvalues |
| C76 | saturate_cast over integers and floating-point formats (dyadic values, rounding) | against the rationals; case analysis on the pair of types; refuted where the code does not clamp |
| C77 | references as slots of the containers' arrays | slot of an element tracked through histories (queue: modulo the capacity); find position stable under insertion; exact effect of erase |
| C78 | the members of optional on objects in a store, with the four kinds of reference | exact effect on the store of every member |
| C79 | binders as objects in a store, histories of calls and other changes | refinement to a closure that owns its values |
| C80 | the candidates for o = x and overload resolution | case analysis against the candidates of std::optional |
| C81 | the memory order each member passes on, several objects, the axiomatic C++ memory model (happens-before, one order of seq_cst operations) | replaying the order of the seq_cst events; conversely timing the calls |
| C82 | same | the first modification that sets the flag heads a release sequence read by the acquiring call |
| C83 | same | strong induction on the modification that clears the bit: it belongs to the thread that set it |
| C84 | the wrapper's conversions and overload resolution of the initialization at each place | case analysis over functions and types; histories through C45 |
| C85 | each container call cut off in its element operation, any value left in the slot | histories of both kinds of call by simulation, from the invariants of C01-C20 |
| C86 | the object in an optional with its lifetime; element operations return or throw | simulation by a std::optional value; counting invariant |
| C87 | the whole storage in the models of the containers | invariant along runs for an arbitrary predicate; contents of the slots past the size |
| C88 | which member functions compile for each kind of T, and atomic<bool> as programs over the primitives | case analysis; single-step linearizability as for C21 |
| C89 | a small expression language with run-time evaluation, captures and constant evaluation; the macros as functions on its expressions | mutual induction: constant expressions have one value and no effect |
| C90 | stdx::panic and STDX_PANIC over the expression language of C89 | unfolding; induction on the argument list for what the lambda would capture |
| C91 | latched objects whose functions are scripts over all objects; nested calls counted by fuel, with running out a separate outcome | induction on a rank of the dependency graph; divergence by induction on the fuel |
| C92 | several lists (pairs of pointers) over one memory of nodes; list operations as in C09, assigning and swapping copy the pointers, a new list has none | each list satisfies the one-list invariant on its own nodes and leaves others' links alone |
| C93 | iterators as node pointers held beside the list; for-loops with a body of list operations, advancing before or after it | simulation by a plain list with positions; induction on the rest of the list, and on the queue for appending |
| C94 | loops over the storage by index, with end() taken once or anew, on the C04/C05 models | invariant: slots the loop has not reached are never overwritten; induction on the rest |
| C95 | the algorithms of C30, C31, C38-C46 with functions that may throw; destructors of kept results | rounds 0, 1, ...: loops generalised over the position reached; the outcome of running rounds until one throws |
| C96 | deduction of Op, the return statements, copies and moves of the function object | cases on category and type |
| C97 | fold expressions over results with types and operators of their own; calls as function arguments, in any order | induction on the rows; position of a call in the order; logs of calls |
| C98 | tokens: macro arguments, the template argument they become, conversion to bool without narrowing | brackets match (an inductive grammar): induction over it |
| C99 | classes as constructors over constants; any_t converts to every type but the class; search for a number of arguments | induction on how a value is made; filters with exactly one survivor |
| C100 | arguments as places in the storage, read again at each use | per call: what is read stays the same until the last read; search loops against find |
| C101 | integer types as sign and rank; promotion, usual arithmetic conversions, the specializations of common_type | case analysis on ranks for every monotone table of widths |
| C102 | ct_format of CtFormatModel with a formatter of whole strings written as a reading automaton | formatting distributes over concatenation; induction over the fields |
| C103 | class template argument deduction and aggregate initialization on types and arguments | no type is its own element; induction over the arguments |
| C104 | the executions of C81-C83 | happens-before is acyclic and decidable, so all events can be sorted by it; without races such an order has no coherence violation and can be replayed; sections by mutual exclusion |
| C105 | the executions of C81-C83 | the events on one object sorted by the modification they make or read, which coherence makes agree with every thread; then induction over that order |
| C106 | the executions of C81-C83 | over that order the count is the sum of what the threads have; every earlier decrement heads a release sequence that the last one reads from |
| C107 | types as trees with what the concept looks at: size, get, tuple_element, value_type | case analysis against an inductive description of types with elements; induction over the arguments |
| C108 | the same types; the specializations of ct_capacity_v that match | induction over array types |
| C109 | types and values as trees; optional as in C44 | induction over types |
| C110 | functions by the argument lists they take, types by how unwrap_invoker and apply see them | case analysis; induction over the optionals for the free transform |
| C111 | arguments as trees of the kinds that arg_value tells apart, mapped to those of C34/C35 | induction over the wrappers |
| C112 | overload resolution between the constructors and between the guides: which bind, which binding is better, which is more specialized | case analysis over kinds of arrays, for all sizes |
| C113 | arithmetic types with narrowing; T{...} beside T(...) | induction over the members |
| C114 | class templates by their parameters; which partial specialization matches, what it passes on | case analysis on the parameters, induction over the list |
| C115 | a timer list over the operations of rollover_t; the same with times that do not roll over | refinement: induction over the history |
| C116 | duration_cast of the standard library over the common type of rollover_t and its operators | modular arithmetic |
| C117 | MultiModel's executions; what each thread does to the three objects is a condition on its calls and replies | the turns yielded are ordered by the modification order; the seq_cst order, or the release sequence of the exchanges, gives that the later one sees the raised flag |
| C118 | fold_helper and join_helper with the function object as an object that has contents, copies counted; std::accumulate with one object | induction over the tuple; counterexample for every tuple of two or more elements |
| C119 | MultiModel's executions; what the producer and the consumer do to the counters and slots is a condition on their calls and replies | well-founded induction over happens-before: what a load finds in the other counter is within the bounds, so the difference modulo the range is exact; coherence for the slots |
| C120 | expressions over arrays of characters tagged as string or type; which operator takes which operands | induction over expressions |
| C121 | types as numbers, what the compiler knows of them as functions; the standard's concepts written down separately | case analysis; a small program for the refutation |
| C122 | a translation unit as a list of definitions and questions; specializations made once | induction over the text, with what has been instantiated as invariant |
| C123 | lists of both kinds, each with its policy, over one memory of doubly linked nodes | induction over histories; invariant: every list's nodes carry its links, the others are null |
| C124 | class definitions with inheritance; the types of the expressions in the concepts and in the lists' statements | both sides computed from the members found; antisymmetry of inheritance |
| C125 | objects with lifetimes, expressions over them with value categories, temporaries and the end of the full expression | induction on expressions with an invariant on objects before and temporaries after |
| C126 | user programs that write and read fields with the byterator of C27 and the conversions of C22, on two machines | induction on the fields, with the bytes before an offset untouched by later fields |
| C127 | the models of C04, C05 and C06 with an arbitrary function for == | simulation by the list of stored objects, exact up to the order erase leaves |
| C128 | the models of C20, C21 and C71 (executions with any memory orders) | the sequential order of C20 and C21, then induction on it |
| C129 | EnumBitsetModel: types of indices, the static_asserts, the casts to and from std::size_t around the model of C14 | the simulation of C14 composed with the map from positions to values of the enumeration |
| C130 | CompareModel: the viable candidates for == and <=> on two tuples, the ranking of their conversions, the selected operator and its value | characterisation of the candidate set by the shared positions, case analysis on their number |
| C131 | WalkModel: types and positions of the iterators each access function returns, the implicit conversion in the return statement, the loop over the array | induction on the elements for the loop; VRep invariant of C03 for cx_vector |
| C132 | LookupModel: associated namespaces of a type, the choice between two functions of one name, and the algorithms that call by unqualified name, on types | from_std as an inductive predicate shown equal to the lookup rule; induction over the tuples for the products |
| C133 | ConstModel: for each accessor the type and constness of what it gives; memory of objects with parts and pointers, programs that assign through chains of accessors | induction on the chain (const is kept by every step); invariant that no pointer leads into the const object |
| C134 | SpanSrcModel: sources with addresses of their elements, layouts of classes, pointer conversions in the constructors of span | elements are spaced by the size of the span's element type; induction on the index |
| C135 | PlusModel: overload resolution for binary operators (conversion sequences, partial ordering of templates), the fold expressions of fold_left, fold_right and join | case analysis of parameter types: T&& is never worse than another parameter, the helper's parameter is more specialized than every other; induction on the tuple |
| C136 | LatchThreadModel: the reads and writes of the std::optional in each call as steps of threads, interleaved by a schedule; a race is two next steps on it, one a write | invariants over all schedules; construction of a schedule to the first write; one call at a time refines the history of C45 |
| C137 | OverloadModel: overload resolution with one argument and the implicit object parameter (ranks of conversions, reference bindings, templates), functions with state | the best function is unique (better is asymmetric), case analysis of parameters; induction on the calls |
| C138 | CaughtModel: cx_queue with a policy with state that returns or throws; programs that catch and go on, for the queue and for lists | the invariants of C01 and C123 through refused calls; induction on the history |
| C139 | TouchModel: the list models again, with a record of the reads and writes of nodes | erasing the record gives the models of C10 and C13; additive cost rules; a Hoare-style footprint logic over the memory representation of C10; chains of next and prev pointers for the loops |
| C140 | KeyCmpModel: the container models again in a monad with a record of the calls of == and exceptions; == is any function of the record | agreement with the models of C04 to C06 for an == that answers; an invariant (size within storage) kept by every call; rules for exact records, for bounds and for unchanged state |
| C141 | LatchCopyModel: any number of objects (function, optional value), the implicit copy and move operations, a record of the calls | a specification that reads the value and function of an object off the past events; invariant between objects and past, both directions |
| C142 | NodeValueModel and NodeValueFwdModel: IntrusiveListModel and ForwardListModel with new nodes, copies of nodes and assignments between nodes, which copy the links | refinement of a sequence of nodes with the links of the nodes outside it; for the findings, chains and endless walks through the changed links, for every place in the list |
| C143 | ValueCopyModel: a pool of containers of one class with the implicit copy, move and assignment, member by member, over the models of C01-C06 | a forward simulation of each container lifted once to pools of them; for the findings, erasure as removal of one occurrence from a list with repetitions |
| C144 | ApplyJoinModel: apply's two overloads with their return types, and join with its helpers, on the references to a store of MoveModel | the call as in C73; unordered evaluation of distinct rvalues commutes, then induction over the fold |
| C145 | RollMixModel: expressions with types, overload resolution among rollover_t's friends, conversions as in FloatSatModel, operations as in RolloverModel | induction over expressions: the value is congruent modulo 2^w |
| C146 | WaitModel: threads with looping programs over several atomic<bool>, calls as in AtomKindModel, infinite schedules | Peterson: a finite machine, its invariant and the rank of each stage checked for all its states by computation, and induction on the rank for the infinite run; spin lock: the count of holders as invariant, and the same induction |
| C147 | WaitModel with the calls of AtomicModel: threads that loop over fetch_add, load and ++ of two counters | refinement to a machine whose counters do not roll over; invariant: the numbers in use are those from the one served to the next one, each once; rank: distance to the number served |
| C148 | OperSpec: the operators + and * of the language for all kinds of operands; OperModel: binding of U &&, std::forward, the constraint of the typed forms | case analysis on the kind of operand |
| C149 | WaitModel with the calls of AtomicModel: a producer and a consumer that loop over load, store and ++ of two counters and an array of slots | refinement to a machine whose counts do not roll over; invariant: the slots from the one taken next to the one filled next hold their items; the consumer takes what is there and the producer fills an empty queue, each by a rank |
| C150 | WaitModel with the calls of AtomicModel: any number of threads that loop over load, = and ++ of two counters | refinement to a machine whose counts do not roll over; invariant: either the count is the number of threads that have come in this round, all others being before that point in this round or behind the last one, or all have come and one is opening the next round; each thread comes by a rank, then the one opens |
| C151 | WaitModel with the calls of AtomicModel: one thread that loops over ++ and =, any number that loop over load | refinement to a machine whose counter does not roll over; invariant: the words are those of the version being written up to a point and those of the last behind it, and what a reader has got agrees with the version it began with as long as the counter is the same; ranks for both kinds of threads; two schedules given as functions for the negative halves |
| C152 | MultiModel: any calls on a counter that one thread increases, and on words that it modifies while the counter is odd | the place of each modification is counted by the writer's calls; a read from an earlier version contradicts coherence through the writer's finishing call and the reader's first load, a read from a later one through the modification itself and the reader's second load; a small execution for each condition that is left out |
| C153 | MultiModel: any calls of threads that draw, wait, enter and leave as TicketOrderSpec.ticket_lock says | induction on the modifications of the counter that is served: number m is made by the thread whose draw was number m, since a thread that found its number a whole round too early would contradict coherence or the number of threads; then each entry is ordered after all modifications up to the one it reads; for relaxed draws an execution in which one thread makes 2^w rounds that another does not see |
| C154 | MultiModel: any calls of threads that load an integer or take one away from it | the calls on the integer in one order (C105); all calls that take one away come before a load that finds 0, and head a release sequence of read-modify-writes that this load reads from |
| C155 | MultiModel: any calls of threads that load an integer or add one to it, and wait between phases | the calls on the integer in one order (C105); among the first threads times phases calls that add one, no thread has more than its share, so each has exactly its share; these head a release sequence that the load reads from |











## Trusted base

* Coq 8.16.1: its kernel, and the `vm_compute` machine used in examples.
* `Print Assumptions` is run under every property theorem in the `*Props.v` files and
  prints "Closed under the global context" for each one: no axiom is used, from the
  standard library or elsewhere. Only the standard library is imported.
* The transcription from C++ to Gallina. It was made by reading the headers; the code was
  not run. Each definition cites the lines it models, and the `*Tests.v` files check the
  models against the outcomes asserted by the repository's own tests.
* The C++ rules that the model builds in: two's complement conversion modulo 2^w, integer
  promotion to an `int` whose width is a parameter, signed overflow and out-of-range shifts
  undefined, left-to-right evaluation in braced lists and comma folds, overload resolution
  and reference collapsing as described in the comments.
* Third-party code enters only through contracts, stated as hypotheses or in comments:
  * `::atomic::load/store/exchange/fetch_*` (the *conc* library): indivisible and
    sequentially consistent (`ConcModel.v`, C20 to C22), or, with any memory order, atomic
    and coherent as [intro.races] says for one object (`RelaxedModel.v`, C71), or, for
    several objects, as [intro.races] and [atomics.order] say (`MultiModel.v`, C81 to C83, C104, C117, C119).
  * `std::sort`: any function that returns a sorted permutation is allowed (C40).
  * mp11 algorithms (`mp_find`, `mp_unique`, `mp_at`, ...): modelled by the list functions
    they document.
  * `{fmt}`: not modelled. C34 and C35 hold for every formatter that copies literal text
    and formats one argument independently of the text around it (`verbatim`); the
    library's own freestanding formatter is proved to be one (`C34_freestanding`).
  * compiler builtins for counting bits: their documented meaning (`BitModel.v`).
  * `__PRETTY_FUNCTION__`: the shape in `CtConvSpec.v`.
  * the preprocessor: macro expansion as GCC and Clang implement [cpp.replace], written out
    in `PpMapModel.v` (C60).
  * the type system: cv-qualifiers of arrays and functions, reference collapsing, decay,
    adjustment of prvalue types [expr.type] and structured bindings [dcl.struct.bind], written
    out in `TypesModel.v` (C61-C67); which classes are final and have which call operator
    is a parameter.

## What is modelled, header by header

| header | modelled | not modelled |
|--------|----------|--------------|
| algorithm.hpp, numeric.hpp | all algorithms, with functions that throw (C95), saturate_cast | sign of zero and NaN payloads in saturate_cast |
| array.hpp | every make_array | floating and class types in make_array(values...) |
| atomic.hpp | every member for integral T, with its memory order; bool, enumerations, pointers (AtomKindModel) | floating T; for bool, enumerations and pointers the memory orders |
| atomic_bitset.hpp | every member, with its memory order; which index types are accepted (C129); signals (C128) | - |
| bit.hpp | byte swaps, endian conversions, counting fallbacks, masks, pack, unpack, destructure, smallest_uint | bit_cast |
| bitset.hpp | bitset, for_each, transform_reduce, type_bitset; sizes and indices of enumeration type (C129) | enumerations without a fixed underlying type |
| byterator.hpp | every member except comparison with foreign iterators; messages of several fields (C126) | - |
| cached.hpp, latched.hpp | every member | - |
| call_by_need.hpp | the whole search and the calls, with the effects on the arguments | - |
| ct_conversions.hpp | every function | compilers other than GCC and Clang |
| ct_format.hpp | find_spec, split, count, named arguments, format results, ct_format | |
| ct_string.hpp, udls.hpp | every function and literal parser | - |
| cx_map, cx_multimap, cx_queue, cx_set, cx_vector | every member; validity of references (C77); erasing in a loop (C94); any operator== of keys (C127) | |
| detail/fmt.hpp | the freestanding formatter | - |
| env.hpp | environments, queries, append, extend | queries that do not call `query` |
| for_each_n_args.hpp, functional.hpp | batches, bind_front, bind_back, with copies, moves and value categories; with_result_of; safe_identity (C125) | unary_plus, dereference |
| function_traits.hpp | every alias | - |
| intrusive_list.hpp, intrusive_forward_list.hpp | every member, both policies; several lists over one pool; lists of both kinds over one pool (C123); iterators held while the list changes; which node types compile (C124) | - |
| concepts.hpp | has_tuple_protocol, has_array_protocol; structural (C99), callable (C62), same_template_as (C54), complete (C122) through their traits; the fallbacks for libraries without <concepts> (C121) | has_trait, tuple_comparable |
| iterator.hpp | counting_iterator, ct_capacity | - |
| optional.hpp | every member; copies, moves and value categories in OptMoveModel; overload resolution of assignments; results built in place (LazyModel); tombstones (TombModel) | - |
| panic.hpp | panic, STDX_PANIC | handlers that do not return |
| pp_map.hpp | every macro, and macro expansion itself | STDX_MAP_INC; arguments that contain macro names |
| priority.hpp | overload resolution on priority_t | - |
| ranges.hpp, compiler.hpp | nothing: the concept `range` and the attribute macros have no behaviour of their own | all |
| rollover.hpp | every operator, common_type, rollover_t<bool> | - |
| span.hpp, utility.hpp (sized) | construction, element access, subspans, sized | null spans |
| static_assert.hpp | STATIC_ASSERT | the text the compiler wraps around the message |
| tuple.hpp, tuple_algorithms.hpp, tuple_destructure.hpp | every function; the types of get and of structured bindings; copies and moves in the algorithms | copies and moves in join, comparisons and apply; const rvalues are taken as const lvalues |
| type_traits.hpp | is_same_template_v, is_function_v, is_function_object_v, is_callable_v, is_specialization_of_v, shrink and expand, template_for_each, is_structural_v | is_scoped_enum_v, conditional_t |
| utility.hpp | type_map, forward_like, as_signed, as_unsigned, is_aligned_with, CX_VALUE, CX_WRAP, CT_WRAP | arguments of CX_VALUE and CX_WRAP with qualifiers, arrays, functions, types with a greedy operator+ |

## Findings

Behaviour that differs from what the documentation or the corresponding standard component
leads one to expect; each one is a theorem (`*_refuted`, or named) or an explicit hypothesis.

* cx_queue with a panic handler that returns (the default one) corrupts itself on overflow
  and underflow (C02).
* cx_set and cx_map constructors keep duplicates (C04, C05); erasing a key of a cx_map moves
  its last entry, so a reference to that entry is left behind, also when a cx_multimap erases the only value of another key (C77).
* bind_front and bind_back (documented as std::bind_front and bind_back) pass bound arguments as const
  lvalues when a const rvalue binder is called, return by value (`auto`), so that a function that returns
  an rvalue reference has its referent moved from, and do not accept a function by name (`remove_cvref_t`
  instead of `decay_t`) (C79).
* optional's assignment from a value is disabled for a class type T and a value of type T (the condition
  `is_scalar or not same` is the reverse of std::optional's, and there is no implicit conversion to fall
  back on), so `o = t` does not compile; and for scalar T, `o = {}` stores T{} (C80).
* cx_multimap::erase(k, v) may remove a key and report 0 (C49).
* rollover_t<uint16_t> multiplication is undefined when the product exceeds INT_MAX (C07).
* saturate_cast: undefined for every input of one family of type pairs, wrong for negative
  inputs of another (C09). With floating point: saturate_cast<float>(double) maps zero and all
  negative numbers to FLT_MIN; float to int32_t and double to int64_t are not clamped;
  int64_t to float is undefined for every input (C76).
* Unchecked insert at end() keeps a stale next pointer (C11); the checking policy misses the
  re-insertion of the only (forward list: last) node (C12).
* bit_pack chooses its overload by the number of arguments and converts them, so an argument
  that does not fit its part is cut without a diagnostic and does not come back (C23).
* bit_ceil/bit_floor fallbacks shift 1U; rotl/rotr fallbacks are undefined from the width
  on (C26).
* Bits above N of a bitset are observable after set(), flip(), ~ and <<= (C14-C16); shifts
  by the capacity or more; set(lsb, length 0) at a word boundary; the integer constructor
  with a 64-bit word type other than uint64_t (C17); for_each on bitset<0> (C18), and its integer constructor over std::uint64_t words, which writes to
  storage[0] (C14_no_bits).
* type_bitset with duplicate types sets another type's bit, or rejects a type of the list, and
  operator[] accepts types that are not in the list; for_each<bit> never compiles; converting
  from a type_bitset over other types ignores what is set in it (C19).
* `type_bitset::set(false)`, without types, ignores its argument and sets every bit (bitset.hpp:608-618): C19_set_false_refuted.
* atomic<T> with signed T at least as wide as int: the value returned by += and ++ overflows
  (C21).
* byterator advance_to_alignment for sizes that are not powers of two (C27).
* span: static extent converts to a larger static extent unchecked (C28).
* span: `span<T, N>{}` with N > 0 compiles (std::span has no such constructor): it says that it has N elements and looking at any of them is undefined (C28).
* sized over-counts when sizeof(U) does not divide sizeof(T) (C29); sizes whose bytes do not fit into std::size_t give too few (C29_overflow_refuted).
* for_each_butlastn with a negative count (C30), transform_reduce_n with one (C31).
* counting_iterator over unsigned types never has a negative distance (C47).
* ct_string split at NUL (C32); literals that do not fit wrap silently (C33).
* Nested braces in format strings (C34), spans of compile-time arguments after "{{" (C35),
  `true` and NUL in the freestanding formatter (C36).
* call_by_need with an lvalue tuple of functions calls nothing (C37).
* Types with equal names defeat gather_by and to_sorted_set (C40).
* Environments with hand-made duplicates and odd argument counts, and queries derived from other queries (C43).
* optional: throwing emplace, unordered values, value() of an empty optional; docs/design/optional.md calls it a functor, a monad and an applicative functor, and the laws fail for functions that give the tombstone (C44).
* type_map: a key with two values looks up as absent (C48).
* type_as_string cuts names that contain '=' (C52); enum_as_string keeps the qualifier of
  enumerations local to const member functions (C53); is_same_template_v identifies all
  member templates of one class template (C54); forward_like does not move lvalues (C55).
* STDX_MAP: from 368 arguments on unexpanded macros remain; an argument `(a)(b)()` after the
  first ends the list silently (C60).
* is_function_object_v and is_callable_v do not compile for final classes and are false for
  unions (C62); is_specialization_of_v is false for volatile types and does not compile for
  void (C63).
* function_traits know nothing of noexcept functions and lambdas (C64).
* expand_t<shrink_t<T>> is not T for qualified scalars, arrays and functions (C65).
* get on a const rvalue tuple gives an lvalue reference (C66); structured bindings of tuples
  with references or const elements differ from std::tuple or do not compile (C67).
* make_array(sequence, f) needs f<0> even for sequences without 0 (C68); make_array(-1, 1u) does
  not compile (C69).
* cartesian_product_copy of an rvalue tuple moves each element into one combination and leaves
  moved-from objects in the others (C74); call_by_need forwards an rvalue argument to every
  function that takes it (C75).
* optional::transform and the free transform over stdx::optional initialize with braces: an
  aggregate result does not compile, and a type with an initializer_list constructor (json) gets
  a list of one; with_result_of of a function pointer, as documented, does not compile, nor does
  latched with a mutable lambda (C84).
* The containers change their counters before they touch the element, so a call that throws is
  not undone; cx_queue::pop that throws moves the index without the wrap or the size, and the
  next front() may read past the storage; cx_set::insert that throws can bring back an erased
  key as a duplicate; cx_map::erase that throws can leave a key with another key's value; cx_multimap::insert of a new
  key that throws can give it the values of a key erased before (C85).
* stdx::optional::emplace and reset destroy the value before they build the new one: if that
  throws, the optional's own destructor is undefined (std::optional is empty then) (C86).
* clear, pop_back and erase only change the size: removed elements, and what they own, stay
  alive in the unused slots (only cx_queue::pop moves its element out) (C87).
* atomic<T*> with an integer representation, as in the repository's own test configuration,
  can be neither stored nor loaded (static_cast between pointer and integer); an enumeration
  kept as an integer has no exchange; atomic<T*>::fetch_add never compiles; atomic<bool> kept
  as an integer has fetch_add, after which the value may behave as 2 (C88).
* CT_WRAP(e) takes the compile-time branch whenever its closure captures nothing, so it does not
  compile for a global variable or a call without local variables (C89); CX_WRAP does.
* STDX_PANIC("...", x) does not compile for a local variable x: the lambda in the macro has no
  capture-default (C90).
* latched functions that use each other in a cycle recurse without end, and one that uses its own
  object now and then is called more than once and leaks a value (C91).
* removing the first node of one intrusive list through another is accepted: the other list then holds
  the rest of the first; copies of a list share its nodes; a list dropped with two nodes or more in
  it leaves them linked, and they can be put into no list again (C92).
* an intrusive list with the default policy ends a loop early when the current element is removed
  before advancing: the removed node's next is null, which is end() (C93).
* a loop over a cx_set or cx_map that erases while comparing with end() anew skips the element moved
  into the gap and runs past the storage if it erases the last element; a range-based for works (C94).
* for_each on one stdx::tuple returns a copy of the function object as an Op: this does not compile
  for an lvalue, a function or a move-only object, and dangles for a const lvalue; for_each on ranges
  does not compile with a move-only function object (C96).
* for_each and enumerate call a comma operator of the result type; all_of and any_of do not stop early
  for a result type with its own and/or; transform with index functions calls in unspecified order;
  operator<=> compares the first elements twice (C97).
* STATIC_ASSERT's condition is spliced into a template argument list: an unparenthesised `>` or comma, or
  a number other than 0 and 1, does not compile. With C++26, messages are cut at a NUL (C98). The example
  in docs/static_assert.adoc passes a type, `std::is_integral<T>`, as the condition.
* std::common_type_t<rollover_t<uint8_t>, rollover_t<uint16_t>> is rollover_t<int>, which does not
  compile; std::common_type_t<int, rollover_t<T>> does not exist, while that of rollover_t<T> and int does
  (C101). rollover_t<bool> compiles, with + meaning or (C07).
* ct_format undoes doubled braces before compile-time arguments but not after the last one, and
  does not double braces that arguments bring in, so that mixed results cannot be formatted (C102).
* tuple{t} of one tuple is a copy of t, and ct_format uses it for run-time arguments: a tuple gives
  several arguments for one field (C103).
* Where std::size_t is unsigned int, has_tuple_protocol holds for every type (type_traits.hpp:326 gives `0u`, concepts.hpp:150-156 tells the absence of a size by its type): for_each, all_of and the others compile with any argument and do nothing (C107_unsigned_refuted). Elsewhere, asking about a class that has a static size() but no get is a compile error, not false, because concept_try_get (concepts.hpp:158-160) deduces its return type (C107_no_answer_refuted).
* `ct_capacity_v<int const[3]>` is ambiguous (iterator.hpp:27-30): C108_const_array_refuted.
* stdx::tuple does not get a tombstone from its parts as std::tuple does (optional.hpp:41-45; docs/optional.adoc: "for tuple-like types"): C109_stdx_tuple_refuted.
* The documented example of unpacking with the free transform does not compile: optional.hpp:327-340 asks for the result of the function with the tuple (C110_free_example_refuted). The members test `apply` with rvalues of the elements, and apply is an error, not a failed substitution, for a function that does not take them: functions of the tuple itself, or of `S &`, are rejected (C110_takes_tuple_refuted, C110_by_reference_refuted).
* Before C++23, std::apply accepts any argument in overload resolution, and is found for every class template of namespace std: an optional over std::string or std::unique_ptr (with tombstone traits by the user) has no transform or and_then that compiles (optional.hpp:70-78, C110_std_types_refuted).
* ct_format_as is not used for an object wrapped with CX_VALUE (and so for a constexpr object given to STDX_CT_FORMAT): ct_format.hpp:389-402 looks at the wrapper only (C111_wrapped_custom_refuted).
* `stdx::span<int const, 5> s{a};` with `int a[3]` compiles (std::span rejects it): the explicit constructor for ranges (span.hpp:120-123) binds `int (&)[3]`, which is better than `int const (&)[3]`, and does not check the size (C112_c_array_refuted). The same happens with a temporary std::array (C112_temporary_refuted). docs/span.adoc calls span a version of std::span.
* The constructors of optional initialize the value with braces after testing std::is_constructible_v (optional.hpp:107-115): arguments that narrow are errors where std::optional converts, and classes with list constructors hold a list of the arguments (C113_narrowing_refuted, C113_list_refuted, C113_count_refuted).
* docs/type_traits.adoc passes stdx::make_index_sequence<3> to apply_sequence and template_for_each. It is a class template with parameters <typename T, T N> that derives from std::make_integer_sequence, so the partial specialization for L<T, Vs...> (type_traits.hpp:136-141, 166-171) matches it with the one value 3 instead of 0, 1, 2; the documented sum 3 comes out by coincidence (C114_make_sequence_refuted, C114_documented_sum_refuted). The tests use std::make_index_sequence.
* get<I>(stdx::make_integer_sequence<T, N>{}) is not limited to I < N (utility.hpp:283-286; C114_get_unchecked_refuted).
* cmp_less orders timers only if the times compared are less than half the range apart: a timer half the range ahead (docs/rollover.adoc rules out "more than 31 bits-worth") comes before one that is due, and so does a timer less than half the range ahead of now if one that is due still waits (C115_half_range_refuted, C115_late_refuted).
* A std::chrono time point over rollover_t, cast to a coarser unit, shows a wrong time throughout the cycle after the first rollover (C116_coarser_refuted); durations of different units are equal modulo the range of the finer counter, so different durations equal the same one (C116_equal_refuted).
* fold_left, fold_right and join copy the function object before each call and call the original, so a mutable function object starts from the same state in every call - one that counts its calls never gets beyond the first - and the caller's object does not change either; function objects that can only be moved do not compile (C118_own_state_refuted, C118_move_only_refuted).
* ct_string<N>(ptr, N) and an array without terminator: the last character is kept in the array but not in the string, so equal strings can be different types (C120). cts_t does not compare with ct_string (C120).
* Without <concepts>, equality_comparable and totally_ordered refuse types whose comparisons give something other than bool and accept references to types that can be compared only when not const (C121).
* is_complete_v keeps the answer of its first use (C122; the documentation warns of it); references to incomplete classes count as incomplete.
* The last node of a checked forward list can be pushed onto another list unnoticed, and the forward list then runs on into that list; nodes popped from an unchecked list are rejected by checked lists (C123).
* single_linkable and double_linkable hold for classes that inherit their links, for which pop, remove and iteration do not compile; a checked forward list uses any member called prev, also one that is not a link (C124).
* safe_identity(std::move(x)) moves from x, and rvalues that can be neither moved nor copied do not compile with it (C125).
* advance_to_alignment aligns the address, not the offset in the message: buffers that are not aligned alike read other fields (C126).
* A key that does not equal itself (NaN) fills a cx_set or cx_map with copies that cannot be found or erased, and the next insert writes past the array (C127).
* atomic_bitset::reset() and set() without arguments are stores and return the object, unlike flip(): load() followed by reset() loses a bit set in between (C128).
* bitset's place_bits constructor casts its arguments to std::size_t before set, so it accepts enumerations that set rejects; atomic_bitset's set, reset and flip have no such check at all (C129).
* bitset::lowest_unset() of a bitset<E::MAX> on which set() was called casts the number of bits in the storage to E: for an enumeration over uint8_t with MAX = 255 it returns the enumerator 0, which is set, and over int8_t with MAX = 127 it returns -128 (C129).
* The defaulted comparison friends of detail::element accept every tuple that has that element as a base. For two tuples that cannot be compared as wholes (different sizes, or elements without a comparison) and that share exactly one position of equal type, they are the only viable candidates, so the comparison compiles and looks at that element only: tuple{1, 2} == tuple{1} is true, and so is tuple{1, std::string{"a"}} == tuple{1, E::b} (C130). The repository's negative tests have two shared positions, where the call is ambiguous.
* cx_vector::rbegin, rend, crbegin and crend (const or not) are declared to return std::reverse_iterator and return a pointer; std::reverse_iterator's constructor from an iterator is explicit, so they do not compile when used (C131). docs/cx_vector.adoc lists them; no test calls them.
* bitset::to initialises `U result{highbits()}` (bitset.hpp:243) and assigns `static_cast<T>(...)` to it (245): a target narrower than the word type is a narrowing conversion, so to_natural() of bitset<11, std::uint32_t> does not compile; and a scoped enumeration T whose underlying type is not the word type (bitset<5>{}.to<E>() with `enum struct E : std::uint32_t`) does not compile (C17). The tests use the word type itself, wider integers, and an enumeration over the word type.
* Unqualified calls find functions of namespace std (C132). `for_each_n` at algorithm.hpp:96: std::for_each_n is more specialized than the variadic one of stdx, so for_each_butlast(n) over random-access iterators of std returns an iterator, and initial_medial_final, which takes get<1> of it, does not compile for std::vector. `make_tuple` and `forward_as_tuple` at tuple_algorithms.hpp:445-467: ambiguous for elements such as std::string or std::integral_constant. `to_underlying` in type_traits.hpp:24 and bitset.hpp: ambiguous with std::to_underlying (C++23, the default standard of the project) for enumerations such as std::byte. The tests use std::array of int, std::forward_list and their own enumerations.
* front() const and back() const of intrusive_list and intrusive_forward_list return `reference`, so the nodes of a const list can be changed (its iterators give const nodes); byterator<T>{p} accepts a pointer to T const and writes through it; the iterators of cx_set, cx_map and cx_multimap give non-const access to the keys (C133).
* span<Base> can be made, even implicitly, from std::array<Derived, N> and span<Derived>, and span from ranges that are not contiguous (std::list, std::deque, intrusive_list); then only element 0 is right (C134).
* The documentation puts the initial value of fold_right at the left (C38). fold_left and fold_right over a tuple with a format_result do not compile: operator+(S, format_result) in ct_format.hpp is found in the fold helper's namespace and is ambiguous with the helper's (C135).
* latched, cached: value(), * and -> are const but write a mutable std::optional without synchronisation: first calls of two threads race, and the function can be called twice (C136).
* overload: a mutable lambda beside others that are not is preferred on a non-const object, whatever the argument (std::visit passes such an object): a mutable generic one takes all calls, and a mutable one for another type makes calls ambiguous (C137).
* latched, cached: after `auto b = std::move(a)` a latched or cached `a` still has a value: the one that moving left. `std::move(a).value()` is a `const &&`: values are copied out, and move-only values cannot be taken out (C141).
* intrusive_list, intrusive_forward_list: the links of a node are copied with it. A copy of a linked node is refused by the checked policy although it is in no list; assigning to a node in a list, even from a fresh node, cuts the list or makes traversal endless, without any panic (C142).
* cx_set, cx_map: moving from one leaves its size as it was and its keys moved from. If those look the same (empty strings, say), the object holds one key several times, and erase(k) leaves k in it; clear() or assignment makes it usable again (C143).
* apply: for one stdx::tuple it returns what f returns, but for several tuples, or a std::array or std::pair, its return type is auto: a reference that f returns is copied, or moved from (C144).
* join: documented to work "the same way as fold_left", it copies every element of an lvalue tuple and gives the operation rvalues; a tuple with a move-only element can be folded but not joined (C144).
* rollover_t: its constructor takes floating-point numbers too, but those of -1 or less, or of 2^w or more, are undefined behaviour, not taken modulo 2^w (C145).
* atomic<bool>::exchange in a loop as a lock: a thread may wait for ever although the lock is given back again and again (C146).
* a lock of numbers drawn from atomic<T> lets two threads in when there are more threads than T has values (C147).
* unary_plus<T> and dereference<T> take only operands of type T and give the promoted type, unlike std::negate<T> which the documentation compares them with; unary_plus does not take bit-fields (C148).
* a queue over two counters of type atomic<T> loses items when it has as many slots as T has values (C149).
* a barrier whose count is of type atomic<T> never opens when there are as many threads as T has values (C150).
* a reader of a sequence lock with an atomic<T> counter gets a mixture of versions if the writer goes on for half as many versions as T has values while it reads (C151).
* a sequence lock whose words are stored or loaded with memory_order_relaxed can give a reader a mixture of versions even if all calls on the counter release and acquire (C152).
* a ticket lock made of two std::atomics needs release when it leaves and acquire when it waits; with relaxed draws it is safe as long as the counter does not roll over, and two threads can enter at once as soon as it does (C153).

## Seeded bugs

`seeded/LOG.jsonl` has one line for each edit of the model that was tried. Lines with an `outcome` field were not
caught, and were entered late: until then the log held only edits that some theorem caught or that led to a tighter
theorem, so its earlier versions overstate how many are caught.

* `survived`: everything still proved. Some of these edits are equivalent programs, or controls that were meant to
  survive (the edit text says so); some change what no property speaks of, such as how ties are rounded (C76) or what a
  moved-from function holds (C96). For the others no reason is recorded: take them as gaps that are not explained.
* `inconclusive`: the edited model, or a proof script before the theorems, did not compile or ran out of time, so no
  theorem was judged. These say nothing for or against a theorem.

## Out of scope

Template machinery with no run-time or compile-time *value* semantics: concepts,
value-category/lifetime preservation except where stated, fences and races on non-atomic
objects, code generation and performance, and the third party libraries (mp11, fmt,
conc) except through the contracts stated in the trusted base.
