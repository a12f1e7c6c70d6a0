# Design: a Rocq model of cpp-sort

`/repo` is read as text. Nothing of it is compiled or run. The model lives in
`rocq/theories` (logical name `Verif`), built with Coq 8.16.1, standard library only.

## 1. Layout

| Directory | Content |
|-----------|---------|
| `theories/Spec/`   | Small, model-independent specification: strict weak orders, sortedness, stability, presortedness measures. A reader needs this and `Props/` only. |
| `theories/Lang/`   | The execution model: memory of cells, outcome type, monad, loop combinator. |
| `theories/Model/`  | The C++ functions transcribed one by one. No proofs. Every definition cites file and lines. |
| `theories/Proofs/` | Invariants and lemmas. |
| `theories/Props/`  | The property theorems only: each is closed by `exact lemma`, with `Print Assumptions` beneath, and with an `Example` that meets its hypotheses on a concrete non-trivial case. |

## 2. Execution model

* **Memory** is a list of cells. An address (iterator) is a `nat`. A cell is
  `Raw` (storage with no object), `Moved` (a moved-from object) or `Val a`.
* **Outcome** of a program run: `Ok x m` | `UB` | `NoFuel`. `UB` is produced by an access out of
  bounds, a read of a moved-from object or of raw storage, an assignment to raw storage, a
  construction over a live object, a self-move-assignment, a failed precondition of a called function.
* **Loops** run with explicit fuel. Exhaustion gives `NoFuel`. The theorems state
  that the outcome is `Ok`, so they also prove termination within that fuel.
* **Comparator and projection** are arbitrary functions `comp : T -> T -> bool` and `proj : A -> T`. The model
  writes `comp (proj x) (proj y)` exactly where the C++ does. They are pure: comparators that throw or have state are not modelled.
* **Scratch memory** is appended to the memory by `alloc` as `Raw` cells. When the code copes with a failed
  allocation, the amount obtained is a parameter over which the theorem quantifies.
* **Integers.** Sizes and differences are unbounded `nat`/`Z`, except where
  a model says otherwise. Overflow of sizes is out of scope.
* `pre ++ map Val xs ++ post`: the collection `xs` inside arbitrary surrounding memory. The theorem that the final
  memory is `pre ++ map Val ys ++ post` says that nothing outside the range changed.

## 3. Properties

How each is modelled and proved. "Direct" means: the functions are transcribed in the monad of section 2, loop by loop, and the theorem is the
predicate `sorts` or `sorts_stably` of `Spec/Sorts.v` about that transcription, proved with the weakest-precondition rules of `Proofs/Wp.v`
and an invariant for each loop. Stable sorts are proved equal to the pure `ssort` of `Proofs/OrderLib.v`, which is shown to be the unique stable sorting.

| Id | Model | How it is proved; what is missing |
|----|-------|------|
| C01 | `Insertion` | direct; refines pure insertion. |
| C02 | `Basic` | direct; the prefix is sorted and below the suffix. |
| C03, C04 | `Heap` | direct; heap order over `nat` indices, the arity `D` a parameter. |
| C05 | `Poplar` | direct; forest of poplars. The vector of poplars is a list. |
| C06 | `Smooth` | direct; Leonardo heaps. The bit vector is a list of bits; a second theorem shows that the table of the code is the Leonardo sequence and is long enough. |
| C07 | `Buffer`, `Merge` | direct; an oracle decides which allocations succeed. Partial: false for forward iterators with a buffer of intermediate size (refuted). |
| C08 | `Quick`, `Select` | direct; both partition functions, introselect and median of medians; every number of tolerated bad pivots. |
| C09 | `Select` | direct; assertions of the code are `UB` if they fail. |
| C10 | `Pdq` | direct; sentinels of the unguarded loops. Whether a moved-from object may be assigned to itself is a parameter; the code needs it (refuted without). |
| C11, C12 | `Tim` | direct; invariant of the run stack, galloping merges refine the stable merge. |
| C13 | `Verge` | direct. Partial: false when an element is alone between two long runs (refuted); proved for all other collections. |
| C14, C15 | `DropMerge` | direct; the inner sorter is a parameter that satisfies `sorts`. |
| C16 | `FixedList`, `Mel` | node pool and links as tables of indices; encroaching lists. |
| C17 | `Slab`, `StablePartition` | direct; node pool shared by the recursion; the fuel of the recursion is shown to suffice. |
| C18 | `Cartesian` | tree in a table of links. A pointer of the queue carries the value of its node (justified by `C18_pop_heap_ignores_the_front`). |
| C19 | `Splay` | tree with parent links in a table. |
| C20 | `MergeInsertion` | direct; groups of iterators, list of the main chain. Two refutations about the number of comparisons. |
| C21 | `Spin` | direct; regions of memory with overlapping moves. Partial: false for swapped halves of certain odd sizes; the condition is exact. |
| C22 | `Grail` | direct; buffer size a parameter. Partial: false for a buffer of one element and for more than 2^31 elements with fewer than four keys (both refuted); buffers below 2^31 only. |
| C23 | `Wiki` | direct; buffer size and difference type parameters; the uninitialised iterators are an arbitrary parameter `junk`. `std::sqrt` is the integer square root (equal below 2^52). Partial: false for element types with a destructor when a level merges pairs through the cache, and for sizes from 2^(w/2+3)+4 where w is the width of the difference type (both refuted). |
| C24 | `Counting` | arithmetic in a bounded integer type. Partial: overflow for the greatest value (refuted). |
| C25 | `Ska`, `Spread` | the byte passes of ska_sort and integer spreadsort, arithmetic in the promoted type with signed overflow undefined. Both with `Proofs/Bins.v`: all bins but one complete implies all complete. Partial: false for signed character types (ska) and for keys too far apart (spreadsort). Floating-point keys: C67, C68; string keys of spreadsort: C69. Pair, tuple and sequence keys of ska_sort: C70. |
| C26 | `Networks`, `NetworkTables` | tables extracted from the headers by `tools/`. A verified checker decides the 0-1 principle with decision diagrams, following a plan (`tools/plans`) that names the order in which outputs are fixed. Partial above 32: sizes 33-35, 45-51, 53-63. |
| C27, C28 | `Networks` | the loops, for every N; 0-1 principle and induction. |
| C29 | `Straight`, `Fixed`, `FixedTables` | bodies copied by script into a small language of nested conditionals; a verified abstract interpreter that tracks the known comparisons. |
| C30 | `Fixed` | recursion over N. |
| C31-C42, C59 | `Probes` | direct; the result is compared with the textbook definition in `Spec/Probes.v`, and the memory is unchanged. Partial: C40. |
| C43 | `Indirect` | direct; a ghost counter of moves. |
| C44-C46, C50, C51, C58 | `Adapters`, `Indirect` | direct; the inner sorter is a parameter. |
| C47 | `Adapters` | a sorter is any tree of calls to the comparator and the projection. |
| C48 | `Adapters` | overload resolution over `choice<N>` as selection of the most derived parameter. |
| C49 | `Indirect` | direct; cycles. |
| C52, C53 | `Comparators` | a floating-point value is a zero with sign, a finite value with sign, exponent and mantissa, an infinity or a NaN. |
| C54, C55 | `Comparators` | strings are lists of characters, iterators are suffixes, reading past the end is `UB`. Partial: C54 (refuted in general). |
| C56 | `Comparators` | pure functions. |
| C57 | all | the permutation half of the direct proofs has no order hypothesis. quick_merge: any comparator with forward and bidirectional iterators, any asymmetric one with random-access iterators. False for mel, pdq, slab, wiki and, with random-access iterators, quick_merge (`_refuted`; for pdq, every collection of at least 24 equivalent elements with a comparator that is reflexive on them). Not treated: grail, spin. |
| C60 | `Rotate`, `Search`, `Buffer` | direct; contracts on lists. |
| C61 | `Select` | direct. The full contract is refuted for bidirectional iterators. |
| C62 | `StablePartition` | direct; equality with two filters. |
| C63-C66 | `ContainerAware` | on `Lang/Lists.v`: a list is a sequence of nodes with identities, an iterator is a node, `before_begin` or `end`; splicing or advancing an iterator that is not in the list is `Undefined`, and so is merging an unsorted list. Proofs by position. Partial: C65 is not stable (refuted). |
| C67, C68 | `Ieee`, `SpreadFloat` | a number is its bits in the binary32 or binary64 format, NaNs excluded; `decode` maps them to the values of `Comparators`, whose order is shown to be that of sign and magnitude. The passes of C25, and for spreadsort the bins of negative numbers in reverse order (`Proofs/SpreadFill.v`: bins filled in any order). Partial: C68 (three refutations). |
| C69 | `SpreadString` | a string is the list of its characters, reading at or past the end is `UB` (also at size(), which std::string allows and the code does not use); both orders, one and two byte characters. The elements of a level share a prefix; `Proofs/SpreadPrefix.v`: the search for the first difference never reads past an end and stops; `Proofs/SpreadPlace.v`: the bins are filled; the depth is bounded by the longest string. |
| C70 | `SkaCompound` | ska_sort on every type built from integral and floating-point types, pairs, tuples (nested pairs) and types with operator[] and size(): the chain of sub-keys, the common prefix, the sort by the elements at an index, its recursion limit. Function pointers with their sort_data are closures; an access out of bounds is checked once for each sort by a sub-key; the projection returns a reference. `Proofs/Ska.v` is stated with a next sort: it sorts what has equal keys. Partial: sequences whose elements have several sub-keys or are of type bool, and -0.0, are refuted. |
| C71 | `SwapIf` | the two overloads on values; the network sorters again, with the overload as a parameter. Integers: xor stays in the range of the type (`Z.shiftr_lxor`), every width. Floats: a simulation between the network run with the overload and with the generic swap_if, for any relation in which equivalent elements are interchangeable: sorted up to equivalence always, exactly when the collection does not hold both zeros. The full claim is false for the zeros and the NaNs. Other users of swap_if (pdq, quick, bubble...) are modelled with the generic overload only. |
| C72 | `ProbesMax` | the upper bounds of C31 to C42, and for every size a collection that reaches them: the descending one (inv, rem, sus, runs, dis, max, block), a rotation by one (exc, ham), a zigzag (mono), converging ends (enc), a wave around the median (osc). The elements are natural numbers. The full claim is false for ham at size 1 and for osc at size 1 and at every even size from 4; the greatest oscillation, n(n-2)/2 rounded down, is proved for every size. |
| C73 | `Bitops` | the functions of `detail/bitops.h` on integers with the width and the signedness of the type, the integral promotions and the undefined shifts and overflows; stated in elementary terms (powers of two around the number). The widths are powers of two for the smearing functions (24 bits would be wrong), any for the others. A theorem says that the functions on natural numbers which the models of the sorters use (`Poplar.hyperfloor`, `Pdq.log2`, `Nat.log2`, `Networks.ceil_log2`) are these. Partial: `hyperfloor` of a signed type is refuted, and characterised exactly. |
| C74 | `Facade` | the 50 overloads of `sorter_facade::operator()` as a table (form of the first argument, types of the parameters, condition of `enable_if`, call of the body), with the rules of overload resolution that they rely on (substitution failure, partial ordering: a named parameter type beats a template parameter); the implementation is any predicate on forms and lists of functions; the order that a list of functions asks for is defined independently, for any comparisons and projection. The proofs go through all the valid calls and, by case analysis on the predicate, all the implementations. Partial: the statement is refuted for `std::ranges::less` with `utility::identity` and for some implementations that accept an iterable but not the iterators; the exact set of ambiguous calls is given. |
| C75 | `IntegerRange` | the constant expressions of `make_integer_range` with the integral promotions, overflow of signed types and narrowing of template arguments (ill-formed), any width. Exactly when the program is well-formed and what the sequence then is. Partial: for equal bounds and a step greater than 1, and for every negative step, the claim is refuted. |
| C76 | `SelfSort` | the overloads of `self_sort_adapter` and of its `stable_adapter` specialization, with detection of methods and instantiation as separate steps (the `sort` of a list is found for any function, and fails to compile for a projection); the `is_stable` specializations. Partial: refuted for a list with a projection alone, and for the lists with another allocator. |
| C77 | `MoveCount` | a sorter as a tree of operations on addresses (read through the projection, move construction, move assignment, destruction, storage); run on the elements and on `move_counting_wrapper`s that hold the address of a counter in a memory of counters. By induction on the tree, the second run follows the first. The trees do not depend on the type of the elements: sorters that look at it (trivially copyable, arithmetic) are not covered. |
| C78 | `ContainerAdapter` | the conditions of the eleven overloads of `container_aware_adapter`, over any predicate for the functions `sort` that lookup finds and for the calls the adapted sorter accepts; by cases on the calls. Partial: refuted for pairs of iterators. |
| C79 | `Pipe` | the six overloads of `operator\|` with their conditions, partial ordering and argument-dependent lookup; projections as functions on one type of values. Partial: refuted for `utility::identity` with `std::identity`. |
| C80 | `Stability` | sorters as trees of adapters over any sorters; `is_stable`, `is_always_stable`, the iterator categories, `stable_t`, and what a call runs in the end, each by the rules of its header; a run is given a meaning on sequences for any algorithms that sort, stable or not. By induction on fuel, which is shown to suffice. Partial: refuted for `hybrid_adapter` below `indirect_adapter`, `out_of_place_adapter` or `schwartz_adapter` with iterators that are not random-access; the other adapters are left out. |
| C81 | `IterMove` | the conditions and visibility of the overloads of `utility::iter_move` and `iter_swap`, with what argument-dependent lookup finds, before C++20; iterators as a type (any nesting of `reverse_iterator` and `move_iterator`) and a position, so that the element that is moved is part of the statement. Partial: refuted for adapters over iterators with dedicated functions, for `iter_swap` when namespace std is associated, and for `move_iterator`. |
| C82 | `Default` | `default_sorter` put together from the models of `self_sort_adapter` (C76), `hybrid_adapter` (C48), `small_array_adapter` (C58), `low_comparisons_sorter` (C29), `quick_sorter` (C08) and `pdq_sorter` (C10), and its specialization of `stable_adapter` from `merge_sorter` (C07): the program of each call is computed by the dispatch of each adapter, then shown to sort. The `sort` of the standard lists is a hypothesis. Partial: refuted for a list with a projection alone; forward iterators when only some allocations succeed. |
| C83 | `SortFunctions` | the twelve overloads of each function with their conditions, and overload resolution for them: deduction, viability (a condition may be a hard error), reference binding by value category, partial ordering. Arguments are of four kinds. By cases on the calls. Partial: refuted for `stable_sort` with a sorter that is not a constant lvalue and two iterators, and with two iterators and a generic comparison. |
| C84 | `MetricsTools` | packs of types as lists of numbers, a metrics as a list of tags and values, the constructors as candidates ranked by reference binding. By induction on the pack; the constructors by cases. Partial: refuted for a tag that is absent and for the direct initialization from a variable. |
| C85 | `Branchless` | functions and types as terms, qualifiers as data, each specialization as a case; the result type of a projection is arbitrary. By induction on the function, against an inductive table from the documentation. Partial: refuted for references with the six order comparators. |
| C86 | `Refined` | the two overloads of `refined` with overload resolution, for an arbitrary `refine` method; the call of the facade; the parameters of `case_insensitive_less` by reference collapsing. By cases. Partial: refuted for constant functions with a method that is not, for the type the facade refines for, and for projections of strings. |
| C87 | `Entry` | the four overloads of `utility::size` with overload resolution; a table of the entry points: declared category, parameters, where the size comes from; the arguments of `verge_adapter` evaluated in any order. By cases. The table is read off the headers; that the algorithms need no more than the category is not part of it. Partial: refuted for `verge_adapter` with bidirectional iterators and with iterators that change when they are moved. |
| C88 | `ScopeGuard` | the guards as flags with the number of exceptions in flight; the adapted sorter is any function that returns or throws. The cycles that move the elements are a parameter here (C43, C49 are about them). By cases. Partial: a guard that is moved calls its function twice (refuted). |
| C89 | `FunctionPointer` | the nine conversion templates as patterns; deduction and partial ordering are written out as in the standard; `T&&` is not deduced from an lvalue reference here. `const` is part of a type, pointers to `noexcept` functions are left out. By cases on the list of parameters. Partial: two references of one type are ambiguous, and default construction is not tested (refuted, section 7). |
| C90 | `AdapterStorage` | sorters as trees of adapters with the states at the leaves; the constructors as functions on these, with ill-formed as an outcome; induction on the stack, nested induction on the trees. That an empty type has no state is a hypothesis (`no_hidden_state`). Which of the sorters hybrid_adapter calls is left to C48. Partial: stateful sorters in a nested hybrid_adapter, stable_adapter of a nested one, and conversions without default construction (refuted, section 7). |
| C91 | `IteratorWrapper`, `Spec.IteratorOperations` | the operators of both classes, and programs on variables of them as lists of operations; the specification is the arithmetic of pointers. Pointers that leave their array are not undefined here. Induction on the program. Partial: associate_iterator has no postfix operators (refuted, section 7). |
| C92 | `SorterTraits` | a class as the traits that it has, its specialization of `sorter_traits` and that of `is_stable`, each or none; the dispatch of hybrid_adapter is that of C48. By cases. Partial: stability that is in a specialization is lost (refuted, section 7). |
| C93 | `ImmovableVector` | which elements live, and the outcomes returns, throws and undefined for each operation; the constructors that throw are a parameter of the operations. The values are left out. Invariant: exactly the elements before `end_` live; induction on the operations. The assertion of `operator[]` is refuted (section 7); it is no part of the claim. |
| C94 | `SmallArray` | the five fixed-size sorters, whether each can be instantiated for a size, their domains and traits; a call of `small_array_adapter` is a soft error, a hard error or a call of a sorter, whose program is that of C26-C30. Sorting comes from those; the networks of up to 3 inputs only exchange neighbours that are out of order, hence they are stable; `schwartz_adapter` by the proof of C44 for one size. The condition of `enable_if_t` is taken to be decided before its second argument is substituted. Partial: refuted for the sizes 33-64 of `sorting_network_sorter` and the soft errors of `odd_even_merge_network_sorter`. |
| C95 | `FunctionObjects` | callables with a unary and a binary overload, pointers to members, and the classes of the adapters nested in any way; a call is direct or goes through `as_function`. Values are of one type. Induction on the callable. Partial: refuted that the result can be called directly when an adapter gives back a pointer to member. |
| C96 | `AssociateMoves`, `Spec.AssociateMoves` | the operations of a sorter as a list, their translation to operations on the elements through any number of nested associations, with the compile errors; a run in which any operation on the elements may throw. The data members are left out, and returned values are elided. Which function `iter_move` and `iter_swap` choose is that of C81. Induction on the nesting and on the list. Partial: refuted for two nested adapters, a dedicated `iter_move`, and exceptions in the move assignment. |

## 4. Trusted base

* Coq 8.16.1's kernel (and `coqchk`).
* `Print Assumptions` of every theorem in `Props/`: see section 6.
* The transcription of C++ into the model: by hand, cited line by line; tables by script (`tools/`).
* The operations of `std::list` and `std::forward_list` (`Lang/Lists.v`, C63-C66): written from the C++ standard, allocators left out.
* The statements: `Spec/` and `Props/`, and the outcome type and memory of `Lang/Mem.v`.

## 5. Not modelled

Template metaprogramming and overload resolution (except C48, C58, C74, C76, C78-C87, C89, C90, C92, C94-C96), concept checks, `noexcept` (except C96), exceptions thrown by comparators (except C88) or
element operations (except C93, C96), integer overflow of sizes (except where a row above says so), complexity (except C20, C43, C47), real allocator behaviour.
Not covered at all: the `utility` headers other than those cited by a model.

## 6. Print Assumptions

Every theorem in `Props/` prints `Closed under the global context`: no axiom is used, not even one of the standard library. `coqchk -o` lists
only what the loaded standard library declares itself (`Coq.ssr.ssrunder`), which no theorem uses.

## 7. Findings

Each is about the code in `/repo` at the pinned commit. Those with a theorem are proved on the model; the others were noticed while reading.

| Where | What | Theorem |
|-------|------|---------|
| `detail/container_aware/merge_sort.h:45-46,66-67` | the left half is merged into the right one, so that equivalent elements are reversed, although `is_stable` is true. | `C65_container_aware_merge_list_stable_refuted`, `C65_container_aware_merge_forward_list_stable_refuted` |
| `detail/vergesort.h:70` | a run of one element is rotated from the beginning of the whole collection, not from its predecessor: the collection ends up unsorted. | `C13_verge_sorter_sorts_refuted` |
| `detail/spinsort.h:365-369`, `detail/boost_common/util/merge.h:133` | reads one element past the end when the halves are swapped and the size is odd (145 to 287, 577 to 1023). | `C21_spin_sorter_sorts_stably_refuted`, `C21_spin_sorter_swapped_halves_undefined` |
| `detail/grail_sort.h:474-492` | with a buffer of one element, `kbuf` is 1 but two elements are overwritten. | `C22_grail_sorter_buffer_of_one_refuted` |
| `detail/grail_sort.h:665` | the number of elements left is converted to `int`: with between 2^31 and 2^32 elements and fewer than four distinct keys, the last merge is skipped and the collection is left unsorted. | `C22_grail_sorter_large_refuted` |
| `detail/grail_sort.h:675` | the size of the buffer is converted to `int`. | |
| `detail/counting_sort.h:45,73` | `min++` overflows if the greatest value is present. | `C24_counting_sorter_every_value_refuted` |
| `detail/ska_sort.h:56-60,74-78` | `char` and `wchar_t` are converted without the sign offset: wrong order where they are signed. | `C25_ska_sorter_signed_character_refuted` |
| `detail/ska_sort.h:439-455,711-724` | in a sequence of pairs or tuples only the first sub-key of the elements is compared: `std::vector<std::pair<int, int>>` is not sorted from 128 elements on. | `C70_ska_sorter_sequences_of_pairs_refuted` |
| `detail/ska_sort.h:701,806-811` | the sort by a bool calls the next sort on empty ranges; for a sequence it reads the first element: undefined for `std::deque<bool>`. | `C70_ska_sorter_sequences_of_bool_undefined` |
| `detail/ska_sort.h:117-131` | -0.0 and 0.0 are equal and have different keys: pairs and sequences that hold both are not sorted. | `C70_ska_sorter_negative_zero_refuted` |
| `detail/ska_sort.h:463-467,741-743` | with a projection that returns a sequence by value, the key is a reference to a destroyed temporary. | |
| `detail/spreadsort/detail/integer_sort.h:116` | signed overflow of the difference of the extremes. | `C25_integer_spread_sorter_overflow_undefined`, `C25_integer_spread_sorter_every_value_refuted` |
| `detail/spreadsort/detail/float_sort.h:146,212,277` | signed overflow of the difference of the extreme representations, as soon as a positive number has at least the magnitude of a negative one. | `C68_float_spread_sorter_overflow_undefined` |
| `detail/spreadsort/detail/float_sort.h:293` | `-div_min` overflows when -0.0 is among numbers very close to it. | `C68_float_spread_sorter_negative_zero_undefined` |
| `detail/spreadsort/detail/float_sort.h:293` | `unsigned(-div_min)` drops the high bits: a thousand doubles close to -1.0 are sorted in the reverse order. | `C68_float_spread_sorter_truncation_reverses`, `C68_float_spread_sorter_double_refuted` |
| `detail/recmerge_forward.h:117-120` | with a buffer smaller than the range, the merge of forward ranges is wrong. | `C07_merge_sorter_forward_every_memory_refuted` |
| `detail/merge_insertion_sort.h:333` | `jn = 0`: the batches are not those of the comment; more comparisons than Ford-Johnson from 9 elements. | `C20_merge_insertion_comparisons_refuted`, `C20_insertion_batches_refuted` |
| `detail/introselect.h:307` | `>` for `>=`: the element at the position is not the nth. | `C61_nth_element_bidirectional_selects_refuted` |
| `detail/pdqsort.h:331,383` | moved-from objects are move-assigned to themselves, against `docs/Home.md:28`. | `C10_pdq_sorter_never_self_moves_refuted` |
| `comparators/natural_less.h:62` | reads past the end of the second string; not the natural order. | `C54_natural_less_in_bounds_refuted`, `C54_natural_less_claim_refuted` |
| `comparators/partial_less.h` | not a strict weak order (NaN). | `C53_partial_less_weak_order_refuted` |
| `probes/osc.h` | `max_for_size` is exceeded for one element and for every even size from 4. | `C40_osc_max_for_size_refuted`, `C72_osc_max_for_size_exact` |
| `detail/melsort.h` | unsafe when the comparator is not a strict weak order. | `C16_mel_sorter_any_comparator_refuted` |
| `detail/wiki_sort.h:521-528,665,678,708` | `pull[1].from` and `pull[1].to` are compared although nothing was assigned to them when there is no second buffer. | |
| `detail/wiki_sort.h:495` | `buffered_inplace_merge` constructs elements in its buffer and destroys them, but the cache already holds live objects, which are destroyed again with the cache: undefined for types that are not trivial, e.g. 32 strings with the default `fixed_buffer<512>`. | `C23_wiki_sorter_sorts_stably_refuted` |
| `detail/timsort.h:560,710` | `minGallop_ = std::min(minGallop, 1)` never lets the threshold rise. | |
| `probes/ham.h` | `max_for_size(1)` is 1, although one element is always in its place. | `C72_ham_max_for_size_refuted` |
| `detail/bitops.h:31-41`, `detail/wiki_sort.h:275` | `hyperfloor`, written for unsigned types, is called on `difference_type`: `digits` is 63, the loop stops at a shift of 16, and bits more than 32 positions below the highest one remain (16 positions with a 32-bit `ptrdiff_t`): `hyperfloor(2^33 + 1)` is 2^33 + 1. The levels of wiki_sort then do not halve the number of ranges evenly: it reads past the end of the collection, e.g. of 2^19 + 4 elements on a 32-bit platform, 2^35 + 4 on a 64-bit one. `hyperfloor(as_unsigned(size))` would be right. | `C73_hyperfloor_signed_refuted`, `C73_hyperfloor_signed_exact`, `C23_wiki_sorter_large_refuted` |
| `sorter_facade.h:298-345,1043-1065` and `568-587,1113-1143` | the overloads that embed the projection in the comparison, on iterables, check that the implementation does not take the iterators with the projection, not that it does not take the iterable: the call is ambiguous for an implementation that only works on iterables. | `C74_iterable_only_refuted`, `C74_iterable_ambiguous_iff` |
| `sorter_facade.h:419-441` | the overload on an iterable and `std::less<>` is chosen when the implementation does not take iterators with `std::less<>`, even if it takes the iterable with it. | `C74_prefers_iterable_refuted` |
| `sorter_facade.h:818-846` | there is no overload for `std::ranges::less` with `utility::identity`. | `C74_ranges_less_identity_refuted` |
| `docs/Sorter-facade.md` | a single operator() on iterators, comparison and projection is said to be enough; without default arguments it is not. | `C74_without_defaults_refuted` |
| `utility/make_integer_range.h:63-67` | a negative step divides the distance: the range holds its beginning or nothing, or the program is ill-formed. | `C75_make_integer_range_negative_step_refuted` |
| `utility/make_integer_range.h:65` | `(0 - 1) / Step + 1` is 1, not 0, for equal bounds and a step greater than 1; with an unsigned type of at least 32 bits it is huge. | `C75_make_integer_range_empty_refuted`, `C75_make_index_range_empty_refuted` |
| `adapters/self_sort_adapter.h:29-40` | `std::list::sort` is detected for any function, so that the call with a list and a projection does not compile instead of using the adapted sorter. | `C76_self_sort_list_projection_refuted` |
| `sorters/default_sorter.h:44-56` | as a consequence, `cppsort::sort(list, projection)` does not compile. | `C82_default_sorter_list_projection_refuted` |
| `adapters/self_sort_adapter.h:147-176` | the lists with another allocator are not special-cased: `is_stable` is false for their `sort`. | `C76_self_sort_other_list_refuted` |
| `adapters/container_aware_adapter.h:101-333` | no overload takes a pair of iterators, although the documentation says that the adapted sorter is used: a call with a temporary iterator, or with a comparison and a projection, does not compile. | `C78_container_aware_iterators_refuted` |
| `detail/adaptive_quickselect.h:189-201` | with a comparator that is not asymmetric the two indices pass each other, and the loops, which test for their equality, leave the collection. | `C57_quick_merge_sorter_permutes_refuted` |
| `utility/functional.h:94-152` | `utility::identity{}` composed with `std::identity{}` is ambiguous, although the documentation says that the other argument is returned. | `C79_pipe_identities_refuted` |
| `adapters/indirect_adapter.h:217-220`, `adapters/out_of_place_adapter.h:111-114`, `adapters/schwartz_adapter.h:243-246` | `is_stable` asks the adapted sorter about the caller's iterators, but it is given random-access ones: `is_stable<indirect_adapter<hybrid_adapter<heap_sorter, merge_sorter>>(std::list<int>&)>` is true and `heap_sorter` runs; `stable_adapter` around it does not sort stably. `utility/sorted_iterators.h:137-140` does the same. | `C80_is_stable_tells_refuted` |
| same lines | with `hybrid_adapter<pdq_sorter>` and a list, the call compiles, but neither `is_stable` nor a call of `stable_adapter` does. | `C80_is_stable_compiles_refuted` |
| `stable_sort.h:43-59` | the condition that `sort.h:50` has (`not is_sorter_iterator_v`) is missing: `stable_sort(merge_sorter{}, first, last)` selects the overload for a collection, a comparison and a projection, and does not compile; it does if the sorter is a constant lvalue. | `C83_stable_sort_sorter_iterators_refuted` |
| `stable_sort.h:72` | `is_sorter_iterator_v<Compare, Iterator>` has its arguments the other way round: it asks whether the comparison can be called with iterators. With `std::less<>` and random-access iterators it can, and the overload for a collection is used instead, to the same effect; with a generic lambda the question can be an error. | `C83_stable_sort_generic_comparison_refuted` |
| `detail/type_traits.h:362-388` | `index_of` of a type that is not in the list is the length of the list minus 1, not -1 as the comment says: each step of the recursion adds 1 to the -1 of the end. `get<Tag>` of a metrics without this tag gives its last member instead of an error. | `C84_index_of_absent_refuted`, `C84_get_absent_tag_refuted` |
| `metrics_tools.h:261-264` | the constructor from any arguments is not constrained: `metrics<...> copy(mm)` selects it if `mm` is a variable that is not constant, and does not compile. (For the same reason a metrics can be made from values that are no metrics, which the documentation excludes.) | `C84_copy_refuted` |
| `total_less.h:82-85` and the like for `total_greater`, `weak_*`, `partial_*` | these specializations ask `std::is_integral<T>` of a `T` that may be a reference, and hide the primary template, which removes references: the trait is false for `total_less_t` and `int&`, true for `const total_less_t` and `int&`. The documentation says that reference-qualified versions give the same. So does `projection_compare<total_less_t, utility::identity>` for `int`: pdqsort uses the branchful partition for it. | `C85_reference_refuted`, `C85_projection_compare_refuted` |
| `refined.h:36-57` | both overloads are viable for a constant function object whose `refine` method is not constant: the call is ambiguous. | `C86_refined_constant_refuted` |
| `sorter_facade.h:208-212` and the like | `refined<decltype(*first)>` refines for the reference type; the documentation says the value type, which only the condition uses (`refined_t` decays). With `case_insensitive_less` the parameters become `std::string&`: strings cannot be sorted with it and a projection that gives strings by value or as constants. | `C86_facade_value_type_refuted`, `C86_case_insensitive_less_refuted` |
| `sorter_facade.h:555-565` | the comparison is refined for the elements although it is called with what the projection gives: strings cannot be sorted with `case_insensitive_less` and a projection to another type of sequence. | `C86_case_insensitive_less_refuted` |
| `verge_adapter.h:86` | `last - first` in the overload for two iterators: it does not compile for bidirectional ones, which the `static_assert` above accepts and the category declares; a list can be sorted as a collection only. (The same for `verge_sorter`.) | `C87_verge_adapter_refuted` |
| `verge_adapter.h:86` | `std::move(first), std::move(last), last - first` are evaluated in any order: the size is computed from iterators that may have been moved from. | `C87_verge_size_refuted` |
| `detail/scope_exit.h:36-40`, `93-97` | the constructor that moves copies neither the flag nor disarms the guard that is moved from: the function is called twice. Guaranteed elision hides this in C++17; in C++14, `merge_insertion_sort.h:286` depends on the elision that compilers do. | `C88_moved_guard_refuted` |
| `sorter_facade.h:97-131` | a function pointer whose iterators are taken by reference, `void(*)(const It&, const It&)`, matches both the conversion for a collection and a function and the one for two iterators: ambiguous. | `C89_references_to_iterators_refuted` |
| `sorter_facade.h:151-154` | the documentation requires an empty and default-constructible implementation, the code tests `is_empty` only: the conversion exists and is a hard error when it is used. | `C89_default_constructible_refuted` |
| `adapters/hybrid_adapter.h:191-201`, `369` | `get() &&` calls `get()` on an lvalue, and it is called on an lvalue anyway: making a hybrid_adapter from a nested one with a stateful sorter gives a tuple of lvalue references, and does not compile. | `C90_nested_stateful_refuted` |
| `detail/stable_adapter_hybrid_adapter.h:24-30` | the indices run over the sorters as declared, `get` over the flattened ones: stable_adapter of a hybrid_adapter that has a nested one does not compile when it is made from an instance. | `C90_stable_nested_hybrid_refuted` |
| `adapters/hybrid_adapter.h:225-228` | the conversions to function pointers test whether the sorters are empty, not whether they are default-constructible. | `C90_hybrid_converts_refuted` |
| `detail/associate_iterator.h:212-224` | the class has the category random-access and no postfix `++` and `--`: a sorter that uses them does not compile in stable_adapter or schwartz_adapter. No sorter of the library does. | `C91_postfix_refuted` |
| `sorter_traits.h:252-266` | neither `sorter_traits` nor `is_stable` is specialized for `rebind_iterator_category`: the stability of a sorter whose traits are in a specialization, as the fixed-size sorters, does not exist for the new one; a sorter whose `is_stable` is specialized, as self_sort_adapter, is not stable any more. | `C92_rebind_traits_refuted`, `C92_rebind_is_stable_refuted` |
| `detail/immovable_vector.h:77` | the assertion of `operator[]` is `pos <= size`, it accepts the position past the last element, and negative ones. | `C93_subscript_refuted` |
| `fixed/sorting_network_sorter.h:81` | the domain is `make_index_sequence<33>`, though there are networks for up to 64 inputs since 1.15.0: `small_array_adapter<sorting_network_sorter>` takes no array of 33 to 64 elements. | `C94_sorting_network_domain_refuted` |
| `fixed/odd_even_merge_network_sorter.h:122-140` | there is no domain, and the assertion fails for a size that is not a power of two: `hybrid_adapter<small_array_adapter<odd_even_merge_network_sorter>, ...>` does not compile for such an array, where `small_array_adapter` documents a soft error. | `C94_soft_errors_refuted` |
| `comparators/projection_compare.h:141-163`, `flip.h:116-131`, `not_fn.h:115-130` | `make_projection_compare(&S::less, identity{})`, `flip(flip(&S::less))` and `not_fn(not_fn(&S::less))` return the pointer to member, which standard algorithms cannot call, while every other result can be called. | `C95_direct_refuted` |
| `detail/associate_iterator.h:342-353` | `iter_move` uses `std::move(*(it->it))` and not the `iter_move` of the iterator: over associations it would move-construct an association, which is deleted. `schwartz_adapter<stable_adapter<S>>` and `schwartz_adapter<schwartz_adapter<S>>` do not compile with a projection, unless `S` only swaps, as in the only test. | `C96_nested_refuted` |
| `detail/associate_iterator.h:67-81,342-353` | likewise, a dedicated `iter_move` of the iterators of the collection is not used in stable_adapter and schwartz_adapter, while a dedicated `iter_swap` is. | `C96_dedicated_iter_move_refuted` |
| `detail/associate_iterator.h:67` | the move assignment is `noexcept`, but assigns elements: one that throws terminates the program. The sorters of the library assign from `iter_move`, which does not go through it. | `C96_noexcept_refuted` |
| `stable_sort.h:99-189` | the sorter that is passed is not used: `stable_t<Sorter>{}` is, so that its state is lost. | none |
| `utility/iter_move.h:123-133,150-160` | the overloads for `std::reverse_iterator` and `std::move_iterator` are disabled exactly when the adapted iterator has a dedicated `iter_move`: before C++20 it is never used through them. | `C81_iter_move_adapters_refuted` |
| `utility/iter_move.h:41-60` | `std::iter_swap`, found by argument-dependent lookup, passes for a dedicated one: `utility::iter_swap` then ignores a dedicated `iter_move`, its overloads for the adapters are never used, and a call with `std::move_iterator` does not compile. | `C81_iter_swap_refuted` |
| `utility/metrics_tools.h:87-103` | the assignments from `metric<U, Tag>` read the private member of another class: they do not compile for another `U`. | none |
| `utility/functional.h:352-363` | `log` is the natural logarithm; the documentation says base 10. For an empty collection it is minus infinity, and `dynamic_buffer<utility::log>` converts it to `std::size_t`: undefined. | none |
| `utility/branchless_traits.h:97-99` | pointers to data members are considered branchless; the documentation says pointers to member functions. | `C85_member_function_pointer_refuted` |
| `detail/swap_if.h:58-65,76-83` | the floating-point overload copies the first operand over the second when neither is less: (-0.0, +0.0) becomes (-0.0, -0.0) and (1.0, NaN) becomes (1.0, 1.0). | `C71_swap_if_floats_refuted`, `C71_float_networks_sort_refuted` |
| `detail/swap_if.h:115-142` | the overloads for `std::ranges::less` and `greater` call themselves. | |
| `detail/inplace_merge.h:45,116` | `recmerge` is called without its iterator tag. | |
| `detail/fixed_size_list.h` | `operator=` does not copy the node destructor; `merge_unsafe` leaves stale `prev` links (unused afterwards). | |
| `detail/vergesort.h:118` | `int minrun_limit` narrows. | |
| `probes/dis.h:41` | `auto res = 0` is an `int`. | |
| `detail/count_inversions.h:40`, `detail/quicksort.h` | rely on irreflexivity: with another comparator the scan leaves the range. | |
| `sorters/spin_sorter.h` | `is_always_stable` is false although the algorithm is stable (`docs/Sorters.md:390`). | |
