{
"C01": {"status": "proved", "note": "Direct transcription of insertion_sort; result is the unique stable sorting."},
"C02": {"status": "proved", "note": ""},
"C03": {"status": "proved", "note": ""},
"C04": {"status": "proved", "note": "For every arity D >= 1."},
"C05": {"status": "proved", "note": "poplar_sort whole: sift, make_poplar, relocate, sort_poplars; the poplar vector is a list. Any comparator also permutes (C57)."},
"C06": {"status": "proved", "note": "smoothsort whole; the bitset is a list of bits, and the table is shown to hold the numbers used and to be large enough for 2^64 elements. Any comparator also permutes (C57)."},
"C07": {"status": "partial", "note": "Bidirectional and random-access iterators: every oracle of allocation successes and failures. Forward iterators: allocations all succeed or all fail; with a buffer of intermediate size the claim is false (recmerge_forward.h:117-120), see the _refuted theorem."},
"C08": {"status": "proved", "note": "Forward and bidirectional versions; every number of tolerated bad pivots, through median of medians and introselect."},
"C09": {"status": "proved", "note": "All three iterator categories; the CPPSORT_ASSUME and CPPSORT_ASSERT conditions are UB when violated."},
"C10": {"status": "proved", "note": "Both partition functions (branchless and not), every size. The rule that a moved-from object may be move-assigned to itself is a parameter of the model; C10_pdq_sorter_never_self_moves_refuted shows that the code needs it, against docs/Home.md:28."},
"C11": {"status": "proved", "note": "Whether or not the assertions about the comparison function are compiled in; minrun, galloping and the buffer growth modelled."},
"C12": {"status": "proved", "note": "Same model as C11 with the other collapse policy."},
"C13": {"status": "partial", "note": "Every collection except those of at least 128 elements with an element alone between two runs of at least n / log2 n elements that it does not extend. On those the full statement is false (C13_verge_sorter_sorts_refuted): merge_runs rotates a run of one element from the beginning of the whole collection (vergesort.h:70). Both iterator categories, stable and not, every adapted sorter that sorts."},
"C14": {"status": "proved", "note": "Both the sorter and the adapter over any sorting sorter; trivially copyable elements or not. pdq_sorter is the lenient variant of C10 (self-move-assignment is harmless)."},
"C15": {"status": "proved", "note": "Both the sorter (random-access iterators) and the adapter over any sorting sorter (bidirectional or random-access); every allocation outcome. pdq_sorter as in C14."},
"C16": {"status": "proved", "note": "melsort whole: encroaching lists in the node pool of detail/fixed_size_list.h (links in both directions), both ways of merging (with the heads and tails extracted first when there are more than sqrt(n) lists), destructors. Without a strict weak order the code is not safe: C16_mel_sorter_any_comparator_refuted."},
"C17": {"status": "proved", "note": "slab_sorter sorts, for every iterator category, trivially copyable elements or not, and every pattern of failing allocations. Modelled: slabsort.h with its recursion on original_p and current_p, the shared node pool, try_melsort with the retyped pool, the median through the immovable vector of iterators, stable_partition.h. The fuel 8 (log2 size + 1) of the recursion is shown to suffice."},
"C18": {"status": "proved", "note": "cartesian_tree_sorter: the tree in a link table (construction, insertion along the right spine) and the priority queue of detail/heapsort.h; a pointer of the queue carries the value of its node, justified by C18_pop_heap_ignores_the_front"},
"C19": {"status": "proved", "note": "splay_sorter: the tree with parent links and sentinel in a link table, rotations, splay, insertion, traversal that cuts links"},
"C20": {"status": "proved", "note": "Sorting is proved in full. Two refutations: it needs more comparisons than Ford-Johnson (9 elements: 20 instead of 19), because merge_insertion_sort.h:333 starts with jn = 0 and the batches are not those its comment describes."},
"C21": {"status": "partial", "note": "The full claim is false (C21_spin_sorter_sorts_stably_refuted): merge_half reads one element past the end of the second half when the halves are swapped and the size is odd, in 145..287 or 577..1023. C21_spin_sorter_swapped_halves_undefined shows that every such collection has undefined behavior, and C21_spin_sorter_sorts_stably_partial that all of the other collections, of every length, are sorted stably, so the two theorems together cover every input."},
"C22": {"status": "partial", "note": "grail_sort is modelled function by function (Model/Grail.v). Proved: it sorts stably every collection that has fewer than 2^31 elements or at least four distinct keys, for every buffer size below 2^31 other than 1. Missing, because false: a buffer of one element (C22_grail_sorter_buffer_of_one_refuted, grail_sort.h:474-492), and more than 2^31 elements with fewer than four distinct keys (C22_grail_sorter_large_refuted, grail_sort.h:665). Also left out: buffers of 2^31 elements or more, whose size grail_sort.h:675 narrows to int."},
"C23": {"status": "partial", "note": "wiki_sort is modelled function by function (Model/Wiki.v). Proved for every size below 2^(w/2+3), w the width of the difference type (2^35 for 64 bits, 2^19 for 32): it sorts stably every collection of trivial elements with every buffer size, and of other elements when the buffer holds at most 4 elements or the collection has fewer than 15. Missing, because false: other element types with larger buffers, whose elements are destroyed twice (C23_wiki_sorter_sorts_stably_refuted, wiki_sort.h:495), and larger sizes, from 2^(w/2+3)+4, where hyperfloor is not a power of two (C23_wiki_sorter_large_refuted, wiki_sort.h:275)."},
"C24": {"status": "partial", "note": "Every range of 8- and 16-bit types; for wider types the values for which the code does not overflow.  The claim for every value is refuted: min++ overflows when the range contains the greatest value of a signed type."},
"C25": {"status": "partial", "note": "ska_sorter: proved for bool, for the signed and unsigned integer types of 8 to 128 bits and for the unsigned character types, every projection, every length (both byte passes, the fallback to pdqsort, the recursion); refuted for signed char and wchar_t. integer_spread_sorter (spread_sorter on integral keys): proved for the unsigned types of 8 to 64 bits (bool is a subset of these), for the signed types narrower than int, and for int and long when the difference of any two keys can be represented (the min/max scan, the divisor, the bins and the vector of iterators shared by the recursion, the three-way exchanges, the fallback to pdqsort); refuted without that condition: the behaviour is undefined for every unsorted range of 1000 elements or more in which two keys differ by too much."},
"C26": {"status": "partial", "note": "All sizes 0..32 (the declared domain of the sorter) by a verified BDD-based checker of the 0-1 principle; above 32, sizes 33-35, 45-51, 53-63. Missing: 36-44, 52, 64 (no check cheap enough for the build budget). In bounds and permutation: all sizes up to 64."},
"C27": {"status": "proved", "note": "Every power of two."},
"C28": {"status": "proved", "note": "Every N."},
"C29": {"status": "proved", "note": "Bodies of sort2..sort13 and of the front inserters copied by script; proved by a verified abstract interpretation of the straight-line code."},
"C30": {"status": "proved", "note": "Every N."},
"C31": {"status": "proved", "note": "Every strict weak order, projection, collection and surrounding memory; the memory is unchanged."},
"C32": {"status": "proved", "note": "Every strict weak order, projection, collection and surrounding memory; the memory is unchanged."},
"C33": {"status": "proved", "note": "Every strict weak order, projection, collection and surrounding memory; the memory is unchanged."},
"C34": {"status": "proved", "note": "Every strict weak order, projection, collection and surrounding memory; the memory is unchanged."},
"C35": {"status": "proved", "note": "Every strict weak order, projection, collection and surrounding memory; the memory is unchanged."},
"C36": {"status": "proved", "note": "Every iterator category path and both outcomes of the allocation of the scratch memory."},
"C37": {"status": "proved", "note": "For pairwise non-equivalent elements; the sort of the iterators is a parameter that sorts."},
"C38": {"status": "proved", "note": "The sort of the iterators is a parameter that sorts."},
"C39": {"status": "proved", "note": "With ties, the distance to the nearest equivalent element of the sorted collection; the sort of the iterators is a parameter that sorts."},
"C40": {"status": "partial", "note": "The value is proved for every collection and both outcomes of the allocation, with the bound n(n-2)/2; the claim about osc::max_for_size is false for one element and for even sizes from 4 (C40_osc_max_for_size_refuted) and is proved for odd sizes above 1."},
"C41": {"status": "proved", "note": "Every strict weak order, projection, collection and surrounding memory; the memory is unchanged."},
"C42": {"status": "proved", "note": "For pairwise non-equivalent elements; the sort of the iterators is a parameter that sorts."},
"C43": {"status": "proved", "note": "indirect_adapter for random-access iterators (sort_indirectly) and for forward and bidirectional ones (indiesort)."},
"C44": {"status": "proved", "note": "The adapted sorter runs on a memory of pairs; C44_associations_behave_as_pairs is the refinement that justifies it."},
"C45": {"status": "proved", "note": ""},
"C46": {"status": "proved", "note": ""},
"C47": {"status": "proved", "note": "A sorter is any tree of calls to the comparison and the projection; counters are unbounded."},
"C48": {"status": "proved", "note": "Overload resolution among choice<N> overloads is modelled as the unique candidate with the most derived parameter type."},
"C49": {"status": "proved", "note": "Also: the collection of indices ends up as the identity."},
"C50": {"status": "proved", "note": ""},
"C51": {"status": "proved", "note": ""},
"C52": {"status": "proved", "note": "Payloads of NaNs are ignored by the code (quiet and signalling NaNs of one sign are equivalent), as the model shows."},
"C53": {"status": "proved", "note": "Also partial_less: strict partial order, and a refutation of its being a strict weak order."},
"C54": {"status": "partial", "note": "Holds for strings whose digits are all at the end. In general false: the loop of natural_less.h:62 reads past the end of the second string and compares the rest of the strings character by character; two _refuted theorems."},
"C55": {"status": "proved", "note": "For every tolower function."},
"C56": {"status": "proved", "note": "For every nesting of flip_t, not_fn_t and projection_compare."},
"C57": {"status": "proved", "note": "Insertion, selection, heap, d-ary heap, merge, bubble, quick, poplar, smooth, drop_merge, split, tim, adaptive_shivers, verge (random access), cartesian_tree, splay, merge_insertion, the three network sorters, low_comparisons and low_moves sorters; quick_merge (with random-access iterators for asymmetric comparators only). The other sorters are not part of the claim; for mel, pdq, slab, wiki and quick_merge with random-access iterators it would be false (_refuted theorems)."},
"C58": {"status": "proved", "note": ""},
"C59": {"status": "proved", "note": "block only for pairwise non-equivalent elements, as the claim says."},
"C60": {"status": "proved", "note": "rotate with its four implementations, inplace_merge, lower_bound, upper_bound."},
"C61": {"status": "proved", "note": "Random access: full contract. Forward and bidirectional: the split; the full contract is refuted (introselect.h:307)."},
"C62": {"status": "proved", "note": "Equality with filter pred ++ filter (not pred), for every predicate, category, and pattern of failing allocations."},
"C63": {"status": "proved", "note": ""},
"C64": {"status": "proved", "note": ""},
"C65": {"status": "partial", "note": "Sorting is proved for every list, with equivalent elements reversed; the claimed stability is refuted."},
"C66": {"status": "proved", "note": ""},
"C67": {"status": "proved", "note": "For every range of floats or doubles without NaNs. std::sort below 128 elements and the like are the models of C25."},
"C68": {"status": "partial", "note": "Proved below a thousand elements, and above when every positive number has a smaller magnitude than every negative one and (for all-negative ranges) the representations are spread enough or, for float, there is no -0.0. The three ways in which the full statement fails are proved: C68_float_spread_sorter_overflow_undefined, C68_float_spread_sorter_negative_zero_undefined, C68_float_spread_sorter_truncation_reverses."},
"C69": {"status": "proved", "note": "both orders, characters of one and two bytes, for all ranges and strings"},
"C70": {"status": "partial", "note": "all nested types, for sequences whose elements have one sub-key that is not bool, and numbers other than -0.0; the three other cases are refuted or undefined"},
"C71": {"status": "partial", "note": "Integers: proved for every width. Floats: C71_swap_if_floats_iff_partial is the exact condition, C71_float_networks_sort_partial the consequence for the networks; the full claim is false for the two zeros and for NaNs (C71_swap_if_floats_refuted, C71_float_networks_sort_refuted)."},
"C72": {"status": "partial", "note": "Proved for every size for inv, rem, sus, runs, mono, dis, exc, max, enc and block, and for ham except at size 1, where max_for_size is 1 and the value 0 (C72_ham_max_for_size_refuted). For osc the greatest value is proved to be n(n-2)/2 rounded down for every size, and max_for_size is it exactly for 0, 2 and the odd sizes from 3 (C72_osc_max_for_size_exact)."},
"C73": {"status": "partial", "note": "All the functions are proved for every value: hyperfloor and hyperceil on unsigned types whose width is a power of two, log2 (both versions), ceil_log2, half and has_single_bit on types of any width, rotl for every count from 1 to the width less 1. Missing, because false: hyperfloor on signed types, on which wiki_sort calls it (C73_hyperfloor_signed_refuted); what it computes there is characterised exactly (C73_hyperfloor_signed_exact)."},
"C74": {"status": "partial", "note": "Every valid call, every implementation, every interpretation of the functions. Refuted, hence partial: std::ranges::less with utility::identity (C74_ranges_less_identity_refuted), implementations that accept an iterable but not the iterators (C74_iterable_only_refuted, C74_prefers_iterable_refuted); the ambiguous calls are characterised exactly. refined, function pointers and the value categories are not modelled."},
"C75": {"status": "partial", "note": "Every type, bounds and step, with the exact condition under which the program is well-formed. Refuted, hence partial: equal bounds with a step greater than 1 (C75_make_integer_range_empty_refuted, C75_make_index_range_empty_refuted); negative steps (C75_make_integer_range_negative_step_refuted)."},
"C76": {"status": "partial", "note": "Every class with methods, every adapted sorter, every valid call. Refuted, hence partial: a standard list with a projection alone does not compile (C76_self_sort_list_projection_refuted); is_stable is false for the sort of a list with another allocator (C76_self_sort_other_list_refuted)."},
"C77": {"status": "proved", "note": "Every program on the elements, whatever it reads and moves. CountType is unbounded; a sorter that chooses its algorithm by the type of the elements may make other moves on the wrappers, which the model leaves out."},
"C78": {"status": "partial", "note": "Proved for every call with a collection. Refuted for pairs of iterators, which the documentation says are served."},
"C79": {"status": "partial", "note": "Proved for every pair of operands. Refuted for utility::identity with std::identity, which is ambiguous."},
"C80": {"status": "partial", "note": "Proved for random-access iterators, and for any iterators if no hybrid_adapter is below an adapter that changes their category; refuted otherwise. self_sort_adapter (C76), container_aware_adapter (C78), verge_adapter, small_array_adapter and the specializations of stable_adapter for single sorters are left out."},
"C81": {"status": "partial", "note": "Before C++20. Proved for iterators that are not adapters (iter_swap: unless namespace std is associated and there is a dedicated iter_move but no iter_swap) and for adapters over iterators without dedicated functions; refuted in every other case."},
"C82": {"status": "partial", "note": "Refuted for a list with a projection alone (does not compile); for another comparison than a strict weak ordering, pdq_sorter is excluded; stable version on forward iterators: all allocations succeed or all fail."},
"C83": {"status": "partial", "note": "sort is proved for every call; stable_sort except two iterators with a sorter that is not a constant lvalue, and two iterators with a generic comparison (both refuted: they do not compile)."},
"C84": {"status": "partial", "note": "Partial: index_of of an absent type is the last index, so that get of an absent tag gives the last metric; direct initialization from a variable selects the wrong constructor. Proved in the cases where it holds, the rest refuted."},
"C85": {"status": "partial", "note": "Partial: for the six order comparators (alone or in an adapter) the trait is false for references; refuted there, proved for all other comparisons and for types without reference."},
"C86": {"status": "partial", "note": "Partial: refined is ambiguous for constant functions with a non-const refine method; the facade refines for the reference type and for the elements, not for what the projection gives, so that some projections do not compile. Refuted there, proved elsewhere."},
"C87": {"status": "partial", "note": "Partial: verge_adapter does not compile with two bidirectional iterators although it declares them, and reads iterators that it may have moved from. Refuted there, proved for all other entry points."},
"C88": {"status": "partial", "note": "Partial: a scope guard that is moved calls its function twice (refuted; no move happens in C++17). The statements about the adapters are proved in full."},
"C89": {"status": "partial", "note": "The pointers that are documented and what they call are proved for all lists of parameters; pointers to functions that take two references of one type are ambiguous, and conversions of implementations that are not default-constructible exist (refuted)."},
"C90": {"status": "partial", "note": "Stacks of adapters of any depth and hybrid_adapters of sorters that are not hybrid_adapters are proved, nested ones if their sorters are stateless; the other cases do not compile (refuted)."},
"C91": {"status": "partial", "note": "All programs on fake_category_iterator, and those without postfix operators on associate_iterator; it has none (refuted)."},
"C92": {"status": "partial", "note": "Categories and dispatch are proved for all sorters; the stability is kept if it is in the class, and lost if it is in a specialization of sorter_traits or is_stable (refuted)."},
"C93": {"status": "proved", "note": "All sequences of operations that fit the capacity, with constructors that throw anywhere."},
"C94": {"status": "partial", "note": "Proved for every index sequence and size: which calls are made, that they sort, is_stable, and schwartz_adapter around it. Refuted: small_array_adapter<sorting_network_sorter> takes no array of 33-64 elements; odd_even_merge_network_sorter gives a hard error for other sizes. Sorting for networks above 32 inputs is as in C26."},
"C95": {"status": "partial", "note": "Proved: what each adapter exposes and computes, transparency, and that every result that is not a pointer to member can be called directly. Refuted: flip of a flip, not_fn of a not_fn and make_projection_compare with an identity give back a pointer to member, which cannot be called directly."},
"C96": {"status": "partial", "note": "Refuted: two nested adapters do not compile with a sorter that uses iter_move, a dedicated iter_move is not used, the noexcept move assignment terminates. The theorems give the exact conditions."}
}
