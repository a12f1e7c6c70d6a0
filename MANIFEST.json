{
 "claims": [
  {
   "property": "C01",
   "status": "proved",
   "theorems": [
    "C01_insertion_sorter_sorts_stably"
   ],
   "note": "Direct transcription of insertion_sort; result is the unique stable sorting."
  },
  {
   "property": "C02",
   "status": "proved",
   "theorems": [
    "C02_selection_sorter_sorts"
   ],
   "note": ""
  },
  {
   "property": "C03",
   "status": "proved",
   "theorems": [
    "C03_heap_sorter_sorts"
   ],
   "note": ""
  },
  {
   "property": "C04",
   "status": "proved",
   "theorems": [
    "C04_d_ary_heap_sorter_sorts"
   ],
   "note": "For every arity D >= 1."
  },
  {
   "property": "C05",
   "status": "proved",
   "theorems": [
    "C05_poplar_sorter_sorts"
   ],
   "note": "poplar_sort whole: sift, make_poplar, relocate, sort_poplars; the poplar vector is a list. Any comparator also permutes (C57)."
  },
  {
   "property": "C06",
   "status": "proved",
   "theorems": [
    "C06_smooth_sorter_sorts",
    "C06_leonardo_table_suffices"
   ],
   "note": "smoothsort whole; the bitset is a list of bits, and the table is shown to hold the numbers used and to be large enough for 2^64 elements. Any comparator also permutes (C57)."
  },
  {
   "property": "C07",
   "status": "partial",
   "theorems": [
    "C07_merge_sorter_sorts_stably",
    "C07_merge_sorter_forward_sorts_stably_partial",
    "C07_merge_sorter_forward_every_memory_refuted"
   ],
   "note": "Bidirectional and random-access iterators: every oracle of allocation successes and failures. Forward iterators: allocations all succeed or all fail; with a buffer of intermediate size the claim is false (recmerge_forward.h:117-120), see the _refuted theorem."
  },
  {
   "property": "C08",
   "status": "proved",
   "theorems": [
    "C08_quick_sorter_sorts",
    "C08_quicksort_sorts_with_every_fallback"
   ],
   "note": "Forward and bidirectional versions; every number of tolerated bad pivots, through median of medians and introselect."
  },
  {
   "property": "C09",
   "status": "proved",
   "theorems": [
    "C09_quick_merge_sorter_sorts"
   ],
   "note": "All three iterator categories; the CPPSORT_ASSUME and CPPSORT_ASSERT conditions are UB when violated."
  },
  {
   "property": "C10",
   "status": "proved",
   "theorems": [
    "C10_pdq_sorter_sorts",
    "C10_pdq_sorter_never_self_moves_refuted",
    "C10_pdq_sorter_serves_the_probes"
   ],
   "note": "Both partition functions (branchless and not), every size. The rule that a moved-from object may be move-assigned to itself is a parameter of the model; C10_pdq_sorter_never_self_moves_refuted shows that the code needs it, against docs/Home.md:28."
  },
  {
   "property": "C11",
   "status": "proved",
   "theorems": [
    "C11_tim_sorter_sorts_stably"
   ],
   "note": "Whether or not the assertions about the comparison function are compiled in; minrun, galloping and the buffer growth modelled."
  },
  {
   "property": "C12",
   "status": "proved",
   "theorems": [
    "C12_adaptive_shivers_sorter_sorts_stably"
   ],
   "note": "Same model as C11 with the other collapse policy."
  },
  {
   "property": "C13",
   "status": "partial",
   "theorems": [
    "C13_verge_adapter_sorts_partial",
    "C13_stable_verge_adapter_sorts_stably_partial",
    "C13_verge_sorter_sorts_partial",
    "C13_stable_verge_sorter_sorts_stably_partial",
    "C13_verge_sorter_sorts_refuted"
   ],
   "note": "Every collection except those of at least 128 elements with an element alone between two runs of at least n / log2 n elements that it does not extend. On those the full statement is false (C13_verge_sorter_sorts_refuted): merge_runs rotates a run of one element from the beginning of the whole collection (vergesort.h:70). Both iterator categories, stable and not, every adapted sorter that sorts."
  },
  {
   "property": "C14",
   "status": "proved",
   "theorems": [
    "C14_drop_merge_adapter_sorts",
    "C14_drop_merge_sorter_sorts"
   ],
   "note": "Both the sorter and the adapter over any sorting sorter; trivially copyable elements or not. pdq_sorter is the lenient variant of C10 (self-move-assignment is harmless)."
  },
  {
   "property": "C15",
   "status": "proved",
   "theorems": [
    "C15_split_adapter_sorts",
    "C15_split_sorter_sorts"
   ],
   "note": "Both the sorter (random-access iterators) and the adapter over any sorting sorter (bidirectional or random-access); every allocation outcome. pdq_sorter as in C14."
  },
  {
   "property": "C16",
   "status": "proved",
   "theorems": [
    "C16_mel_sorter_sorts",
    "C16_mel_sorter_any_comparator_refuted"
   ],
   "note": "melsort whole: encroaching lists in the node pool of detail/fixed_size_list.h (links in both directions), both ways of merging (with the heads and tails extracted first when there are more than sqrt(n) lists), destructors. Without a strict weak order the code is not safe: C16_mel_sorter_any_comparator_refuted."
  },
  {
   "property": "C17",
   "status": "proved",
   "theorems": [
    "C17_slab_sorter_sorts"
   ],
   "note": "slab_sorter sorts, for every iterator category, trivially copyable elements or not, and every pattern of failing allocations. Modelled: slabsort.h with its recursion on original_p and current_p, the shared node pool, try_melsort with the retyped pool, the median through the immovable vector of iterators, stable_partition.h. The fuel 8 (log2 size + 1) of the recursion is shown to suffice."
  },
  {
   "property": "C18",
   "status": "proved",
   "theorems": [
    "C18_cartesian_tree_sorter_sorts",
    "C18_pop_heap_ignores_the_front"
   ],
   "note": "cartesian_tree_sorter: the tree in a link table (construction, insertion along the right spine) and the priority queue of detail/heapsort.h; a pointer of the queue carries the value of its node, justified by C18_pop_heap_ignores_the_front"
  },
  {
   "property": "C19",
   "status": "proved",
   "theorems": [
    "C19_splay_sorter_sorts_stably"
   ],
   "note": "splay_sorter: the tree with parent links and sentinel in a link table, rotations, splay, insertion, traversal that cuts links"
  },
  {
   "property": "C20",
   "status": "proved",
   "theorems": [
    "C20_merge_insertion_sorter_sorts",
    "C20_merge_insertion_comparisons_refuted",
    "C20_insertion_batches_refuted",
    "C20_insertion_batches"
   ],
   "note": "Sorting is proved in full. Two refutations: it needs more comparisons than Ford-Johnson (9 elements: 20 instead of 19), because merge_insertion_sort.h:333 starts with jn = 0 and the batches are not those its comment describes."
  },
  {
   "property": "C21",
   "status": "partial",
   "theorems": [
    "C21_spin_sorter_sorts_stably_partial",
    "C21_spin_sorter_swapped_halves_undefined",
    "C21_spin_sorter_sorts_stably_refuted"
   ],
   "note": "The full claim is false (C21_spin_sorter_sorts_stably_refuted): merge_half reads one element past the end of the second half when the halves are swapped and the size is odd, in 145..287 or 577..1023. C21_spin_sorter_swapped_halves_undefined shows that every such collection has undefined behavior, and C21_spin_sorter_sorts_stably_partial that all of the other collections, of every length, are sorted stably, so the two theorems together cover every input."
  },
  {
   "property": "C22",
   "status": "partial",
   "theorems": [
    "C22_grail_sorter_sorts_stably_partial",
    "C22_grail_sorter_buffer_of_one_refuted",
    "C22_grail_sorter_large_refuted"
   ],
   "note": "grail_sort is modelled function by function (Model/Grail.v). Proved: it sorts stably every collection that has fewer than 2^31 elements or at least four distinct keys, for every buffer size below 2^31 other than 1. Missing, because false: a buffer of one element (C22_grail_sorter_buffer_of_one_refuted, grail_sort.h:474-492), and more than 2^31 elements with fewer than four distinct keys (C22_grail_sorter_large_refuted, grail_sort.h:665). Also left out: buffers of 2^31 elements or more, whose size grail_sort.h:675 narrows to int."
  },
  {
   "property": "C23",
   "status": "partial",
   "theorems": [
    "C23_wiki_sorter_sorts_stably_partial",
    "C23_wiki_sorter_sorts_stably_refuted",
    "C23_wiki_sorter_large_refuted"
   ],
   "note": "wiki_sort is modelled function by function (Model/Wiki.v). Proved for every size below 2^(w/2+3), w the width of the difference type (2^35 for 64 bits, 2^19 for 32): it sorts stably every collection of trivial elements with every buffer size, and of other elements when the buffer holds at most 4 elements or the collection has fewer than 15. Missing, because false: other element types with larger buffers, whose elements are destroyed twice (C23_wiki_sorter_sorts_stably_refuted, wiki_sort.h:495), and larger sizes, from 2^(w/2+3)+4, where hyperfloor is not a power of two (C23_wiki_sorter_large_refuted, wiki_sort.h:275)."
  },
  {
   "property": "C24",
   "status": "partial",
   "theorems": [
    "C24_counting_sorter_sorts_partial",
    "C24_counting_sorter_every_value_refuted"
   ],
   "note": "Every range of 8- and 16-bit types; for wider types the values for which the code does not overflow.  The claim for every value is refuted: min++ overflows when the range contains the greatest value of a signed type."
  },
  {
   "property": "C25",
   "status": "partial",
   "theorems": [
    "C25_ska_sorter_sorts_partial",
    "C25_ska_sorter_signed_character_refuted",
    "C25_integer_spread_sorter_sorts_partial",
    "C25_integer_spread_sorter_overflow_undefined",
    "C25_integer_spread_sorter_every_value_refuted"
   ],
   "note": "ska_sorter: proved for bool, for the signed and unsigned integer types of 8 to 128 bits and for the unsigned character types, every projection, every length (both byte passes, the fallback to pdqsort, the recursion); refuted for signed char and wchar_t. integer_spread_sorter (spread_sorter on integral keys): proved for the unsigned types of 8 to 64 bits (bool is a subset of these), for the signed types narrower than int, and for int and long when the difference of any two keys can be represented (the min/max scan, the divisor, the bins and the vector of iterators shared by the recursion, the three-way exchanges, the fallback to pdqsort); refuted without that condition: the behaviour is undefined for every unsorted range of 1000 elements or more in which two keys differ by too much."
  },
  {
   "property": "C26",
   "status": "partial",
   "theorems": [
    "C26_sorting_network_sorter_sorts",
    "C26_index_pairs_sort",
    "C26_sorting_network_sorter_large_partial",
    "C26_index_pairs_in_bounds"
   ],
   "note": "All sizes 0..32 (the declared domain of the sorter) by a verified BDD-based checker of the 0-1 principle; above 32, sizes 33-35, 45-51, 53-63. Missing: 36-44, 52, 64 (no check cheap enough for the build budget). In bounds and permutation: all sizes up to 64."
  },
  {
   "property": "C27",
   "status": "proved",
   "theorems": [
    "C27_odd_even_merge_network_sorter_sorts",
    "C27_index_pairs_in_bounds"
   ],
   "note": "Every power of two."
  },
  {
   "property": "C28",
   "status": "proved",
   "theorems": [
    "C28_merge_exchange_network_sorter_sorts",
    "C28_index_pairs_in_bounds"
   ],
   "note": "Every N."
  },
  {
   "property": "C29",
   "status": "proved",
   "theorems": [
    "C29_low_comparisons_sorter_sorts"
   ],
   "note": "Bodies of sort2..sort13 and of the front inserters copied by script; proved by a verified abstract interpretation of the straight-line code."
  },
  {
   "property": "C30",
   "status": "proved",
   "theorems": [
    "C30_low_moves_sorter_sorts"
   ],
   "note": "Every N."
  },
  {
   "property": "C31",
   "status": "proved",
   "theorems": [
    "C31_inv_counts_inversions"
   ],
   "note": "Every strict weak order, projection, collection and surrounding memory; the memory is unchanged."
  },
  {
   "property": "C32",
   "status": "proved",
   "theorems": [
    "C32_rem_is_distance_to_sorted_subsequence"
   ],
   "note": "Every strict weak order, projection, collection and surrounding memory; the memory is unchanged."
  },
  {
   "property": "C33",
   "status": "proved",
   "theorems": [
    "C33_sus_is_min_splits"
   ],
   "note": "Every strict weak order, projection, collection and surrounding memory; the memory is unchanged."
  },
  {
   "property": "C34",
   "status": "proved",
   "theorems": [
    "C34_runs_counts_step_downs"
   ],
   "note": "Every strict weak order, projection, collection and surrounding memory; the memory is unchanged."
  },
  {
   "property": "C35",
   "status": "proved",
   "theorems": [
    "C35_mono_counts_greedy_runs"
   ],
   "note": "Every strict weak order, projection, collection and surrounding memory; the memory is unchanged."
  },
  {
   "property": "C36",
   "status": "proved",
   "theorems": [
    "C36_dis_is_max_inversion_distance"
   ],
   "note": "Every iterator category path and both outcomes of the allocation of the scratch memory."
  },
  {
   "property": "C37",
   "status": "proved",
   "theorems": [
    "C37_exc_is_min_exchanges"
   ],
   "note": "For pairwise non-equivalent elements; the sort of the iterators is a parameter that sorts."
  },
  {
   "property": "C38",
   "status": "proved",
   "theorems": [
    "C38_ham_counts_displaced"
   ],
   "note": "The sort of the iterators is a parameter that sorts."
  },
  {
   "property": "C39",
   "status": "proved",
   "theorems": [
    "C39_max_is_max_displacement"
   ],
   "note": "With ties, the distance to the nearest equivalent element of the sorted collection; the sort of the iterators is a parameter that sorts."
  },
  {
   "property": "C40",
   "status": "partial",
   "theorems": [
    "C40_osc_is_oscillation",
    "C40_osc_max_for_size_odd_partial",
    "C40_osc_max_for_size_refuted"
   ],
   "note": "The value is proved for every collection and both outcomes of the allocation, with the bound n(n-2)/2; the claim about osc::max_for_size is false for one element and for even sizes from 4 (C40_osc_max_for_size_refuted) and is proved for odd sizes above 1."
  },
  {
   "property": "C41",
   "status": "proved",
   "theorems": [
    "C41_enc_counts_encroaching_lists"
   ],
   "note": "Every strict weak order, projection, collection and surrounding memory; the memory is unchanged."
  },
  {
   "property": "C42",
   "status": "proved",
   "theorems": [
    "C42_block_counts_broken_adjacencies"
   ],
   "note": "For pairwise non-equivalent elements; the sort of the iterators is a parameter that sorts."
  },
  {
   "property": "C43",
   "status": "proved",
   "theorems": [
    "C43_indirect_adapter_sorts",
    "C43_indirect_adapter_sorts_stably",
    "C43_indiesort_sorts",
    "C43_indiesort_sorts_stably",
    "C43_indirect_adapter_permutes",
    "C43_indiesort_permutes"
   ],
   "note": "indirect_adapter for random-access iterators (sort_indirectly) and for forward and bidirectional ones (indiesort)."
  },
  {
   "property": "C44",
   "status": "proved",
   "theorems": [
    "C44_schwartz_adapter_sorts",
    "C44_schwartz_adapter_sorts_stably",
    "C44_associations_behave_as_pairs"
   ],
   "note": "The adapted sorter runs on a memory of pairs; C44_associations_behave_as_pairs is the refinement that justifies it."
  },
  {
   "property": "C45",
   "status": "proved",
   "theorems": [
    "C45_make_stable_sorts_stably",
    "C45_stable_adapter_sorts_stably",
    "C45_stable_compare_total"
   ],
   "note": ""
  },
  {
   "property": "C46",
   "status": "proved",
   "theorems": [
    "C46_out_of_place_adapter_sorts",
    "C46_out_of_place_adapter_sorts_stably",
    "C46_out_of_place_adapter_permutes"
   ],
   "note": ""
  },
  {
   "property": "C47",
   "status": "proved",
   "theorems": [
    "C47_counting_adapter_counts",
    "C47_metrics_projections_counts",
    "C47_execution_is_unique"
   ],
   "note": "A sorter is any tree of calls to the comparison and the projection; counters are unbounded."
  },
  {
   "property": "C48",
   "status": "proved",
   "theorems": [
    "C48_hybrid_dispatch_selects",
    "C48_hybrid_dispatch_total",
    "C48_hybrid_adapter_sorts",
    "C48_hybrid_adapter_flattens"
   ],
   "note": "Overload resolution among choice<N> overloads is modelled as the unique candidate with the most derived parameter type."
  },
  {
   "property": "C49",
   "status": "proved",
   "theorems": [
    "C49_apply_permutation_permutes"
   ],
   "note": "Also: the collection of indices ends up as the identity."
  },
  {
   "property": "C50",
   "status": "proved",
   "theorems": [
    "C50_sorted_indices_sorts",
    "C50_sorted_indices_sorts_stably",
    "C50_sorted_indices_then_apply_permutation"
   ],
   "note": ""
  },
  {
   "property": "C51",
   "status": "proved",
   "theorems": [
    "C51_sorted_iterators_sorts",
    "C51_sorted_iterators_sorts_stably"
   ],
   "note": ""
  },
  {
   "property": "C52",
   "status": "proved",
   "theorems": [
    "C52_total_less_strict_weak_order",
    "C52_total_greater_converse",
    "C52_total_less_meaning",
    "C52_builtin_less_meaning"
   ],
   "note": "Payloads of NaNs are ignored by the code (quiet and signalling NaNs of one sign are equivalent), as the model shows."
  },
  {
   "property": "C53",
   "status": "proved",
   "theorems": [
    "C53_weak_less_strict_weak_order",
    "C53_weak_greater_converse",
    "C53_weak_less_meaning",
    "C53_partial_less_strict_partial_order",
    "C53_partial_less_weak_order_refuted"
   ],
   "note": "Also partial_less: strict partial order, and a refutation of its being a strict weak order."
  },
  {
   "property": "C54",
   "status": "partial",
   "theorems": [
    "C54_natural_less_trailing_digits_partial",
    "C54_natural_less_terminates",
    "C54_natural_less_in_bounds_refuted",
    "C54_natural_less_claim_refuted"
   ],
   "note": "Holds for strings whose digits are all at the end. In general false: the loop of natural_less.h:62 reads past the end of the second string and compares the rest of the strings character by character; two _refuted theorems."
  },
  {
   "property": "C55",
   "status": "proved",
   "theorems": [
    "C55_case_insensitive_less_strict_weak_order",
    "C55_case_insensitive_less_equivalence",
    "C55_case_insensitive_less_lexicographic"
   ],
   "note": "For every tolower function."
  },
  {
   "property": "C56",
   "status": "proved",
   "theorems": [
    "C56_flip_meaning",
    "C56_not_fn_meaning",
    "C56_projection_compare_meaning",
    "C56_involutions",
    "C56_unwrap",
    "C56_strict_weak_orders"
   ],
   "note": "For every nesting of flip_t, not_fn_t and projection_compare."
  },
  {
   "property": "C57",
   "status": "proved",
   "theorems": [
    "C57_cartesian_tree_sorter_permutes",
    "C57_drop_merge_adapter_permutes",
    "C57_split_adapter_permutes",
    "C57_low_comparisons_sorter_permutes",
    "C57_low_moves_sorter_permutes",
    "C57_merge_sorter_permutes",
    "C57_bubble_sort_permutes",
    "C57_merge_insertion_sorter_permutes",
    "C57_sorting_network_sorter_permutes",
    "C57_odd_even_merge_network_sorter_permutes",
    "C57_merge_exchange_network_sorter_permutes",
    "C57_poplar_sorter_permutes",
    "C57_quick_sorter_permutes",
    "C57_quick_merge_sorter_permutes",
    "C57_insertion_sorter_permutes",
    "C57_selection_sorter_permutes",
    "C57_heap_sorter_permutes",
    "C57_d_ary_heap_sorter_permutes",
    "C57_smooth_sorter_permutes",
    "C57_splay_sorter_permutes",
    "C57_tim_sorter_permutes",
    "C57_adaptive_shivers_sorter_permutes",
    "C57_pdq_sorter_reflexive_comparator_undefined",
    "C57_pdq_sorter_permutes_refuted",
    "C57_slab_sorter_permutes_refuted",
    "C57_wiki_sorter_permutes_refuted",
    "C57_quick_merge_sorter_permutes_refuted",
    "C57_verge_adapter_permutes"
   ],
   "note": "Insertion, selection, heap, d-ary heap, merge, bubble, quick, poplar, smooth, drop_merge, split, tim, adaptive_shivers, verge (random access), cartesian_tree, splay, merge_insertion, the three network sorters, low_comparisons and low_moves sorters; quick_merge (with random-access iterators for asymmetric comparators only). The other sorters are not part of the claim; for mel, pdq, slab, wiki and quick_merge with random-access iterators it would be false (_refuted theorems)."
  },
  {
   "property": "C58",
   "status": "proved",
   "theorems": [
    "C58_small_array_adapter_dispatches",
    "C58_small_array_adapter_sorts"
   ],
   "note": ""
  },
  {
   "property": "C59",
   "status": "proved",
   "theorems": [
    "C59_probes_zero_on_sorted"
   ],
   "note": "block only for pairwise non-equivalent elements, as the claim says."
  },
  {
   "property": "C60",
   "status": "proved",
   "theorems": [
    "C60_rotate_rotates",
    "C60_inplace_merge_merges",
    "C60_lower_bound_finds",
    "C60_upper_bound_finds"
   ],
   "note": "rotate with its four implementations, inplace_merge, lower_bound, upper_bound."
  },
  {
   "property": "C61",
   "status": "proved",
   "theorems": [
    "C61_nth_element_random_access_selects",
    "C61_nth_element_splits",
    "C61_nth_element_bidirectional_selects_refuted"
   ],
   "note": "Random access: full contract. Forward and bidirectional: the split; the full contract is refuted (introselect.h:307)."
  },
  {
   "property": "C62",
   "status": "proved",
   "theorems": [
    "C62_stable_partition"
   ],
   "note": "Equality with filter pred ++ filter (not pred), for every predicate, category, and pattern of failing allocations."
  },
  {
   "property": "C63",
   "status": "proved",
   "theorems": [
    "C63_container_aware_insertion_sorts_stably"
   ],
   "note": ""
  },
  {
   "property": "C64",
   "status": "proved",
   "theorems": [
    "C64_container_aware_selection_sorts_stably"
   ],
   "note": ""
  },
  {
   "property": "C65",
   "status": "partial",
   "theorems": [
    "C65_container_aware_merge_sorts_partial",
    "C65_container_aware_merge_list_stable_refuted",
    "C65_container_aware_merge_forward_list_stable_refuted"
   ],
   "note": "Sorting is proved for every list, with equivalent elements reversed; the claimed stability is refuted."
  },
  {
   "property": "C66",
   "status": "proved",
   "theorems": [
    "C66_container_aware_mel_sorts"
   ],
   "note": ""
  },
  {
   "property": "C67",
   "status": "proved",
   "theorems": [
    "C67_ska_sorter_floating_point_sorts"
   ],
   "note": "For every range of floats or doubles without NaNs. std::sort below 128 elements and the like are the models of C25."
  },
  {
   "property": "C68",
   "status": "partial",
   "theorems": [
    "C68_float_spread_sorter_sorts_partial",
    "C68_float_spread_sorter_overflow_undefined",
    "C68_float_spread_sorter_negative_zero_undefined",
    "C68_float_spread_sorter_truncation_reverses",
    "C68_float_spread_sorter_double_refuted"
   ],
   "note": "Proved below a thousand elements, and above when every positive number has a smaller magnitude than every negative one and (for all-negative ranges) the representations are spread enough or, for float, there is no -0.0. The three ways in which the full statement fails are proved: C68_float_spread_sorter_overflow_undefined, C68_float_spread_sorter_negative_zero_undefined, C68_float_spread_sorter_truncation_reverses."
  },
  {
   "property": "C69",
   "status": "proved",
   "theorems": [
    "C69_string_spread_sorter_sorts",
    "C69_reverse_string_spread_sorter_sorts"
   ],
   "note": "both orders, characters of one and two bytes, for all ranges and strings"
  },
  {
   "property": "C70",
   "status": "partial",
   "theorems": [
    "C70_ska_sorter_compound_sorts_partial",
    "C70_ska_sorter_strings_sorts",
    "C70_ska_sorter_tuples_sorts",
    "C70_ska_sorter_sequences_of_pairs_refuted",
    "C70_ska_sorter_sequences_of_bool_undefined",
    "C70_ska_sorter_negative_zero_refuted"
   ],
   "note": "all nested types, for sequences whose elements have one sub-key that is not bool, and numbers other than -0.0; the three other cases are refuted or undefined"
  },
  {
   "property": "C71",
   "status": "partial",
   "theorems": [
    "C71_swap_if_integers",
    "C71_swap_if_floats_iff_partial",
    "C71_swap_if_floats_refuted",
    "C71_integer_networks_sort",
    "C71_float_networks_sort_partial",
    "C71_distinct_equivalents_are_zeros",
    "C71_float_networks_sort_refuted"
   ],
   "note": "Integers: proved for every width. Floats: C71_swap_if_floats_iff_partial is the exact condition, C71_float_networks_sort_partial the consequence for the networks; the full claim is false for the two zeros and for NaNs (C71_swap_if_floats_refuted, C71_float_networks_sort_refuted)."
  },
  {
   "property": "C72",
   "status": "partial",
   "theorems": [
    "C72_max_for_size_is_greatest",
    "C72_ham_max_for_size_refuted",
    "C72_osc_greatest",
    "C72_osc_max_for_size_exact"
   ],
   "note": "Proved for every size for inv, rem, sus, runs, mono, dis, exc, max, enc and block, and for ham except at size 1, where max_for_size is 1 and the value 0 (C72_ham_max_for_size_refuted). For osc the greatest value is proved to be n(n-2)/2 rounded down for every size, and max_for_size is it exactly for 0, 2 and the odd sizes from 3 (C72_osc_max_for_size_exact)."
  },
  {
   "property": "C73",
   "status": "partial",
   "theorems": [
    "C73_hyperfloor_unsigned",
    "C73_hyperfloor_signed_exact",
    "C73_hyperfloor_signed_refuted",
    "C73_hyperceil_unsigned",
    "C73_log2",
    "C73_ceil_log2",
    "C73_half",
    "C73_has_single_bit",
    "C73_rotl",
    "C73_sorters_bitops"
   ],
   "note": "All the functions are proved for every value: hyperfloor and hyperceil on unsigned types whose width is a power of two, log2 (both versions), ceil_log2, half and has_single_bit on types of any width, rotl for every count from 1 to the width less 1. Missing, because false: hyperfloor on signed types, on which wiki_sort calls it (C73_hyperfloor_signed_refuted); what it computes there is characterised exactly (C73_hyperfloor_signed_exact)."
  },
  {
   "property": "C74",
   "status": "partial",
   "theorems": [
    "C74_sorter_facade_order",
    "C74_iterators_callable_iff",
    "C74_ranges_less_identity_refuted",
    "C74_iterable_callable_iff",
    "C74_iterable_ambiguous_iff",
    "C74_iterable_only_refuted",
    "C74_prefers_iterable_refuted",
    "C74_single_overload",
    "C74_without_defaults_refuted"
   ],
   "note": "Every valid call, every implementation, every interpretation of the functions. Refuted, hence partial: std::ranges::less with utility::identity (C74_ranges_less_identity_refuted), implementations that accept an iterable but not the iterators (C74_iterable_only_refuted, C74_prefers_iterable_refuted); the ambiguous calls are characterised exactly. refined, function pointers and the value categories are not modelled."
  },
  {
   "property": "C75",
   "status": "partial",
   "theorems": [
    "C75_make_integer_range_exact",
    "C75_make_index_range",
    "C75_make_integer_range_empty_refuted",
    "C75_make_index_range_empty_refuted",
    "C75_make_integer_range_negative_step_refuted"
   ],
   "note": "Every type, bounds and step, with the exact condition under which the program is well-formed. Refuted, hence partial: equal bounds with a step greater than 1 (C75_make_integer_range_empty_refuted, C75_make_index_range_empty_refuted); negative steps (C75_make_integer_range_negative_step_refuted)."
  },
  {
   "property": "C76",
   "status": "partial",
   "theorems": [
    "C76_self_sort_choice",
    "C76_self_sort_lists",
    "C76_self_sort_list_projection_refuted",
    "C76_self_sort_is_stable",
    "C76_self_sort_is_stable_complete",
    "C76_self_sort_other_list_refuted",
    "C76_stable_self_sort"
   ],
   "note": "Every class with methods, every adapted sorter, every valid call. Refuted, hence partial: a standard list with a projection alone does not compile (C76_self_sort_list_projection_refuted); is_stable is false for the sort of a list with another allocator (C76_self_sort_other_list_refuted)."
  },
  {
   "property": "C77",
   "status": "proved",
   "theorems": [
    "C77_moves_transparent_and_exact",
    "C77_moves_undefined"
   ],
   "note": "Every program on the elements, whatever it reads and moves. CountType is unbounded; a sorter that chooses its algorithm by the type of the elements may make other moves on the wrappers, which the model leaves out."
  },
  {
   "property": "C78",
   "status": "partial",
   "theorems": [
    "C78_container_aware_choice",
    "C78_container_aware_order",
    "C78_container_aware_is_stable",
    "C78_container_aware_iterators_refuted"
   ],
   "note": "Proved for every call with a collection. Refuted for pairs of iterators, which the documentation says are served."
  },
  {
   "property": "C79",
   "status": "partial",
   "theorems": [
    "C79_pipe_composes",
    "C79_pipe_associative",
    "C79_pipe_well_formed",
    "C79_pipe_identities_refuted"
   ],
   "note": "Proved for every pair of operands. Refuted for utility::identity with std::identity, which is ambiguous."
  },
  {
   "property": "C80",
   "status": "partial",
   "theorems": [
    "C80_fuel_suffices",
    "C80_is_stable_tells_partial",
    "C80_stable_calls_sort_stably_partial",
    "C80_stable_adapter_sorts_stably_partial",
    "C80_stable_t",
    "C80_nested_stable_adapters",
    "C80_hybrid_category",
    "C80_hybrid_runs",
    "C80_is_stable_tells_refuted",
    "C80_is_stable_compiles_refuted"
   ],
   "note": "Proved for random-access iterators, and for any iterators if no hybrid_adapter is below an adapter that changes their category; refuted otherwise. self_sort_adapter (C76), container_aware_adapter (C78), verge_adapter, small_array_adapter and the specializations of stable_adapter for single sorters are left out."
  },
  {
   "property": "C81",
   "status": "partial",
   "theorems": [
    "C81_designated_element",
    "C81_iter_move_partial",
    "C81_iter_move_adapters_refuted",
    "C81_iter_swap_partial",
    "C81_iter_swap_refuted"
   ],
   "note": "Before C++20. Proved for iterators that are not adapters (iter_swap: unless namespace std is associated and there is a dedicated iter_move but no iter_swap) and for adapters over iterators without dedicated functions; refuted in every other case."
  },
  {
   "property": "C82",
   "status": "partial",
   "theorems": [
    "C82_default_sorter_sorts_partial",
    "C82_default_sorter_list_projection_refuted",
    "C82_default_sorter_selects",
    "C82_default_sorter_permutes_partial",
    "C82_stable_default_sorter_partial"
   ],
   "note": "Refuted for a list with a projection alone (does not compile); for another comparison than a strict weak ordering, pdq_sorter is excluded; stable version on forward iterators: all allocations succeed or all fail."
  },
  {
   "property": "C83",
   "status": "partial",
   "theorems": [
    "C83_sort",
    "C83_stable_sort_partial",
    "C83_stable_sort_sorter_iterators_refuted",
    "C83_stable_sort_generic_comparison_refuted",
    "C83_stable_sort_sound",
    "C83_best_overload"
   ],
   "note": "sort is proved for every call; stable_sort except two iterators with a sorter that is not a constant lvalue, and two iterators with a generic comparison (both refuted: they do not compile)."
  },
  {
   "property": "C84",
   "status": "partial",
   "theorems": [
    "C84_index_of_partial",
    "C84_index_of_absent_refuted",
    "C84_get_partial",
    "C84_get_absent_tag_refuted",
    "C84_copy_partial",
    "C84_copy_refuted",
    "C84_packs"
   ],
   "note": "Partial: index_of of an absent type is the last index, so that get of an absent tag gives the last metric; direct initialization from a variable selects the wrong constructor. Proved in the cases where it holds, the rest refuted."
  },
  {
   "property": "C85",
   "status": "partial",
   "theorems": [
    "C85_projection",
    "C85_comparison_partial",
    "C85_reference_refuted",
    "C85_projection_compare_refuted",
    "C85_member_function_pointer_refuted",
    "C85_algorithms_partial"
   ],
   "note": "Partial: for the six order comparators (alone or in an adapter) the trait is false for references; refuted there, proved for all other comparisons and for types without reference."
  },
  {
   "property": "C86",
   "status": "partial",
   "theorems": [
    "C86_refined_partial",
    "C86_refined_constant_refuted",
    "C86_facade_partial",
    "C86_facade_value_type_refuted",
    "C86_case_insensitive_less_partial",
    "C86_case_insensitive_less_refuted"
   ],
   "note": "Partial: refined is ambiguous for constant functions with a non-const refine method; the facade refines for the reference type and for the elements, not for what the projection gives, so that some projections do not compile. Refuted there, proved elsewhere."
  },
  {
   "property": "C87",
   "status": "partial",
   "theorems": [
    "C87_size",
    "C87_sorters",
    "C87_adapters_partial",
    "C87_verge_adapter_refuted",
    "C87_verge_size_partial",
    "C87_verge_size_refuted"
   ],
   "note": "Partial: verge_adapter does not compile with two bidirectional iterators although it declares them, and reads iterators that it may have moved from. Refuted there, proved for all other entry points."
  },
  {
   "property": "C88",
   "status": "partial",
   "theorems": [
    "C88_guard_partial",
    "C88_moved_guard_refuted",
    "C88_indirect_adapter",
    "C88_out_of_place_adapter"
   ],
   "note": "Partial: a scope guard that is moved calls its function twice (refuted; no move happens in C++17). The statements about the adapters are proved in full."
  },
  {
   "property": "C89",
   "status": "partial",
   "theorems": [
    "C89_conversions_exist",
    "C89_conversions_call",
    "C89_conversions_partial",
    "C89_references_to_iterators_refuted",
    "C89_default_constructible_refuted"
   ],
   "note": "The pointers that are documented and what they call are proved for all lists of parameters; pointers to functions that take two references of one type are ambiguous, and conversions of implementations that are not default-constructible exist (refuted)."
  },
  {
   "property": "C90",
   "status": "partial",
   "theorems": [
    "C90_adapter",
    "C90_stateless",
    "C90_hybrid",
    "C90_nested_hybrid_partial",
    "C90_nested_stateful_refuted",
    "C90_stable_hybrid_partial",
    "C90_stable_nested_hybrid_refuted",
    "C90_hybrid_converts_partial",
    "C90_hybrid_converts_refuted"
   ],
   "note": "Stacks of adapters of any depth and hybrid_adapters of sorters that are not hybrid_adapters are proved, nested ones if their sorters are stateless; the other cases do not compile (refuted)."
  },
  {
   "property": "C91",
   "status": "partial",
   "theorems": [
    "C91_iterator_wrapper_partial",
    "C91_postfix_refuted"
   ],
   "note": "All programs on fake_category_iterator, and those without postfix operators on associate_iterator; it has none (refuted)."
  },
  {
   "property": "C92",
   "status": "partial",
   "theorems": [
    "C92_sorter_traits",
    "C92_rebind_category",
    "C92_rebind_in_hybrid",
    "C92_rebind_stability_partial",
    "C92_rebind_traits_refuted",
    "C92_rebind_is_stable_refuted"
   ],
   "note": "Categories and dispatch are proved for all sorters; the stability is kept if it is in the class, and lost if it is in a specialization of sorter_traits or is_stable (refuted)."
  },
  {
   "property": "C93",
   "status": "proved",
   "theorems": [
    "C93_lifetimes",
    "C93_insertion_throws",
    "C93_subscript_refuted"
   ],
   "note": "All sequences of operations that fit the capacity, with constructors that throw anywhere."
  },
  {
   "property": "C94",
   "status": "partial",
   "theorems": [
    "C94_explicit_indices",
    "C94_default_indices_partial",
    "C94_sorting_network_domain_refuted",
    "C94_soft_errors_refuted",
    "C94_hybrid",
    "C94_sorts",
    "C94_default_sorts",
    "C94_is_stable",
    "C94_stable_sizes",
    "C94_schwartz"
   ],
   "note": "Proved for every index sequence and size: which calls are made, that they sort, is_stable, and schwartz_adapter around it. Refuted: small_array_adapter<sorting_network_sorter> takes no array of 33-64 elements; odd_even_merge_network_sorter gives a hard error for other sizes. Sorting for networks above 32 inputs is as in C26."
  },
  {
   "property": "C95",
   "status": "partial",
   "theorems": [
    "C95_as_projection",
    "C95_as_comparison",
    "C95_flip",
    "C95_not_fn",
    "C95_projection_compare",
    "C95_transparent",
    "C95_direct_partial",
    "C95_direct_cases",
    "C95_direct_refuted"
   ],
   "note": "Proved: what each adapter exposes and computes, transparency, and that every result that is not a pointer to member can be called directly. Refuted: flip of a flip, not_fn of a not_fn and make_projection_compare with an identity give back a pointer to member, which cannot be called directly."
  },
  {
   "property": "C96",
   "status": "partial",
   "theorems": [
    "C96_compiles_partial",
    "C96_nested_refuted",
    "C96_movements_partial",
    "C96_dedicated_iter_move_refuted",
    "C96_exceptions_partial",
    "C96_exceptions_stop",
    "C96_noexcept_refuted"
   ],
   "note": "Refuted: two nested adapters do not compile with a sorter that uses iter_move, a dedicated iter_move is not used, the noexcept move assignment terminates. The theorems give the exact conditions."
  }
 ]
}