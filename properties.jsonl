{"id": "C01", "title": "insertion_sorter sorts stably", "statement": "cppsort::insertion_sorter. Called on a range, it returns (it terminates without reading or writing outside the range, without reading a moved-from object), and afterwards the range holds a permutation of the original elements, sorted: no element compares less than an earlier one. Everything outside the range is unchanged. Elements that compare equivalent keep their original relative order.", "quantifier": "every element type, every strict weak order, every projection, every collection of every length, and every content of the memory around the collection", "why_tests_cant": "A test runs finitely many collections with a few comparators; the claim ranges over every length, every arrangement (n! of them, with ties) and every comparator.", "anchors": ["include/cpp-sort/sorters/insertion_sorter.h", "include/cpp-sort/detail/insertion_sort.h: insertion_sort"]}
{"id": "C02", "title": "selection_sorter sorts", "statement": "cppsort::selection_sorter. Called on a range, it returns (it terminates without reading or writing outside the range, without reading a moved-from object), and afterwards the range holds a permutation of the original elements, sorted: no element compares less than an earlier one. Everything outside the range is unchanged.", "quantifier": "every element type, every strict weak order, every projection, every collection of every length, and every content of the memory around the collection", "why_tests_cant": "A test runs finitely many collections with a few comparators; the claim ranges over every length, every arrangement (n! of them, with ties) and every comparator.", "anchors": ["include/cpp-sort/sorters/selection_sorter.h", "include/cpp-sort/detail/selection_sort.h: selection_sort", "include/cpp-sort/detail/min_element.h: unchecked_min_element"]}
{"id": "C03", "title": "heap_sorter sorts", "statement": "cppsort::heap_sorter. Called on a range, it returns (it terminates without reading or writing outside the range, without reading a moved-from object), and afterwards the range holds a permutation of the original elements, sorted: no element compares less than an earlier one. Everything outside the range is unchanged.", "quantifier": "every element type, every strict weak order, every projection, every collection of every length, and every content of the memory around the collection", "why_tests_cant": "A test runs finitely many collections with a few comparators; the claim ranges over every length, every arrangement (n! of them, with ties) and every comparator.", "anchors": ["include/cpp-sort/sorters/heap_sorter.h", "include/cpp-sort/detail/heapsort.h: make_heap, push_heap_back/ sift, sort_heap, heapsort"]}
{"id": "C04", "title": "d_ary_heap_sorter<D> sorts for every arity", "statement": "cppsort::d_ary_heap_sorter<D>, for every D > 1. Called on a range, it returns (it terminates without reading or writing outside the range, without reading a moved-from object), and afterwards the range holds a permutation of the original elements, sorted: no element compares less than an earlier one. Everything outside the range is unchanged.", "quantifier": "every element type, every strict weak order, every projection, every collection of every length, and every content of the memory around the collection, and every arity D > 1", "why_tests_cant": "A test runs finitely many collections with a few comparators; the claim ranges over every length, every arrangement (n! of them, with ties) and every comparator. The arity is a template parameter: tests instantiate a handful.", "anchors": ["include/cpp-sort/sorters/d_ary_heap_sorter.h", "include/cpp-sort/detail/d_ary_heapsort.h: make_dary_heap, sort_dary_heap"]}
{"id": "C05", "title": "poplar_sorter sorts", "statement": "cppsort::poplar_sorter. Called on a range, it returns (it terminates without reading or writing outside the range, without reading a moved-from object), and afterwards the range holds a permutation of the original elements, sorted: no element compares less than an earlier one. Everything outside the range is unchanged.", "quantifier": "every element type, every strict weak order, every projection, every collection of every length, and every content of the memory around the collection", "why_tests_cant": "A test runs finitely many collections with a few comparators; the claim ranges over every length, every arrangement (n! of them, with ties) and every comparator. The shape of the poplar forest depends on the binary expansion of the size.", "anchors": ["include/cpp-sort/sorters/poplar_sorter.h", "include/cpp-sort/detail/poplar_sort.h"]}
{"id": "C06", "title": "smooth_sorter sorts", "statement": "cppsort::smooth_sorter. Called on a range, it returns (it terminates without reading or writing outside the range, without reading a moved-from object), and afterwards the range holds a permutation of the original elements, sorted: no element compares less than an earlier one. Everything outside the range is unchanged. The table of Leonardo numbers is right and for fewer than 2^64 elements it is never read out of bounds.", "quantifier": "every element type, every strict weak order, every projection, every collection of every length, and every content of the memory around the collection", "why_tests_cant": "A test runs finitely many collections with a few comparators; the claim ranges over every length, every arrangement (n! of them, with ties) and every comparator. The Leonardo heap shape depends on the size.", "anchors": ["include/cpp-sort/sorters/smooth_sorter.h", "include/cpp-sort/detail/smoothsort.h"]}
{"id": "C07", "title": "merge_sorter sorts stably whatever memory it gets", "statement": "cppsort::merge_sorter. Called on a range, it returns (it terminates without reading or writing outside the range, without reading a moved-from object), and afterwards the range holds a permutation of the original elements, sorted: no element compares less than an earlier one. Everything outside the range is unchanged. Elements that compare equivalent keep their original relative order. This holds whatever amount of scratch memory the allocation returns, including none at all.", "quantifier": "every element type, every strict weak order, every projection, every collection of every length, and every content of the memory around the collection, and every size of the scratch buffer actually obtained (0 included)", "why_tests_cant": "A test runs finitely many collections with a few comparators; the claim ranges over every length, every arrangement (n! of them, with ties) and every comparator. Low-memory paths are hardly ever exercised by tests.", "anchors": ["include/cpp-sort/sorters/merge_sorter.h", "include/cpp-sort/detail/merge_sort.h: merge_sort", "include/cpp-sort/detail/inplace_merge.h", "include/cpp-sort/detail/symmerge.h", "include/cpp-sort/detail/recmerge_bidirectional.h", "include/cpp-sort/detail/recmerge_forward.h", "include/cpp-sort/detail/buffered_inplace_merge.h"]}
{"id": "C08", "title": "quick_sorter sorts", "statement": "cppsort::quick_sorter. Called on a range, it returns (it terminates without reading or writing outside the range, without reading a moved-from object), and afterwards the range holds a permutation of the original elements, sorted: no element compares less than an earlier one. Everything outside the range is unchanged. This holds whatever path the bad-pivot fallback takes.", "quantifier": "every element type, every strict weak order, every projection, every collection of every length, and every content of the memory around the collection", "why_tests_cant": "A test runs finitely many collections with a few comparators; the claim ranges over every length, every arrangement (n! of them, with ties) and every comparator. Killer inputs that switch to the fallback are not covered by random tests.", "anchors": ["include/cpp-sort/sorters/quick_sorter.h", "include/cpp-sort/detail/quicksort.h", "include/cpp-sort/detail/partition.h"]}
{"id": "C09", "title": "quick_merge_sorter sorts", "statement": "cppsort::quick_merge_sorter. Called on a range, it returns (it terminates without reading or writing outside the range, without reading a moved-from object), and afterwards the range holds a permutation of the original elements, sorted: no element compares less than an earlier one. Everything outside the range is unchanged.", "quantifier": "every element type, every strict weak order, every projection, every collection of every length, and every content of the memory around the collection", "why_tests_cant": "A test runs finitely many collections with a few comparators; the claim ranges over every length, every arrangement (n! of them, with ties) and every comparator.", "anchors": ["include/cpp-sort/sorters/quick_merge_sorter.h", "include/cpp-sort/detail/quick_merge_sort.h", "include/cpp-sort/detail/nth_element.h", "include/cpp-sort/detail/introselect.h"]}
{"id": "C10", "title": "pdq_sorter sorts", "statement": "cppsort::pdq_sorter. Called on a range, it returns (it terminates without reading or writing outside the range, without reading a moved-from object, other than to move-assign the pivot's moved-from cell to itself), and afterwards the range holds a permutation of the original elements, sorted: no element compares less than an earlier one. Everything outside the range is unchanged. Its unguarded scans never leave the range.", "quantifier": "every element type, every strict weak order, every projection, every collection of every length, and every content of the memory around the collection", "why_tests_cant": "A test runs finitely many collections with a few comparators; the claim ranges over every length, every arrangement (n! of them, with ties) and every comparator. The unguarded loops rely on sentinels whose presence must hold for every input.", "anchors": ["include/cpp-sort/sorters/pdq_sorter.h", "include/cpp-sort/detail/pdqsort.h"]}
{"id": "C11", "title": "tim_sorter sorts stably", "statement": "cppsort::tim_sorter. Called on a range, it returns (it terminates without reading or writing outside the range, without reading a moved-from object), and afterwards the range holds a permutation of the original elements, sorted: no element compares less than an earlier one. Everything outside the range is unchanged. Elements that compare equivalent keep their original relative order.", "quantifier": "every element type, every strict weak order, every projection, every collection of every length, and every content of the memory around the collection", "why_tests_cant": "A test runs finitely many collections with a few comparators; the claim ranges over every length, every arrangement (n! of them, with ties) and every comparator. The run-stack and galloping invariants famously broke in other implementations for inputs no test found.", "anchors": ["include/cpp-sort/sorters/tim_sorter.h", "include/cpp-sort/detail/timsort.h: TimSort"]}
{"id": "C12", "title": "adaptive_shivers_sorter sorts stably", "statement": "cppsort::adaptive_shivers_sorter. Called on a range, it returns (it terminates without reading or writing outside the range, without reading a moved-from object), and afterwards the range holds a permutation of the original elements, sorted: no element compares less than an earlier one. Everything outside the range is unchanged. Elements that compare equivalent keep their original relative order.", "quantifier": "every element type, every strict weak order, every projection, every collection of every length, and every content of the memory around the collection", "why_tests_cant": "A test runs finitely many collections with a few comparators; the claim ranges over every length, every arrangement (n! of them, with ties) and every comparator.", "anchors": ["include/cpp-sort/sorters/adaptive_shivers_sorter.h", "include/cpp-sort/detail/timsort.h"]}
{"id": "C13", "title": "verge_sorter sorts", "statement": "cppsort::verge_sorter (and the stable verge variant, which must also preserve the order of equivalent elements). Called on a range, it returns (it terminates without reading or writing outside the range, without reading a moved-from object), and afterwards the range holds a permutation of the original elements, sorted: no element compares less than an earlier one. Everything outside the range is unchanged.", "quantifier": "every element type, every strict weak order, every projection, every collection of every length, and every content of the memory around the collection", "why_tests_cant": "A test runs finitely many collections with a few comparators; the claim ranges over every length, every arrangement (n! of them, with ties) and every comparator. The merge of detected runs depends on the pattern of run sizes.", "anchors": ["include/cpp-sort/sorters/verge_sorter.h", "include/cpp-sort/adapters/verge_adapter.h", "include/cpp-sort/detail/vergesort.h: merge_runs, sort"]}
{"id": "C14", "title": "drop_merge_sorter sorts", "statement": "cppsort::drop_merge_sorter, and drop_merge_adapter over any sorter that sorts. Called on a range, it returns (it terminates without reading or writing outside the range, without reading a moved-from object), and afterwards the range holds a permutation of the original elements, sorted: no element compares less than an earlier one. Everything outside the range is unchanged.", "quantifier": "every element type, every strict weak order, every projection, every collection of every length, and every content of the memory around the collection, and every correct inner sorter", "why_tests_cant": "A test runs finitely many collections with a few comparators; the claim ranges over every length, every arrangement (n! of them, with ties) and every comparator.", "anchors": ["include/cpp-sort/sorters/drop_merge_sorter.h", "include/cpp-sort/adapters/drop_merge_adapter.h", "include/cpp-sort/detail/drop_merge_sort.h"]}
{"id": "C15", "title": "split_sorter sorts", "statement": "cppsort::split_sorter, and split_adapter over any sorter that sorts. Called on a range, it returns (it terminates without reading or writing outside the range, without reading a moved-from object), and afterwards the range holds a permutation of the original elements, sorted: no element compares less than an earlier one. Everything outside the range is unchanged. This holds whatever scratch memory is obtained.", "quantifier": "every element type, every strict weak order, every projection, every collection of every length, and every content of the memory around the collection, every correct inner sorter and every allocation outcome", "why_tests_cant": "A test runs finitely many collections with a few comparators; the claim ranges over every length, every arrangement (n! of them, with ties) and every comparator.", "anchors": ["include/cpp-sort/sorters/split_sorter.h", "include/cpp-sort/adapters/split_adapter.h", "include/cpp-sort/detail/split_sort.h"]}
{"id": "C16", "title": "mel_sorter sorts", "statement": "cppsort::mel_sorter. Called on a range, it returns (it terminates without reading or writing outside the range, without reading a moved-from object), and afterwards the range holds a permutation of the original elements, sorted: no element compares less than an earlier one. Everything outside the range is unchanged.", "quantifier": "every element type, every strict weak order, every projection, every collection of every length, and every content of the memory around the collection", "why_tests_cant": "A test runs finitely many collections with a few comparators; the claim ranges over every length, every arrangement (n! of them, with ties) and every comparator.", "anchors": ["include/cpp-sort/sorters/mel_sorter.h", "include/cpp-sort/detail/melsort.h"]}
{"id": "C17", "title": "slab_sorter sorts", "statement": "cppsort::slab_sorter. Called on a range, it returns (it terminates without reading or writing outside the range, without reading a moved-from object), and afterwards the range holds a permutation of the original elements, sorted: no element compares less than an earlier one. Everything outside the range is unchanged.", "quantifier": "every element type, every strict weak order, every projection, every collection of every length, and every content of the memory around the collection", "why_tests_cant": "A test runs finitely many collections with a few comparators; the claim ranges over every length, every arrangement (n! of them, with ties) and every comparator.", "anchors": ["include/cpp-sort/sorters/slab_sorter.h", "include/cpp-sort/detail/slabsort.h"]}
{"id": "C18", "title": "cartesian_tree_sorter sorts", "statement": "cppsort::cartesian_tree_sorter. Called on a range, it returns (it terminates without reading or writing outside the range, without reading a moved-from object), and afterwards the range holds a permutation of the original elements, sorted: no element compares less than an earlier one. Everything outside the range is unchanged.", "quantifier": "every element type, every strict weak order, every projection, every collection of every length, and every content of the memory around the collection", "why_tests_cant": "A test runs finitely many collections with a few comparators; the claim ranges over every length, every arrangement (n! of them, with ties) and every comparator.", "anchors": ["include/cpp-sort/sorters/cartesian_tree_sorter.h", "include/cpp-sort/detail/cartesian_tree_sort.h"]}
{"id": "C19", "title": "splay_sorter sorts stably", "statement": "cppsort::splay_sorter. Called on a range, it returns (it terminates without reading or writing outside the range, without reading a moved-from object), and afterwards the range holds a permutation of the original elements, sorted: no element compares less than an earlier one. Everything outside the range is unchanged. Elements that compare equivalent keep their original relative order.", "quantifier": "every element type, every strict weak order, every projection, every collection of every length, and every content of the memory around the collection", "why_tests_cant": "A test runs finitely many collections with a few comparators; the claim ranges over every length, every arrangement (n! of them, with ties) and every comparator.", "anchors": ["include/cpp-sort/sorters/splay_sorter.h", "include/cpp-sort/detail/splaysort.h"]}
{"id": "C20", "title": "merge_insertion_sorter sorts", "statement": "cppsort::merge_insertion_sorter. Called on a range, it returns (it terminates without reading or writing outside the range, without reading a moved-from object), and afterwards the range holds a permutation of the original elements, sorted: no element compares less than an earlier one. Everything outside the range is unchanged.", "quantifier": "every element type, every strict weak order, every projection, every collection of every length, and every content of the memory around the collection", "why_tests_cant": "A test runs finitely many collections with a few comparators; the claim ranges over every length, every arrangement (n! of them, with ties) and every comparator.", "anchors": ["include/cpp-sort/sorters/merge_insertion_sorter.h", "include/cpp-sort/detail/merge_insertion_sort.h"]}
{"id": "C21", "title": "spin_sorter sorts stably", "statement": "cppsort::spin_sorter. Called on a range, it returns (it terminates without reading or writing outside the range, without reading a moved-from object), and afterwards the range holds a permutation of the original elements, sorted: no element compares less than an earlier one. Everything outside the range is unchanged. Elements that compare equivalent keep their original relative order.", "quantifier": "every element type, every strict weak order, every projection, every collection of every length, and every content of the memory around the collection", "why_tests_cant": "A test runs finitely many collections with a few comparators; the claim ranges over every length, every arrangement (n! of them, with ties) and every comparator.", "anchors": ["include/cpp-sort/sorters/spin_sorter.h", "include/cpp-sort/detail/spinsort.h", "include/cpp-sort/detail/boost_common/util/merge.h"]}
{"id": "C22", "title": "grail_sorter sorts stably with every buffer", "statement": "cppsort::grail_sorter<BufferProvider>. Called on a range, it returns (it terminates without reading or writing outside the range, without reading a moved-from object), and afterwards the range holds a permutation of the original elements, sorted: no element compares less than an earlier one. Everything outside the range is unchanged. Elements that compare equivalent keep their original relative order. This holds for every size of the buffer its provider returns.", "quantifier": "every element type, every strict weak order, every projection, every collection of every length, and every content of the memory around the collection, and every buffer size", "why_tests_cant": "A test runs finitely many collections with a few comparators; the claim ranges over every length, every arrangement (n! of them, with ties) and every comparator.", "anchors": ["include/cpp-sort/sorters/grail_sorter.h", "include/cpp-sort/detail/grail_sort.h"]}
{"id": "C23", "title": "wiki_sorter sorts stably with every buffer", "statement": "cppsort::wiki_sorter<BufferProvider>. Called on a range, it returns (it terminates without reading or writing outside the range, without reading a moved-from object), and afterwards the range holds a permutation of the original elements, sorted: no element compares less than an earlier one. Everything outside the range is unchanged. Elements that compare equivalent keep their original relative order. This holds for every size of the buffer its provider returns.", "quantifier": "every element type, every strict weak order, every projection, every collection of every length, and every content of the memory around the collection, and every buffer size", "why_tests_cant": "A test runs finitely many collections with a few comparators; the claim ranges over every length, every arrangement (n! of them, with ties) and every comparator.", "anchors": ["include/cpp-sort/sorters/wiki_sorter.h", "include/cpp-sort/detail/wiki_sort.h"]}
{"id": "C24", "title": "counting_sorter sorts integers", "statement": "cppsort::counting_sorter, ascending and descending (std::greater) overloads. Called on a range of integers, it leaves the same multiset of integers in non-decreasing (resp. non-increasing) order and touches nothing else.", "quantifier": "every range of integers of every length", "why_tests_cant": "A test covers finitely many value ranges and lengths.", "anchors": ["include/cpp-sort/sorters/counting_sorter.h", "include/cpp-sort/detail/counting_sort.h"]}
{"id": "C25", "title": "ska_sorter and spread_sorter sort integers", "statement": "cppsort::ska_sorter and cppsort::spread_sorter on integral keys: afterwards the range holds the same elements in non-decreasing key order.", "quantifier": "every key width, every range of such keys of every length", "why_tests_cant": "Radix passes depend on the bit pattern of the keys; tests sample few of the 2^64 keys.", "anchors": ["include/cpp-sort/sorters/ska_sorter.h", "include/cpp-sort/detail/ska_sort.h", "include/cpp-sort/sorters/spread_sorter.h", "include/cpp-sort/detail/spreadsort/detail/integer_sort.h"]}
{"id": "C26", "title": "sorting_network_sorter<N> sorts for every provided N", "statement": "For every N from 0 to 64, sorting_network_sorter<N> puts every collection of N elements in sorted order, as a permutation of the original elements. The pairs published by sorting_network_sorter<N>::index_pairs(), applied with swap_index_pairs, do the same.", "quantifier": "every N from 0 to 64, every strict weak order, every projection, every input of size N", "why_tests_cant": "There are 2^64 0-1 inputs for the largest network; exhaustive testing is out of reach.", "anchors": ["include/cpp-sort/fixed/sorting_network_sorter.h", "include/cpp-sort/detail/sorting_network/sort2.h .. sort64.h", "include/cpp-sort/utility/sorting_networks.h: swap_index_pairs"]}
{"id": "C27", "title": "odd_even_merge_network_sorter<N> sorts for every power of two", "statement": "For every N that is a power of two (or 0), odd_even_merge_network_sorter<N> sorts every collection of N elements, as a permutation of them, and the published index pairs are in bounds.", "quantifier": "every power of two N, every strict weak order, every projection, every input of size N", "why_tests_cant": "N is unbounded; each N has N! inputs.", "anchors": ["include/cpp-sort/fixed/odd_even_merge_network_sorter.h"]}
{"id": "C28", "title": "merge_exchange_network_sorter<N> sorts for every N", "statement": "For every N, merge_exchange_network_sorter<N> sorts every collection of N elements, as a permutation of them, and the published index pairs are in bounds.", "quantifier": "every N, every strict weak order, every projection, every input of size N", "why_tests_cant": "N is unbounded; each N has N! inputs.", "anchors": ["include/cpp-sort/fixed/merge_exchange_network_sorter.h"]}
{"id": "C29", "title": "low_comparisons_sorter<N> sorts for every provided N", "statement": "For every N from 0 to 13, low_comparisons_sorter<N> sorts every collection of N elements, as a permutation of them.", "quantifier": "every N from 0 to 13, every strict weak order, every projection, every input of size N", "why_tests_cant": "13! orders (more with ties) times every comparator; tests sample.", "anchors": ["include/cpp-sort/fixed/low_comparisons_sorter.h", "include/cpp-sort/detail/low_comparisons/sort2.h .. sort13.h", "include/cpp-sort/detail/front_inserter/"]}
{"id": "C30", "title": "low_moves_sorter<N> sorts for every N", "statement": "For every N, low_moves_sorter<N> sorts every collection of N elements, as a permutation of them.", "quantifier": "every N, every strict weak order, every projection, every input of size N", "why_tests_cant": "N is unbounded; each N has N! inputs.", "anchors": ["include/cpp-sort/fixed/low_moves_sorter.h", "include/cpp-sort/detail/low_moves/sort2.h .. sort4.h", "include/cpp-sort/detail/minmax_element.h"]}
{"id": "C31", "title": "probe::inv counts inversions", "statement": "cppsort::probe::inv returns the number of pairs of positions i < j such that element j compares less than element i; it never exceeds inv::max_for_size(n) = n(n-1)/2; it leaves the collection unchanged.", "quantifier": "every strict weak order, every projection, every collection of every length", "why_tests_cant": "The measure is a mathematical function of the whole permutation; tests compare it on a few examples only.", "anchors": ["include/cpp-sort/probes/inv.h", "include/cpp-sort/detail/count_inversions.h"]}
{"id": "C32", "title": "probe::rem measures distance to a sorted subsequence", "statement": "cppsort::probe::rem returns the size of the collection minus the length of its longest non-decreasing subsequence; it is at most rem::max_for_size(n).", "quantifier": "every strict weak order, every projection, every collection of every length", "why_tests_cant": "The measure is a mathematical function of the whole permutation; tests compare it on a few examples only.", "anchors": ["include/cpp-sort/probes/rem.h", "include/cpp-sort/detail/longest_non_descending_subsequence.h"]}
{"id": "C33", "title": "probe::sus is the minimum number of non-decreasing subsequences minus one", "statement": "cppsort::probe::sus returns the minimum number of non-decreasing subsequences into which the collection can be decomposed, minus one (0 for an empty collection); at most sus::max_for_size(n).", "quantifier": "every strict weak order, every projection, every collection of every length", "why_tests_cant": "The measure is a mathematical function of the whole permutation; tests compare it on a few examples only.", "anchors": ["include/cpp-sort/probes/sus.h", "include/cpp-sort/detail/longest_non_descending_subsequence.h"]}
{"id": "C34", "title": "probe::runs counts step-downs", "statement": "cppsort::probe::runs returns the number of adjacent pairs whose second element compares less than the first; at most runs::max_for_size(n).", "quantifier": "every strict weak order, every projection, every collection of every length", "why_tests_cant": "The measure is a mathematical function of the whole permutation; tests compare it on a few examples only.", "anchors": ["include/cpp-sort/probes/runs.h"]}
{"id": "C35", "title": "probe::mono", "statement": "cppsort::probe::mono returns the number of further greedy maximal monotone (non-decreasing or non-increasing) runs after the first one, hence 0 on every sorted and every reverse-sorted collection; at most mono::max_for_size(n).", "quantifier": "every strict weak order, every projection, every collection of every length", "why_tests_cant": "The measure is a mathematical function of the whole permutation; tests compare it on a few examples only.", "anchors": ["include/cpp-sort/probes/mono.h"]}
{"id": "C36", "title": "probe::dis is the maximum distance of an inversion", "statement": "cppsort::probe::dis (and par) returns the maximum distance between the two positions of an inversion, 0 if there is none; the same value is returned whether or not its scratch memory could be allocated; at most dis::max_for_size(n).", "quantifier": "every strict weak order, every projection, every collection of every length, every iterator category path, every allocation outcome", "why_tests_cant": "The measure is a mathematical function of the whole permutation; tests compare it on a few examples only.", "anchors": ["include/cpp-sort/probes/dis.h", "include/cpp-sort/probes/par.h", "include/cpp-sort/detail/is_p_sorted.h"]}
{"id": "C37", "title": "probe::exc is the minimum number of exchanges", "statement": "cppsort::probe::exc on a collection of pairwise non-equivalent elements returns the minimum number of exchanges (swaps of any two elements) that sort it; it is 0 exactly when the collection is sorted; at most exc::max_for_size(n).", "quantifier": "every strict weak order, every projection, every collection of every length", "why_tests_cant": "The measure is a mathematical function of the whole permutation; tests compare it on a few examples only.", "anchors": ["include/cpp-sort/probes/exc.h"]}
{"id": "C38", "title": "probe::ham counts displaced elements", "statement": "cppsort::probe::ham returns the number of positions whose element is not equivalent to the one at the same position of the sorted collection; at most ham::max_for_size(n).", "quantifier": "every strict weak order, every projection, every collection of every length", "why_tests_cant": "The measure is a mathematical function of the whole permutation; tests compare it on a few examples only.", "anchors": ["include/cpp-sort/probes/ham.h"]}
{"id": "C39", "title": "probe::max is the maximum displacement", "statement": "cppsort::probe::max on a collection of pairwise non-equivalent elements returns the maximum distance of an element to its sorted position; with ties the distance to the nearest end of its class; at most max::max_for_size(n).", "quantifier": "every strict weak order, every projection, every collection of every length", "why_tests_cant": "The measure is a mathematical function of the whole permutation; tests compare it on a few examples only.", "anchors": ["include/cpp-sort/probes/max.h"]}
{"id": "C40", "title": "probe::osc computes the oscillation", "statement": "cppsort::probe::osc returns the sum over the elements of the number of adjacent pairs that strictly straddle it, whether or not its scratch memory could be allocated, and it is at most osc::max_for_size(n).", "quantifier": "every strict weak order, every projection, every collection of every length, and every allocation outcome", "why_tests_cant": "The measure is a mathematical function of the whole permutation; tests compare it on a few examples only.", "anchors": ["include/cpp-sort/probes/osc.h"]}
{"id": "C41", "title": "probe::enc counts encroaching lists", "statement": "cppsort::probe::enc returns the number of encroaching lists built by the greedy procedure of Skiena minus one; 0 on sorted collections; at most enc::max_for_size(n).", "quantifier": "every strict weak order, every projection, every collection of every length", "why_tests_cant": "The measure is a mathematical function of the whole permutation; tests compare it on a few examples only.", "anchors": ["include/cpp-sort/probes/enc.h"]}
{"id": "C42", "title": "probe::block counts broken adjacencies", "statement": "cppsort::probe::block on a collection of pairwise non-equivalent elements returns the number of elements whose successor in the collection is not their successor in the sorted collection; at most block::max_for_size(n).", "quantifier": "every strict weak order, every projection, every collection of every length", "why_tests_cant": "The measure is a mathematical function of the whole permutation; tests compare it on a few examples only.", "anchors": ["include/cpp-sort/probes/block.h"]}
{"id": "C43", "title": "indirect_adapter sorts with at most 3n/2 moves", "statement": "cppsort::indirect_adapter over any sorter that sorts iterators: the collection ends up sorted and a permutation of the original, stable when the inner sorter is stable, and no more than floor(3n/2) element moves are performed.", "quantifier": "every strict weak order, every projection, every collection of every length, and every correct inner sorter", "why_tests_cant": "The cycle structure of the sorting permutation is arbitrary: n! cases for each n.", "anchors": ["include/cpp-sort/adapters/indirect_adapter.h", "include/cpp-sort/detail/indiesort.h"]}
{"id": "C44", "title": "schwartz_adapter projects each element exactly once", "statement": "cppsort::schwartz_adapter over any sorter that sorts: the collection ends up sorted by the projected value, is a permutation of the original, and the projection is called exactly once per element.", "quantifier": "every strict weak order, every projection, every collection of every length, and every correct inner sorter", "why_tests_cant": "A test runs finitely many collections with a few comparators; the claim ranges over every length, every arrangement (n! of them, with ties) and every comparator.", "anchors": ["include/cpp-sort/adapters/schwartz_adapter.h", "include/cpp-sort/detail/associate_iterator.h"]}
{"id": "C45", "title": "stable_adapter/make_stable makes any sorter stable", "statement": "cppsort::stable_adapter<Sorter> over any sorter that sorts (stable or not): the collection ends up sorted, a permutation of the original, and elements that compare equivalent keep their relative order.", "quantifier": "every strict weak order, every projection, every collection of every length, and every correct inner sorter", "why_tests_cant": "A test runs finitely many collections with a few comparators; the claim ranges over every length, every arrangement (n! of them, with ties) and every comparator.", "anchors": ["include/cpp-sort/adapters/stable_adapter.h: make_stable, stable_compare", "include/cpp-sort/detail/associate_iterator.h"]}
{"id": "C46", "title": "out_of_place_adapter sorts through a copy", "statement": "cppsort::out_of_place_adapter over any sorter that sorts: moves the elements out, sorts them, moves them back; the collection ends up sorted and a permutation of the original, stable when the inner sorter is.", "quantifier": "every strict weak order, every projection, every collection of every length, and every correct inner sorter", "why_tests_cant": "A test runs finitely many collections with a few comparators; the claim ranges over every length, every arrangement (n! of them, with ties) and every comparator.", "anchors": ["include/cpp-sort/adapters/out_of_place_adapter.h"]}
{"id": "C47", "title": "counting_adapter is transparent and exact", "statement": "cppsort::counting_adapter<Sorter> gives exactly the result of the inner sorter and returns exactly the number of comparator invocations it performed.", "quantifier": "every inner sorter that accesses order only through its comparator, every input, every comparator", "why_tests_cant": "A test runs finitely many collections with a few comparators; the claim ranges over every length, every arrangement (n! of them, with ties) and every comparator.", "anchors": ["include/cpp-sort/adapters/counting_adapter.h", "include/cpp-sort/detail/comparison_counter.h", "include/cpp-sort/metrics/comparisons.h"]}
{"id": "C48", "title": "hybrid_adapter dispatches on the iterator category", "statement": "cppsort::hybrid_adapter<S1..Sn> called with an iterator of category C runs the first sorter in the list among those, callable with the arguments, whose category is the strongest one not stronger than C.", "quantifier": "every list of sorters, every assignment of categories, every iterator category, every callability pattern", "why_tests_cant": "Overload resolution is exercised on a few lists of sorters only.", "anchors": ["include/cpp-sort/adapters/hybrid_adapter.h"]}
{"id": "C49", "title": "apply_permutation permutes", "statement": "cppsort::utility::apply_permutation(first, last, indices_first, indices_last): afterwards position i of the collection holds the element that was at position indices[i], with no element lost or duplicated.", "quantifier": "every permutation of every length", "why_tests_cant": "n! permutations for every n.", "anchors": ["include/cpp-sort/utility/apply_permutation.h"]}
{"id": "C50", "title": "sorted_indices returns the sorting permutation", "statement": "cppsort::utility::make_sorted_indices / sorted_indices over any sorter that sorts: returns a permutation of 0..n-1 such that reading the collection through it is sorted (stable when the sorter is), and leaves the collection unchanged; applying apply_permutation with it sorts the collection.", "quantifier": "every strict weak order, every projection, every collection of every length, and every correct inner sorter", "why_tests_cant": "A test runs finitely many collections with a few comparators; the claim ranges over every length, every arrangement (n! of them, with ties) and every comparator.", "anchors": ["include/cpp-sort/utility/sorted_indices.h", "include/cpp-sort/utility/apply_permutation.h"]}
{"id": "C51", "title": "sorted_iterators returns the sorted view", "statement": "cppsort::utility::sorted_iterators over any sorter that sorts: returns each position of the collection exactly once, ordered by the comparator on the pointed elements, and leaves the collection unchanged.", "quantifier": "every strict weak order, every projection, every collection of every length, and every correct inner sorter", "why_tests_cant": "A test runs finitely many collections with a few comparators; the claim ranges over every length, every arrangement (n! of them, with ties) and every comparator.", "anchors": ["include/cpp-sort/utility/sorted_iterators.h"]}
{"id": "C52", "title": "total_less/total_greater are total orders on floating point", "statement": "cppsort::total_less and total_greater on floating point values are strict weak orders, order -0.0 before +0.0, negative NaNs first and positive NaNs last, and are mutually converse; all-NaN payload details aside they agree with the IEEE 754 totalOrder.", "quantifier": "every pair and triple of floating point values, NaNs, infinities and signed zeros included", "why_tests_cant": "2^64 doubles: every triple must be transitive.", "anchors": ["include/cpp-sort/comparators/total_less.h", "include/cpp-sort/comparators/total_greater.h", "include/cpp-sort/detail/floating_point_weight.h"]}
{"id": "C53", "title": "weak_less/weak_greater are weak orders on floating point", "statement": "cppsort::weak_less and weak_greater are strict weak orders on floating point values, in which all zeros are equivalent, negative NaNs come first and positive NaNs last.", "quantifier": "every pair and triple of floating point values", "why_tests_cant": "2^64 doubles: every triple must be transitive.", "anchors": ["include/cpp-sort/comparators/weak_less.h", "include/cpp-sort/comparators/weak_greater.h", "include/cpp-sort/detail/floating_point_weight.h"]}
{"id": "C54", "title": "natural_less is a natural strict weak order", "statement": "cppsort::natural_less compares two strings without reading past their ends, is a strict weak order, and orders embedded digit sequences by numeric value wherever they occur.", "quantifier": "every pair and triple of strings over every character set", "why_tests_cant": "Infinitely many strings; transitivity ranges over triples.", "anchors": ["include/cpp-sort/comparators/natural_less.h"]}
{"id": "C55", "title": "case_insensitive_less is a strict weak order", "statement": "cppsort::case_insensitive_less is a strict weak order on strings, under which two strings are equivalent exactly when they are equal once each character is lower-cased.", "quantifier": "every pair and triple of strings and every lower-casing function of characters", "why_tests_cant": "Infinitely many strings.", "anchors": ["include/cpp-sort/comparators/case_insensitive_less.h"]}
{"id": "C56", "title": "flip, not_fn and projection_compare preserve meaning", "statement": "cppsort::flip(c)(x,y) = c(y,x) and is a strict weak order when c is, flip(flip(c)) is c; not_fn(not_fn(c)) is c; projection_compare(c,p)(x,y) = c(p(x),p(y)) and is a strict weak order when c is.", "quantifier": "every comparator, every projection, every pair of arguments", "why_tests_cant": "Ranges over all functions.", "anchors": ["include/cpp-sort/comparators/flip.h", "include/cpp-sort/comparators/not_fn.h", "include/cpp-sort/comparators/projection_compare.h"]}
{"id": "C57", "title": "Sorting is safe for arbitrary comparators", "statement": "The insertion, selection, heap, d-ary heap, merge (for every scratch size), bubble, quick, poplar, smooth and network sorters terminate, stay in bounds and leave a permutation of the original elements even when the comparator is not a strict weak order.", "quantifier": "every boolean function as comparator, every projection, every collection", "why_tests_cant": "No test can try every inconsistent comparator.", "anchors": ["include/cpp-sort/detail/insertion_sort.h", "include/cpp-sort/detail/selection_sort.h", "include/cpp-sort/detail/heapsort.h", "include/cpp-sort/detail/d_ary_heapsort.h", "include/cpp-sort/detail/merge_sort.h", "include/cpp-sort/detail/swap_if.h", "include/cpp-sort/detail/quicksort.h", "include/cpp-sort/detail/poplar_sort.h", "include/cpp-sort/detail/smoothsort.h"]}
{"id": "C58", "title": "small_array_adapter dispatches on the exact size", "statement": "small_array_adapter<FixedSizeSorter, Domain> called on an array of size N calls the fixed-size sorter of size N exactly when N is in its domain, so the array ends up sorted whenever each fixed-size sorter of the domain sorts.", "quantifier": "every N of the domain, every family of fixed-size sorters", "why_tests_cant": "The domain is an arbitrary index sequence.", "anchors": ["include/cpp-sort/adapters/small_array_adapter.h"]}
{"id": "C59", "title": "Probes are zero on sorted collections", "statement": "Every measure of presortedness (block aside with ties) returns 0 on a collection that is already sorted.", "quantifier": "every strict weak order, every projection, every collection of every length", "why_tests_cant": "The measure is a mathematical function of the whole permutation; tests compare it on a few examples only.", "anchors": ["include/cpp-sort/probes/"]}
{"id": "C60", "title": "detail::rotate, inplace_merge, lower_bound and upper_bound meet their contracts", "statement": "detail::rotate exchanges two consecutive parts of a range and returns the new position of the formerly first element, with each of its implementations (forward swaps, bidirectional block swaps, gcd cycles, single-element moves). detail::inplace_merge merges two consecutive sorted parts stably whatever scratch memory it gets. detail::lower_bound and upper_bound return the partition point of a sorted range and leave it unchanged. Nothing else in memory changes.", "quantifier": "every pair of parts, every surrounding memory, every iterator category, every allocation outcome, every strict weak order and projection", "why_tests_cant": "The implementation chosen depends on iterator category, type traits, lengths and allocation outcomes; tests sample a few combinations.", "anchors": ["include/cpp-sort/detail/rotate.h:1-208", "include/cpp-sort/detail/inplace_merge.h:1-215", "include/cpp-sort/detail/symmerge.h:1-120", "include/cpp-sort/detail/recmerge_bidirectional.h:1-150", "include/cpp-sort/detail/lower_bound.h:20-51", "include/cpp-sort/detail/upper_bound.h:20-48"]}
{"id": "C61", "title": "detail::nth_element selects the nth element", "statement": "detail::nth_element, called with a position inside the range, returns an iterator to that position and permutes the range such that no element before the position is greater than the element there and no element after it is less. Everything outside the range is unchanged. For random-access iterators (adaptive quickselect: median of minima, of maxima, of ninthers, expand_partition) this holds with all the assertions of the code. For forward and bidirectional iterators (introselect) only the split holds: no element from the position on is less than an element before it; the element at the position may be wrong (introselect.h:307 compares with > instead of >=).", "quantifier": "every element type, every strict weak order, every projection, every collection of every length, every position in it, and every content of the memory around the collection", "why_tests_cant": "The wrong element shows only when the requested position is exactly the one after a pivot block; the branches of the adaptive selection depend on the ratio between position and length.", "anchors": ["include/cpp-sort/detail/nth_element.h:24-73", "include/cpp-sort/detail/introselect.h:246-325", "include/cpp-sort/detail/adaptive_quickselect.h:37-486"]}
{"id": "C62", "title": "stable_partition partitions stably with every amount of memory", "statement": "detail::stable_partition(first, last, predicate, size), with which slab_sorter splits its ranges. It returns without reading or writing outside the range and without reading a moved-from object; afterwards the range holds first the elements that satisfy the predicate and then the others, both in their original order, and it returns the position of the first of the others. Everything outside the range is unchanged, and the temporary memory is given back.", "quantifier": "every element type, every predicate, every iterator category, every range of every length, every content of the memory around it, and every pattern of failing allocations", "why_tests_cant": "The recursion splits differently for every size of the buffer that the allocator grants; tests run with an allocator that practically never fails.", "anchors": ["include/cpp-sort/detail/stable_partition.h"]}
{"id": "C63", "title": "container_aware_adapter<insertion_sorter> sorts lists stably", "statement": "Called on a std::list or a std::forward_list, the adapter relinks the nodes: it never uses an iterator that is not dereferenceable where one must be, and afterwards the list has the same nodes with the same values, sorted, equivalent elements in their original order.", "quantifier": "every element type, every strict weak order, every projection, and every std::list or std::forward_list of every length", "why_tests_cant": "The binary search and the splices work on positions that depend on every previous splice.", "anchors": ["include/cpp-sort/detail/container_aware/insertion_sort.h:30-98"]}
{"id": "C64", "title": "container_aware_adapter<selection_sorter> sorts lists stably", "statement": "Called on a std::list or a std::forward_list, the adapter relinks the nodes without an invalid iterator, and afterwards the list has the same nodes with the same values, sorted, equivalent elements in their original order.", "quantifier": "every element type, every strict weak order, every projection, and every std::list or std::forward_list of every length", "why_tests_cant": "The minimum is moved by relinking nodes, which changes what every saved iterator denotes.", "anchors": ["include/cpp-sort/detail/container_aware/selection_sort.h:29-77"]}
{"id": "C65", "title": "container_aware_adapter<merge_sorter> sorts lists stably", "statement": "Called on a std::list or a std::forward_list, the adapter relinks the nodes without an invalid iterator and with sorted arguments to merge, and afterwards the list has the same nodes with the same values, sorted, equivalent elements in their original order (is_stable is true for it). The last part is false: the left part is merged into the right one, so that equivalent elements are always reversed.", "quantifier": "every element type, every strict weak order, every projection, and every std::list or std::forward_list of every length", "why_tests_cant": "Tests compare values only; the order of equivalent nodes is invisible.", "anchors": ["include/cpp-sort/detail/container_aware/merge_sort.h:29-68", "include/cpp-sort/adapters/container_aware_adapter.h:115-133"]}
{"id": "C66", "title": "container_aware_adapter<mel_sorter> sorts lists", "statement": "Called on a std::list or a std::forward_list, the adapter distributes the nodes over encroaching lists and merges them without an invalid iterator, with sorted arguments to merge and without accessing outside the vector of lists; afterwards the list has the same nodes with the same values, sorted.", "quantifier": "every element type, every strict weak order, every projection, and every std::list or std::forward_list of every length", "why_tests_cant": "The number of encroaching lists, which decides the pattern of merges, depends on the input.", "anchors": ["include/cpp-sort/detail/container_aware/mel_sort.h:31-192"]}
{"id": "C67", "title": "ska_sorter sorts float and double", "statement": "ska_sorter, called on float or double keys none of which is a NaN, leaves a permutation of the range sorted by the built-in operator<, and does not touch anything outside the range. Infinities, subnormal numbers and zeroes of both signs are allowed.", "quantifier": "every element type with a float or double projection, every range of every length of elements whose keys are not NaNs", "why_tests_cant": "The order of the keys is obtained by flipping bits of their representation; 2^64 keys of which every boundary between exponents, signs and zeroes matters.", "anchors": ["include/cpp-sort/detail/ska_sort.h:117-131", "include/cpp-sort/sorters/ska_sorter.h:29-60"]}
{"id": "C68", "title": "float_spread_sorter sorts float and double", "statement": "float_spread_sorter, called on float or double keys none of which is a NaN, leaves a permutation of the range sorted by the built-in operator<, without undefined behaviour. False: the difference of the extreme representations overflows as soon as a positive number has at least the magnitude of a negative one; the negation of the smallest representation overflows for -0.0; and negative doubles of almost the same magnitude are sorted in the reverse order when the low bits of the greatest are zero, because the number of negative bins is truncated to 32 bits.", "quantifier": "every element type with a float or double projection, every range of every length of elements whose keys are not NaNs", "why_tests_cant": "Overflow is invisible on the usual machines; the truncation needs a thousand negative doubles that are very close to each other.", "anchors": ["include/cpp-sort/detail/spreadsort/detail/float_sort.h:50-392", "include/cpp-sort/sorters/spread_sorter/float_spread_sorter.h:30-68"]}
{"id": "C69", "title": "string_spread_sorter sorts strings in both directions", "statement": "string_spread_sorter on strings of one-byte or two-byte characters leaves a permutation of the range sorted in lexicographic order of the characters taken as unsigned; with std::greater<> the order is the reverse one. No character is read at or past the end of a string, no bin pointer is read before it is written, and nothing outside of the range changes.", "quantifier": "every element type with a projection to strings, every range of every length, strings of every length, embedded null characters and characters above 127 included", "why_tests_cant": "The bins are used from a thousand elements on, the recursion from 256 equal characters on; the prefix search depends on how the lengths relate to steps of 64, 4 and 1 characters.", "anchors": ["include/cpp-sort/detail/spreadsort/detail/string_sort.h:51-408", "include/cpp-sort/detail/spreadsort/string_sort.h:82-159", "include/cpp-sort/sorters/spread_sorter/string_spread_sorter.h:38-203"]}
{"id": "C70", "title": "ska_sorter sorts pairs, tuples, strings and other sequences", "statement": "ska_sorter leaves a permutation of the range sorted by operator< of the projected values, for every type that is_ska_sortable accepts: pairs, tuples and types with operator[], nested in any way over integral and floating-point types. No sequence is read past its end, no null next sort is called, and nothing outside of the range changes.", "quantifier": "every type built from scalars, pairs, tuples and sequences, every element type with a projection to it, every range of every length, sequences of every length", "why_tests_cant": "The radix sort only runs from 128 elements on, falls back to a comparison sort on small partitions and after 16 levels, and its behaviour depends on how the nested types chain their sub-keys; tests fix a few types.", "anchors": ["include/cpp-sort/detail/ska_sort.h:233-475", "include/cpp-sort/detail/ska_sort.h:679-928", "include/cpp-sort/sorters/ska_sorter.h:29-60"]}
{"id": "C71", "title": "The arithmetic overloads of swap_if do what the generic swap_if does", "statement": "The overloads of swap_if for integral and floating-point types with std::less<> or std::greater<> and the identity projection leave the same two values as the generic overload, so that the sorting networks built on them leave a sorted permutation of the range and nothing else changes.", "quantifier": "every integer type of every width and every pair of its values; every pair of floating-point data, NaNs, infinities and signed zeros included; every collection of every size given to the three families of sorting networks", "why_tests_cant": "The integral overload relies on an xor identity over all pairs of values of all widths; the floating-point one differs from the generic overload only on operands that compare equal or unordered, which == in a test cannot tell apart.", "anchors": ["include/cpp-sort/detail/swap_if.h:28-83", "include/cpp-sort/detail/swap_if.h:196-214", "include/cpp-sort/utility/sorting_networks.h:41-55"]}
{"id": "C72", "title": "max_for_size is the greatest value of each measure of presortedness", "statement": "For every probe and every size n, probe::max_for_size(n) is the greatest value the probe returns for collections of n elements: no collection gives more and some collection gives exactly that.", "quantifier": "every size n without bound, every collection of that size, every comparison path of the probes (allocation outcome, iterator category, projection on iterators or elements)", "why_tests_cant": "That the bound is reached is an existence claim for every size, and that it is never passed a claim on all the collections of that size; tests look at one or two collections of one size.", "anchors": ["include/cpp-sort/probes/block.h:118-122", "include/cpp-sort/probes/dis.h:181-185", "include/cpp-sort/probes/enc.h:119-123", "include/cpp-sort/probes/exc.h:145-149", "include/cpp-sort/probes/ham.h:110-114", "include/cpp-sort/probes/inv.h:93-97", "include/cpp-sort/probes/max.h:125-129", "include/cpp-sort/probes/mono.h:102-106", "include/cpp-sort/probes/osc.h:210-214", "include/cpp-sort/probes/rem.h:87-91", "include/cpp-sort/probes/runs.h:68-72", "include/cpp-sort/probes/sus.h:52-56"]}
{"id": "C73", "title": "The bit operations compute what their comments say", "statement": "detail/bitops.h: hyperfloor(n) is 2^floor(log2 n), hyperceil(n) is 2^ceil(log2 n), log2 and ceil_log2 are the floor and the ceiling of the logarithm, half(n) is floor(n/2), has_single_bit(n) holds exactly for the powers of two, rotl(x, s) rotates the bits of x; without undefined behaviour, for every value the type can represent and every type the library calls them with.", "quantifier": "every integer type (every width, signed or not where the function is called with one), every representable positive value, every rotation count", "why_tests_cant": "The values range over 2^64 numbers for each type; the sizes at which hyperfloor fails on std::ptrdiff_t are too large for a test.", "anchors": ["include/cpp-sort/detail/bitops.h:22-141", "include/cpp-sort/detail/wiki_sort.h:273-281", "include/cpp-sort/detail/poplar_sort.h:150-163", "include/cpp-sort/detail/pdqsort.h:553", "include/cpp-sort/fixed/merge_exchange_network_sorter.h:42-45"]}
{"id": "C74", "title": "sorter_facade serves every valid call and preserves the requested order", "statement": "For every sorter implementation, whatever subset of the calls (a pair of iterators or an iterable, with nothing, a comparison, a projection, or both) its operator() accepts: a call of sorter_facade<Sorter> with nothing, a comparison, a projection or a comparison and a projection resolves to exactly one overload if the implementation accepts one of the calls that can stand for it (the same arguments, std::less<> or the identity dropped, std::less<> added, comparison and projection embedded in a projection_compare); the implementation accepts what it is then given, gets iterators if the call had iterators, and is asked to sort by the same order; with an iterable, an overload of the implementation that takes the iterable and exactly the arguments is preferred.", "quantifier": "every sorter implementation (every predicate on forms and argument lists), every valid call, C++14 to C++20, every comparison and projection", "why_tests_cant": "The implementations are a set of 2^n subsets of the accepted calls; each test instantiates the facade with one of them, and an ambiguity appears only for the combinations nobody wrote.", "anchors": ["include/cpp-sort/sorter_facade.h:166-1174", "include/cpp-sort/sorter_traits.h:79-138", "docs/Sorter-facade.md"]}
{"id": "C75", "title": "make_integer_range produces the range that its parameters describe", "statement": "make_integer_range<T, Begin, End, Step> is the sequence Begin, Begin \u00b1 Step, ... up to End excluded, upwards if Begin < End and downwards otherwise (empty for equal bounds), a step of 0 counting as 1, for every integer type for which the intermediate results are representable; make_index_range is the same for std::size_t.", "quantifier": "every integer type, every pair of bounds, every step that is not negative", "why_tests_cant": "Each instantiation is a different compile-time constant; the bounds and the widths cannot be enumerated, and the sizes at which the arithmetic wraps are not instantiable.", "anchors": ["include/cpp-sort/utility/make_integer_range.h:19-80", "docs/Miscellaneous-utilities.md"]}
{"id": "C76", "title": "self_sort_adapter runs the documented method and is_stable tells the truth about it", "statement": "self_sort_adapter<Sorter> calls the sort method of the collection if it has a suitable one, otherwise its stable_sort method, otherwise the adapted sorter, with the arguments of the call; is_stable is true exactly if the call is known to be stable; stable_adapter<self_sort_adapter<Sorter>> only runs stable algorithms and accepts what the stable adapted sorter accepts.", "quantifier": "every collection class (every set of methods), the lists of the standard library, every adapted sorter, every valid call", "why_tests_cant": "The tests instantiate four containers with methods without parameters; which overload is chosen depends on every combination of methods, arguments and sorter.", "anchors": ["include/cpp-sort/adapters/self_sort_adapter.h:24-177", "include/cpp-sort/detail/stable_adapter_self_sort_adapter.h:24-118", "docs/Sorter-adapters.md"]}
{"id": "C77", "title": "metrics::moves does not change the result and counts exactly the moves of the sorter", "statement": "metrics::moves<Sorter> leaves the collection as Sorter would, and returns the number of move constructions and move assignments that Sorter makes on the elements: the moves into the vector of wrappers and back are not counted, and other counters are not changed.", "quantifier": "every sorter (any program that reads elements through the projection and moves them), every collection, every projection", "why_tests_cant": "The tests check one number for one sorter and one collection; the number of moves depends on every branch the sorter takes.", "anchors": ["include/cpp-sort/metrics/moves.h:30-166"]}
{"id": "C78", "title": "container_aware_adapter uses the dedicated algorithm when there is one, and asks it for the order the caller asked for", "statement": "container_aware_adapter<Sorter>, called with a collection and any valid mix of comparison and projection, calls the function sort dedicated to that sorter and collection if it accepts the call or an equivalent one, and Sorter with the same arguments otherwise; the call is never ambiguous, the order is the one asked for, and is_stable is true only if Sorter runs and is stable for that call. With a pair of iterators it uses Sorter.", "quantifier": "every adapted sorter, every collection, every set of dedicated functions, every call", "why_tests_cant": "The tests use one collection with one set of dedicated functions; eleven overloads depend on which functions exist.", "anchors": ["include/cpp-sort/adapters/container_aware_adapter.h:25-357", "docs/Sorter-adapters.md"]}
{"id": "C79", "title": "Projections composed with operator| apply in order", "statement": "lhs | rhs, where one of the projections inherits from projection_base, is a projection that applies lhs, then rhs; parentheses do not matter; it is transparent exactly when both are; if one operand is utility::identity or std::identity, it is the other operand.", "quantifier": "every pair and chain of projections, every value, C++14 to C++20", "why_tests_cant": "The tests compose a few projections; the six overloads are chosen by the kinds of both operands.", "anchors": ["include/cpp-sort/utility/functional.h:26-156", "docs/Chainable-projections.md"]}
{"id": "C80", "title": "is_stable tells whether a call of nested adapters is stable, and stable_adapter makes every call stable", "statement": "For any nesting of hybrid_adapter, counting_adapter, indirect_adapter, out_of_place_adapter, schwartz_adapter, make_stable and stable_adapter, is_stable is true for a call exactly when the sorter that runs in the end is stable or is given a comparison made stable; a call of stable_adapter<S> or of stable_t<S> sorts stably; stable_t is always stable, idempotent, and unwraps nested stable_adapters.", "quantifier": "every nesting of adapters of any depth, every sorters inside, every iterator category, with and without projection, every comparison that is a strict weak ordering, every sequence", "why_tests_cant": "The tests instantiate a few nestings; the wrong answers need a hybrid_adapter below an adapter that changes the iterator category.", "anchors": ["include/cpp-sort/adapters/stable_adapter.h", "include/cpp-sort/detail/stable_adapter_hybrid_adapter.h", "include/cpp-sort/sorter_traits.h:207-238", "include/cpp-sort/adapters/hybrid_adapter.h", "include/cpp-sort/adapters/indirect_adapter.h", "include/cpp-sort/adapters/out_of_place_adapter.h", "include/cpp-sort/adapters/schwartz_adapter.h"]}
{"id": "C81", "title": "iter_move and iter_swap use the dedicated functions of the iterator", "statement": "utility::iter_move moves from the element the iterator designates, with the iterator's dedicated iter_move if it has one; utility::iter_swap uses a dedicated iter_swap, else a dedicated iter_move, else swap; std::reverse_iterator and std::move_iterator, nested in any way, forward to the functions of the iterator they adapt, at the right position.", "quantifier": "every iterator type (dedicated functions, associated namespaces), every nesting of the two adapters, every position", "why_tests_cant": "tests/utility/iter_swap.cpp uses iterators outside of namespace std and no adapters.", "anchors": ["include/cpp-sort/utility/iter_move.h", "docs/Miscellaneous-utilities.md:236-256"]}
{"id": "C82", "title": "default_sorter sorts whatever it is given", "statement": "default_sorter sorts lists, forward lists, arrays of any size, other collections and pairs of iterators of every category, with or without comparison and projection, by the algorithm its documentation announces (the list's own sort, low_comparisons_sorter up to 13 elements, pdq_sorter for random-access iterators, quick_sorter otherwise); stable_adapter<default_sorter> sorts them stably.", "quantifier": "every object, every array size, every iterator category, every kind of call, every comparison that is a strict weak ordering, every projection, every sequence", "why_tests_cant": "The tests sort a few collections; no test passes a list and a projection alone.", "anchors": ["include/cpp-sort/sorters/default_sorter.h", "include/cpp-sort/adapters/self_sort_adapter.h", "include/cpp-sort/adapters/hybrid_adapter.h", "include/cpp-sort/adapters/small_array_adapter.h", "docs/Sorters.md:73-105"]}
{"id": "C83", "title": "cppsort::sort and cppsort::stable_sort call the right sorter", "statement": "Every documented call of cppsort::sort and cppsort::stable_sort, with or without a sorter, with a collection or two iterators, with a comparison, a projection, both or none, calls the sorter that is given, or else the default one, with the other arguments; it compiles whenever that sorter accepts them.", "quantifier": "every kind of call, every value category of every argument, every set of calls that the sorter accepts, every reaction of the comparison to iterators", "why_tests_cant": "The tests pass constant global instances of sorters and collections; whether an overload wins depends on the value category of the sorter.", "anchors": ["include/cpp-sort/sort.h", "include/cpp-sort/stable_sort.h", "include/cpp-sort/sorter_traits.h:24-201", "docs/Sorting-functions.md"]}
{"id": "C84", "title": "metrics<...> gives its members by index and by tag", "statement": "get by index gives the member at this index, and get by tag the first member with this tag; a tag that no member has is an error; a metrics can be copied from any expression of its type; index_of gives the index of the first occurrence, or -1; is_in_pack, any and all decide membership, disjunction and conjunction.", "quantifier": "every list of types, every list of tagged metrics, every tag, every value category and kind of initialization", "why_tests_cant": "The tests look for tags that are present, and copy from constant lvalues and rvalues.", "anchors": ["include/cpp-sort/utility/metrics_tools.h:240-334", "include/cpp-sort/detail/type_traits.h:342-388", "include/cpp-sort/detail/any_all.h:12-38"]}
{"id": "C85", "title": "The branchless traits agree with their table for every qualification", "statement": "is_probably_branchless_comparison and is_probably_branchless_projection are true exactly for the functions and types that the documentation lists, and for those that flip, projection_compare, function_constant and the counters make of them, whatever the const, volatile and reference qualifiers of both arguments; pdqsort and enc choose the branchless algorithm exactly for these.", "quantifier": "every comparison and projection built from the listed ones, every type, every qualification, every result type of a projection", "why_tests_cant": "The tests look at a few instances; the qualifications that break the trait are those that no test uses, and a wrong value only changes speed.", "anchors": ["include/cpp-sort/utility/branchless_traits.h:25-146", "include/cpp-sort/comparators/total_less.h:82-85", "include/cpp-sort/comparators/projection_compare.h:192-201", "include/cpp-sort/comparators/flip.h:193-196", "include/cpp-sort/utility/functional.h:404-417", "include/cpp-sort/detail/pdqsort.h:436-438", "include/cpp-sort/probes/enc.h:40-42"]}
{"id": "C86", "title": "Functions are refined as documented", "statement": "refined<T>(func) gives func.refine<T>() if func has such a method and func otherwise; sorter_facade refines the functions for the value type of the collection; a sorter with case_insensitive_less accepts every projection to sequences that case_insensitive_less itself can compare.", "quantifier": "every function object with or without a refine method, constant or not, every value category, every type of elements, every result type and value category of the projection", "why_tests_cant": "The tests refine const comparators and sort arrays of strings without a projection: the cases that fail do not compile.", "anchors": ["include/cpp-sort/refined.h:18-62", "include/cpp-sort/sorter_facade.h:200-260", "include/cpp-sort/sorter_facade.h:552-566", "include/cpp-sort/comparators/case_insensitive_less.h:76-261", "docs/Refined-functions.md"]}
{"id": "C87", "title": "Sorters accept every iterator of their category, with the right size", "statement": "utility::size is never ambiguous and gives the number of elements of an array, of a collection with size() and of any other collection; every sorter and adapter can be called with a collection and with two iterators of every category that it declares to support, and computes their number.", "quantifier": "every collection, constant or not, with or without size(), every sorter and adapter, every adapted sorter, every iterator category, every order of evaluation", "why_tests_cant": "The tests call verge_adapter with collections; the calls with iterators do not compile, and moved-from iterators keep their position in the standard libraries that are tested.", "anchors": ["include/cpp-sort/utility/size.h:19-63", "include/cpp-sort/adapters/verge_adapter.h:48-94", "include/cpp-sort/sorter_traits.h:271-291", "include/cpp-sort/sorters/merge_sorter.h:54-86"]}
{"id": "C88", "title": "indirect_adapter leaves the collection as it was if the comparison throws", "statement": "If an exception is thrown while the iterators are sorted, indirect_adapter leaves the collection in its original state; else the elements are moved once, according to the sorted iterators, even while another exception is in flight; out_of_place_adapter gives what the adapted sorter gives, and loses the elements on an exception; a scope guard calls its function exactly once unless it is deactivated.", "quantifier": "every adapted sorter that returns or throws with any buffer, every collection, every number of exceptions in flight, every sequence of activations", "why_tests_cant": "A test throws at one comparison of one algorithm; none sorts while the stack is unwound.", "anchors": ["include/cpp-sort/detail/scope_exit.h:19-129", "include/cpp-sort/adapters/indirect_adapter.h:51-139", "include/cpp-sort/detail/indiesort.h:58-136", "include/cpp-sort/adapters/out_of_place_adapter.h:33-58", "docs/Sorter-adapters.md:145"]}
{"id": "C89", "title": "A stateless sorter converts to a function pointer for each of its overloads", "statement": "If and only if the sorter implementation is empty and default-constructible, the sorter converts to pointers to functions that take a collection by reference or two iterators, and at most two functions; the function calls the sorter with exactly its arguments and returns its result, or discards it if it returns void.", "quantifier": "every return type, every list of parameter types of any length, empty or not, default-constructible or not", "why_tests_cant": "A test names a few pointer types; whether exactly one of nine conversion templates is chosen depends on every combination of references and equal types.", "anchors": ["include/cpp-sort/sorter_facade.h:22-155", "docs/Sorter-facade.md:31-48", "docs/Writing-a-sorter.md:416"]}
{"id": "C90", "title": "The adapters keep the sorters that they adapt, with their states", "statement": "An adapter, and hybrid_adapter for each of its sorters in order, holds the sorter that is passed with its state, to any depth of nesting; it is empty and default-constructible if and only if every original sorter is; nested hybrid_adapters are flattened; stable_adapter of a hybrid_adapter holds the same sorters made stable; stateless adapters convert to function pointers.", "quantifier": "every stack of adapters of any depth, every list of sorters, empty or not, default-constructible or not, every state, every stability", "why_tests_cant": "The test of stateful sorters nests no hybrid_adapter; nesting has no bound, and ill-formed constructions cannot be in a test that compiles.", "anchors": ["include/cpp-sort/utility/adapter_storage.h:17-125", "include/cpp-sort/adapters/hybrid_adapter.h:71-255", "include/cpp-sort/adapters/hybrid_adapter.h:345-406", "include/cpp-sort/detail/stable_adapter_hybrid_adapter.h:17-45", "docs/Sorter-adapters.md:23-26", "docs/Sorter-adapters.md:129"]}
{"id": "C91", "title": "The iterators of the adapters act like the pointers that they wrap", "statement": "Every program on iterators gives the same positions and the same observations on associate_iterator and fake_category_iterator as on pointers, for all the operators of random-access iterators.", "quantifier": "every sequence of operations on any number of variables, all positions and distances", "why_tests_cant": "The sorters of the library use some of the operators; a sorter of the user may use any of them in any order.", "anchors": ["include/cpp-sort/detail/associate_iterator.h:160-358", "include/cpp-sort/detail/fake_category_iterator.h:25-249", "docs/Library-nomenclature.md:60"]}
{"id": "C92", "title": "rebind_iterator_category gives a similar sorter with a stricter category", "statement": "sorter_traits has exactly the types of the sorter unless it is specialized; rebind_iterator_category is an error exactly for a less strict category, has the new category and the stability of the sorter, and hybrid_adapter picks the rebound sorter exactly for iterators of the new category or a stricter one.", "quantifier": "every sorter with or without each trait and specialization, every category, every call, either order of the sorters", "why_tests_cant": "The test rebinds one sorter to one category; traits that are specialized, and compile-time errors, are not in it.", "anchors": ["include/cpp-sort/sorter_traits.h:203-266", "include/cpp-sort/detail/raw_checkers.h:36-86", "docs/Sorter-traits.md:103-122", "docs/Sorter-traits.md:176-194"]}
{"id": "C93", "title": "immovable_vector destroys every element exactly once, wherever constructors throw", "statement": "Within the capacity, any sequence of emplace_back, insert_back and clear, with constructors that throw at any point, leaves exactly the elements before end() alive, insertions that throw have no effect, nothing is constructed over an element that lives or destroyed twice, and the destructor leaves none alive.", "quantifier": "every capacity, every sequence of operations of any length, every choice of constructors that throw", "why_tests_cant": "No test of immovable_vector has constructors that throw, and the points where one may throw are unbounded.", "anchors": ["include/cpp-sort/detail/immovable_vector.h:33-158", "include/cpp-sort/detail/memory.h:31-61"]}
{"id": "C94", "title": "small_array_adapter takes the arrays that the fixed-size sorter handles, and sorts them", "statement": "The adapter calls the fixed-size sorter exactly for the sizes documented for it, any other size is a soft error so that a hybrid_adapter uses its other sorter, the call sorts the array, is_stable is true exactly for the networks of 0 to 3 inputs and these are stable; schwartz_adapter around it takes the same arrays, with the same guarantees and one call of the projection for each element.", "quantifier": "the five fixed-size sorters, every index sequence or none, every size, every array, strict weak order and projection", "why_tests_cant": "Each size is a separate instantiation; the tests use small_array_adapter with a few sizes and never with one outside of the domain of a sorter of the library.", "anchors": ["include/cpp-sort/adapters/small_array_adapter.h:24-132", "include/cpp-sort/detail/schwartz_small_array.h:20-84", "include/cpp-sort/fixed/sorting_network_sorter.h:54-84", "include/cpp-sort/fixed/odd_even_merge_network_sorter.h:118-140", "docs/Fixed-size-sorters.md:140-163", "docs/Sorter-adapters.md:221-253"]}
{"id": "C95", "title": "The adapters of function objects accept every callable and return one that can be called", "statement": "as_projection exposes exactly the unary overload and as_comparison exactly the binary one; flip exchanges the arguments, not_fn negates the result with one argument and with two, make_projection_compare compares the projected values; the results are transparent exactly when their parts are; and they can be called directly, as the standard algorithms do, even when made of pointers to members.", "quantifier": "every object with unary, binary or both overloads, every pointer to member, every nesting of the adapters, all arguments", "why_tests_cant": "The adapters have specializations for each other, and the nestings are unbounded; the tests use a few of them, none of a pointer to member nested twice.", "anchors": ["include/cpp-sort/utility/functional.h:181-333", "include/cpp-sort/utility/as_function.h:30-60", "include/cpp-sort/comparators/flip.h:28-186", "include/cpp-sort/comparators/not_fn.h:27-181", "include/cpp-sort/comparators/projection_compare.h:23-185", "include/cpp-sort/detail/raw_checkers.h:88-118", "docs/Comparator-adapters.md:49-138", "docs/Miscellaneous-utilities.md:44-72"]}
{"id": "C96", "title": "The adapters that associate data to the elements move these as the sorter would", "statement": "stable_adapter and schwartz_adapter, nested in any way, compile with every sorter that uses iter_move, iter_swap and assignments; the same elements are moved from, assigned to and swapped in the same order as without the adapters, with the dedicated iter_move and iter_swap of the iterators of the collection; and the exceptions of the elements leave the sorter.", "quantifier": "every sequence of operations of a sorter, every nesting of the adapters, every kind of iterator, every operation on the elements that throws", "why_tests_cant": "the only nested case in tests/adapters/mixed_adapters.cpp uses selection_sorter, which only swaps; no test has an iterator with a dedicated iter_move and a proxy reference in these adapters, or elements that throw there.", "anchors": ["include/cpp-sort/detail/associate_iterator.h:42-154", "include/cpp-sort/detail/associate_iterator.h:335-353", "include/cpp-sort/adapters/stable_adapter.h:80-110", "include/cpp-sort/adapters/schwartz_adapter.h:57-95", "docs/Library-nomenclature.md:41"]}
