#!/usr/bin/env python3
"""Extract the comparators of detail/sorting_network/sort<N>.h.

For each N, returns (N, swaps, pairs): the arguments of the iter_swap_if calls in
order, and the pairs published by index_pairs()."""
import re, sys

DIR = '/repo/include/cpp-sort/detail/sorting_network'

def extract(n):
    src = open(f'{DIR}/sort{n}.h').read()
    body, tail = src.split('index_pairs()', 1)
    ix = lambda s: 0 if s is None else int(s)
    swaps = [(ix(a), ix(b)) for a, b in re.findall(
        r'iter_swap_if\(\s*first(?:\s*\+\s*(\d+)u?)?\s*,\s*first(?:\s*\+\s*(\d+)u?)?\s*,\s*compare\s*,\s*projection\s*\)',
        body.replace('(first,', '(first + 0,').replace('first)', 'first + 0)'))]
    assert len(swaps) == body.count('iter_swap_if('), n
    size = int(re.search(r'index_pair<DifferenceType>,\s*(\d+)>', tail).group(1))
    pairs = [(int(a), int(b)) for a, b in re.findall(r'\{\s*(\d+)\s*,\s*(\d+)\s*\}', tail)]
    assert size == len(pairs), (n, size, len(pairs))
    return n, swaps, pairs

if __name__ == '__main__':
    for n in range(2, 65):
        n, s, p = extract(n)
        print(n, len(s), len(p), 'same' if s == p else 'DIFFERENT')
