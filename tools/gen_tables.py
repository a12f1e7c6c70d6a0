#!/usr/bin/env python3
"""Writes rocq/theories/Model/NetworkTables.v from the text of detail/sorting_network/sort<N>.h."""
import sys, os
sys.path.insert(0, os.path.dirname(os.path.abspath(__file__)))
from networks import extract
out = ["(** The tables of detail/sorting_network/sort<N>.h, copied by tools/gen_tables.py from the source",
       "    text: [swaps<N>] is the sequence of iter_swap_if calls of operator() (offsets from [first]),",
       "    [pairs<N>] the array returned by index_pairs(). *)",
       "From Coq Require Import List NArith.", "Import ListNotations.", "Local Open Scope N_scope.", ""]
def lit(l):
    s = '; '.join('(%d,%d)' % p for p in l)
    lines, cur = [], ''
    for tok in s.split(' '):
        if len(cur) + len(tok) > 100: lines.append(cur.rstrip()); cur = '   '
        cur += tok + ' '
    lines.append(cur.rstrip())
    return '\n'.join(lines)
for n in range(2, 65):
    _, swaps, pairs = extract(n)
    out.append("(** detail/sorting_network/sort%d.h, operator(). *)" % n)
    out.append("Definition swaps%d : list (N * N) :=\n  [%s]." % (n, lit(swaps)))
    out.append("(** detail/sorting_network/sort%d.h, index_pairs(). *)" % n)
    out.append("Definition pairs%d : list (N * N) :=\n  [%s]." % (n, lit(pairs)))
    out.append("")
for name in ('swaps', 'pairs'):
    out.append("(** %s of sorting_network_sorter<n>; no entry for sizes 0 and 1 (empty sorter) and above 64\n    (no specialization). *)" % name)
    out.append("Definition network_%s (n : nat) : list (N * N) :=\n  match n with" % name)
    for n in range(2, 65): out.append("  | %d%%nat => %s%d" % (n, name, n))
    out.append("  | _ => []\n  end.\n")
open(os.path.join(os.path.dirname(os.path.abspath(__file__)), '../rocq/theories/Model/NetworkTables.v'), 'w').write('\n'.join(out))
