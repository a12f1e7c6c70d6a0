#!/usr/bin/env python3
"""Writes rocq/theories/Proofs/NetPlans*.v: certificates for the checker of Proofs/NetCheck.v, from
the plans in tools/plans (found by tools/plan_search.cpp; the search is untrusted)."""
import os
here = os.path.dirname(os.path.abspath(__file__))

def emit(n):
    L = open(f'{here}/plans/plan{n}').read().split('\n'); o = int(L[0]); L = [l for l in L[1:] if l]
    reps = [l for l in L if l[0] == 'R']
    sizes = [len(l.split(' P ')[1].split()) for l in reps]
    bases = [0] * len(reps)
    if o == 0:
        initbase = 1; b = n + 3
        for i in range(len(reps)): bases[i] = b; b += sizes[i]
    else:
        b = 1
        for i in range(len(reps) - 1, -1, -1): bases[i] = b; b += sizes[i]
        initbase = b + 1
    out = []; ri = 0
    for l in L:
        if l[0] == 'C':
            _, a, b = l.split(); out.append(f'Cmp {a} {b}')
        else:
            body = l.split(' W ')[1]; W, rest = body.split(' E'); E, P = rest.split(' P ')
            W = W.split(); E = E.split(); P = P.split()
            ed = '; '.join(f'({E[i]},{E[i+1]})' for i in range(0, len(E), 2))
            out.append(f"Rep [{'; '.join(W)}] [{ed}] [{'; '.join(P)}] {bases[ri]}"); ri += 1
    return initbase, out

def wrap(s):
    lines, cur = [], ''
    for tok in s.split(' '):
        if len(cur) + len(tok) > 100: lines.append(cur.rstrip()); cur = '   '
        cur += tok + ' '
    lines.append(cur.rstrip()); return '\n'.join(lines)

def write(name, sizes):
    o = ["(** Certificates found by tools/plan_search.cpp, written by tools/gen_plans.py, checked by",
         "    Proofs/NetCheck.v. *)",
         "From Coq Require Import List NArith.",
         "From Verif Require Import Proofs.NetLib Proofs.NetCheck Model.NetworkTables.",
         "Import ListNotations.", "Local Open Scope N_scope.", ""]
    for n in sizes:
        ib, out = emit(n)
        o.append(f"Definition plan{n} : list op :=\n  " + wrap('[' + '; '.join(out) + ']') + ".")
        o.append(f"Lemma check{n} : check {n}%nat {ib} swaps{n} plan{n} = true.\nProof. vm_cast_no_check (eq_refl true). Qed.")
        o.append(f"Lemma sorts{n} : sorts01 {n}%nat (map pn swaps{n}).\nProof. eapply check_sound; [vm_compute; reflexivity|exact check{n}]. Qed.\n")
    open(f'{here}/../rocq/theories/Proofs/{name}.v', 'w').write('\n'.join(o))

if __name__ == '__main__':
    write('NetPlansA', list(range(2, 33)))
    write('NetPlansB', [33, 34, 35] + list(range(45, 52)))
    write('NetPlansC', list(range(53, 64)))
