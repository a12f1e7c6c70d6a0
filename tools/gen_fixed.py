#!/usr/bin/env python3
"""Writes rocq/theories/Model/FixedTables.v from the text of detail/low_comparisons/sort<N>.h,
detail/front_inserter/inserter<N>.h and detail/low_moves/sort3.h: the body of each operator(),
statement by statement, as a term of Model/Straight.v."""
import os, re
root = '/repo/include/cpp-sort/detail/'

def body(path):
    s = open(root + path).read()
    s = re.sub(r'//[^\n]*', '', s)
    i = s.index('{', s.index('-> void'))
    depth, j = 0, i
    while True:
        if s[j] == '{': depth += 1
        if s[j] == '}': depth -= 1
        if depth == 0: break
        j += 1
    return re.sub(r'\s+', ' ', s[i + 1:j]).strip()

IT = r'first(?: ?\+ ?(\d+)u)?'
def off(x): return int(x) if x else 0
TAIL = r', (?:std::move\()?compare\)?, (?:std::move\()?projection\)?\);'

class P:
    def __init__(self, s): self.s = s
    def m(self, pat):
        r = re.match(pat, self.s)
        if r: self.s = self.s[r.end():].lstrip()
        return r
    def block(self):
        assert self.m(r'\{'), self.s[:80]
        return self.stmts(True)
    def stmts(self, inner):
        out = []
        while True:
            if inner and self.m(r'\}'): return out
            if not self.s:
                assert not inner
                return out
            out += self.stmt()
    def stmt(self):
        if self.m(r'using utility::\w+;') or self.m(r'auto&& (comp|proj) = utility::as_function\(\w+\);') \
           or self.m(r'auto&& proj0 = proj\(first\[0u\]\);'): return []
        r = self.m(r'iter_swap_if\(' + IT + ', ' + IT + TAIL)
        if r: return [('SwapIf', off(r[1]), off(r[2]))]
        r = self.m(r'iter_swap\(' + IT + ', ' + IT + r'\);')
        if r: return [('Swap', off(r[1]), off(r[2]))]
        r = self.m(r'rotate_(left|right)<(\d+)u>\(' + IT + r'\);')
        if r: return [('RotL' if r[1] == 'left' else 'RotR', int(r[2]), off(r[3]))]
        r = self.m(r'low_comparisons_sorter<(\d+)u>\{\}\(' + IT + ', ' + IT + TAIL)
        if r:
            assert off(r[2]) + int(r[1]) == off(r[3])
            return [('Sort', int(r[1]), off(r[2]))]
        r = self.m(r'front_insert<(\d+)u>\(std::move\(first\), std::move\(compare\), std::move\(projection\)\);')
        if r: return [('Insert', int(r[1]), 0)]
        r = self.m(r'auto tmp = iter_move\(' + IT + r'\);')
        if r:
            l = [off(r[1])]
            while True:
                r = self.m(r'first\[(\d+)u\] = iter_move\(' + IT + r'\);')
                if r:
                    assert int(r[1]) == l[-1]; l.append(off(r[2])); continue
                r = self.m(r'first\[(\d+)u\] = std::move\(tmp\);')
                assert r and int(r[1]) == l[-1], self.s[:80]
                return [('Cycle', l)]
        if self.m(r'return;'): return [('Return',)]
        r = self.m(r'bool c_is_small = true;')
        if r: return [('SetFlag', True)]
        r = self.m(r'c_is_small = false;')
        if r: return [('SetFlag', False)]
        if self.m(r'if \(c_is_small\)'): return [('IfFlag', self.block())]
        r = self.m(r'if \(comp\(proj\(first\[(\d+)u\]\), *(?:proj\(first\[(\d+)u\]\)|(proj0))\) ?\) ?')
        if r:
            t = self.block(); e = []
            if self.m(r'else'): e = self.block()
            return [('If', int(r[1]), 0 if r[3] else int(r[2]), t, e)]
        if self.s[0] == '{': return self.block()
        raise Exception(self.s[:100])

def term(l, ind):
    if not l: return 'End'
    x, k = l[0], l[1:]
    sp = ' ' * ind
    if x[0] == 'Return':
        assert not k; return 'Return'
    if x[0] == 'If':
        return 'If %d %d\n%s  (%s)\n%s  (%s)\n%s(%s)' % (x[1], x[2], sp, term(x[3], ind + 3), sp, term(x[4], ind + 3), sp, term(k, ind + 1))
    if x[0] == 'IfFlag':
        return 'IfFlag\n%s  (%s)\n%s(%s)' % (sp, term(x[1], ind + 3), sp, term(k, ind + 1))
    if x[0] == 'Cycle': h = 'Cycle [%s]' % '; '.join(map(str, x[1]))
    elif x[0] == 'SetFlag': h = 'SetFlag %s' % str(x[1]).lower()
    else: h = '%s %d %d' % x
    return '%s (\n%s%s)' % (h, sp, term(k, ind))

out = ["(** The bodies of the fixed-size sorters, copied statement by statement from the source by",
       "    tools/gen_fixed.py. *)",
       "From Coq Require Import List.", "From Verif Require Import Model.Straight.", "Import ListNotations.", ""]
def emit(name, path, l):
    out.append("(** detail/%s, operator(). *)" % path)
    out.append("Definition %s : code :=\n  %s.\n" % (name, term(l, 2)))
calls = {}
for n in range(2, 14):
    path = 'low_comparisons/sort%d.h' % n
    l = P(body(path)).stmts(False)
    if l[0][0] == 'Sort':
        sub, l = l[0], l[1:]
        if l == [('Insert', n, 0)]: calls[n] = (sub, 'insert')
        else:
            calls[n] = (sub, 'code'); emit('low_comparisons%d' % n, path, l)
    else:
        calls[n] = (None, 'code'); emit('low_comparisons%d' % n, path, l)
for n in range(2, 12):
    path = 'front_inserter/inserter%d.h' % n
    emit('front_inserter%d' % n, path, P(body(path)).stmts(False))
emit('low_moves3', 'low_moves/sort3.h', P(body('low_moves/sort3.h')).stmts(False))
for n in calls: print(n, calls[n])
open(os.path.join(os.path.dirname(os.path.abspath(__file__)), '../rocq/theories/Model/FixedTables.v'), 'w').write('\n'.join(out))
