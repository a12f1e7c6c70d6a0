#!/usr/bin/env python3
"""Apply each edit of a list to a scratch copy of the development, rebuild, and log what fails.

usage: mutate.py edits.json   (list of {"file","definition","old","new","claim"})
The scratch copy is /tmp/mut; one JSON line per edit is appended to /verif/seeded/LOG.jsonl."""
import json, os, re, subprocess, sys, shutil
SRC = os.environ.get('MUTSRC', '/verif/rocq')
def thms(path):
    return re.findall(r'^Theorem (C\d+_\w+)', open(path).read(), re.M)
def name_at(path, line):
    lines = open(path).read().split('\n')[:line]
    for l in reversed(lines):
        m = re.match(r'\s*(?:Lemma|Theorem|Example|Definition|Fixpoint|Corollary|Instance|Let)\s+(\w+)', l)
        if m: return m.group(1)
    return '?'
for e in json.load(open(sys.argv[1])):
    W = os.environ.get('MUTDIR', '/tmp/mut')
    subprocess.run(['rsync', '-a', '--delete', SRC + '/', W + '/'], check=True) if shutil.which('rsync') else \
        subprocess.run(f'rm -rf {W} && cp -a {SRC} {W}', shell=True, check=True)
    subprocess.run('coq_makefile -f _CoqProject -o Makefile', shell=True, cwd=W, check=True, capture_output=True)
    p = f"{W}/theories/{e['file']}"
    s = open(p).read()
    if s.count(e['old']) != 1:
        print('SKIP', s.count(e['old']), e['definition'], e['old'][:60]); continue
    open(p, 'w').write(s.replace(e['old'], e['new']))
    ids = set(re.findall(r'C\d\d', e.get('ids', '')))
    targets = [f'theories/Props/{f}o' for f in sorted(os.listdir(W + '/theories/Props')) if f.endswith('.v')
               and any(t[:3] in ids for t in thms(f'{W}/theories/Props/{f}'))] if ids else []
    r = subprocess.run(f"timeout 1500 make -k -j2 {' '.join(targets)}", shell=True, cwd=W, capture_output=True, text=True)
    out = r.stdout + r.stderr
    failed = []
    if r.returncode == 124:   # a proof that no longer ends: the file that make was building
        failed = [f"{m[:-3].replace('/', '.')}.timeout" for m in re.findall(r"Deleting file 'theories/([^']+\.vo)'", out)] or ['timeout']
    for m in re.finditer(r'File "\./theories/([^"]+)", line (\d+), characters [^\n]*\n(?:Error|[^\n]*\nError)', out):
        f, l = m.group(1), int(m.group(2))
        failed.append(f"{f[:-2].replace('/', '.')}.{name_at(W + '/theories/' + f, l)}")
    res = {"definition": e['definition'], "file": e['file'], "edit": e['old'] + '  ==>  ' + e['new'],
           "claim": e['claim'], "first_failures": failed, "failed": [], "tightened": e.get('tightened', [])}
    # files of Props that depend, directly or not, on a file that failed
    dep = {}
    for line in open(W + '/.Makefile.d'):
        m = re.match(r'theories/(\S+)\.vo .*?: (.*)', line)
        if m: dep[m.group(1)] = [d[9:-3] for d in m.group(2).split() if d.startswith('theories/') and d.endswith('.vo')]
    bad = {x.rsplit('.', 1)[0].replace('.', '/') for x in failed}
    changed = True
    while changed:
        changed = False
        for k, v in dep.items():
            if k not in bad and any(d in bad for d in v): bad.add(k); changed = True
    for k in sorted(bad):
        if k.startswith('Props/'):
            res['failed'] += [t for t in thms(f'{W}/theories/{k}.v') if not ids or t[:3] in ids]
    print(('KILLED ' if failed else 'SURVIVED ') + e['definition'], failed, len(res['failed']), flush=True)
    if os.environ.get('NOLOG') is None:
        open('/verif/seeded/LOG.jsonl', 'a').write(json.dumps(res) + '\n')
