#!/usr/bin/env python3
"""Recompile the Props files (output to a scratch directory) and list, per theorem, what Print Assumptions reports."""
import re, subprocess, sys, json, glob, os
ROOT = sys.argv[1] if len(sys.argv) > 1 else '/verif/rocq'
OUT = '/tmp/ax'
os.makedirs(OUT, exist_ok=True)
res = {}
for path in sorted(glob.glob(ROOT + '/theories/Props*.v')):
    name = os.path.basename(path)[:-2]
    r = subprocess.run(['coqc', '-Q', 'theories', 'Verif', '-o', f'{OUT}/{name}.vo', f'theories/{name}.v'], cwd=ROOT, capture_output=True, text=True)
    names = re.findall(r'Print Assumptions (\w+)\.', open(path).read())
    chunks, cur = [], None
    for line in r.stdout.splitlines():
        if line.startswith('Closed under'):
            chunks.append([]); cur = None
        elif line.startswith('Axioms:'):
            cur = []; chunks.append(cur)
        elif cur is not None and re.match(r'^[A-Za-z]', line):
            cur.append(line.split(' ')[0])
    assert r.returncode == 0 and len(names) == len(chunks), (name, r.returncode, len(names), len(chunks), r.stderr[-300:])
    for n, c in zip(names, chunks): res[n] = sorted(c)
groups = {}
for n, c in res.items(): groups.setdefault(tuple(c), []).append(n)
for c, ns in sorted(groups.items(), key=lambda x: len(x[0])):
    print(len(ns), list(c)); 
json.dump(res, open(OUT + '/assumptions.json', 'w'))
