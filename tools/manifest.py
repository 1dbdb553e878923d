#!/usr/bin/env python3
# Regenerates MANIFEST.json: statuses and notes are given here, theorem names are checked against the sources.
import json,re,glob,sys
T={}
for f in sorted(glob.glob('/verif/rocq/theories/Props*.v')):
    for m in re.finditer(r'^(?:Theorem|Lemma|Corollary)\s+(C\d\d+_\w+)',open(f).read(),re.M):
        T.setdefault(m.group(1)[:m.group(1).index('_')],[]).append(m.group(1))
exec(open('/verif/tools/claims.py').read())
ids=[json.loads(l)['id'] for l in open('/verif/properties.jsonl')]
out=[]
for i in ids:
    st,note=CL.get(i,('partial','not yet proved')) if i in T or i in CL else ('partial','modelling planned, no theorem yet')
    out.append(dict(property=i,status=st,theorems=T.get(i,[]),note=note))
    if not T.get(i) and st!='not_applicable': print('no theorem',i)
    if i in T and i not in CL: print('no claim entry',i)
json.dump({"claims":out},open('/verif/MANIFEST.json','w'),indent=1)
