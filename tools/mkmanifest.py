#!/usr/bin/env python3
"""Writes MANIFEST.json from the table below; checks theorem names exist."""
import json, re, glob
C = {}
def c(pid, status, theorems, note=""):
    C[pid] = dict(property=pid, status=status, theorems=theorems.split(), note=note)
exec(open('/verif/tools/claims.py').read())
src = "\n".join(open(f).read() for f in glob.glob('/verif/rocq/theories/*.v'))
names = set(re.findall(r'^(?:Theorem|Lemma|Corollary)\s+(\w+)', src, re.M))
for d in C.values():
    for t in d['theorems']:
        assert t in names, t
props = [json.loads(l)['id'] for l in open('/verif/properties.jsonl')]
missing = [p for p in props if p not in C]
print("missing:", missing)
json.dump({"claims": [C[p] for p in props if p in C]}, open('/verif/MANIFEST.json', 'w'), indent=1)
