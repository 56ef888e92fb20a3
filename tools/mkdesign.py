#!/usr/bin/env python3
"""DESIGN.md = tools/design_head.md + one line per property (plan and status)."""
import json, re, glob, os
P = [json.loads(l) for l in open('/verif/properties.jsonl')]
M = {c['property']: c for c in json.load(open('/verif/MANIFEST.json'))['claims']}
where = {}
for f in glob.glob('/verif/rocq/theories/*.v'):
    for t in re.findall(r'^(?:Theorem|Lemma|Corollary)\s+(\w+)', open(f).read(), re.M): where[t] = os.path.basename(f)
H = {}
for l in open('/verif/tools/how.txt'):
    if l.strip():
        k, v = l.rstrip('\n').split(':', 1)
        for x in k.split(): H[x] = v.strip()
out = open('/verif/tools/design_head.md').read()
out += "| id | property | modelled code and proof | theorems | status |\n|---|---|---|---|---|\n"
for p in P:
    m = M.get(p['id'], {"status": "planned", "theorems": [], "note": ""})
    fs = sorted(set(where.get(t, '?') for t in m['theorems']))
    out += f"| {p['id']} | {p['title']} | {H.get(p['id'], '')} | {', '.join('`'+t+'`' for t in m['theorems'])} ({', '.join(fs)}) | {m['status']}. {m['note']} |\n".replace("| a | b |", "a \\| b")
open('/verif/DESIGN.md', 'w').write(out)
