#!/usr/bin/env python3
"""Regenerates MANIFEST.json: theorem names Cnn_* are collected from rocq/theories/Prop_*.v,
status and notes come from tools/status.json."""
import glob, json, os, re
root = os.path.dirname(os.path.dirname(os.path.abspath(__file__)))
status = json.load(open(os.path.join(root, 'tools/status.json')))
thms = {}
for f in sorted(glob.glob(os.path.join(root, 'rocq/theories/Prop_*.v'))):
    for m in re.finditer(r'^(?:Theorem|Corollary)\s+((C\d+)_\w+)', open(f).read(), re.M):
        thms.setdefault(m.group(2), []).append(m.group(1))
claims = []
for l in open(os.path.join(root, 'properties.jsonl')):
    p = json.loads(l)['id']
    if p not in thms:
        if p in status and status[p][0] == 'not_applicable':
            claims.append(dict(property=p, status='not_applicable', theorems=[], note=status[p][1]))
        continue
    st, note = status.get(p, ['partial', ''])
    claims.append(dict(property=p, status=st, theorems=thms[p], note=note))
json.dump(dict(claims=claims), open(os.path.join(root, 'MANIFEST.json'), 'w'), indent=1)
print(len(claims), 'claims', sum(c['status'] == 'proved' for c in claims), 'proved')
