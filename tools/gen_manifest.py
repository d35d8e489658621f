#!/usr/bin/env python3
"""Writes MANIFEST.json.  For every property the theorems are found by their name prefix in the *Properties.v
files; status and note are below."""
import json, re, glob, os
here = os.path.dirname(os.path.abspath(__file__))
root = os.path.join(here, '..')
ids = [json.loads(l)['id'] for l in open(os.path.join(root, 'properties.jsonl'))]
thms = {}
for f in sorted(glob.glob(os.path.join(root, 'rocq/theories/*Properties*.v'))):
    for m in re.finditer(r'^Theorem\s+((C\d\d+)_\w+)', open(f).read(), re.M):
        thms.setdefault(m.group(2), []).append(m.group(1))
status = json.load(open(os.path.join(here, 'status.json')))
claims = []
for i in ids:
    t = thms.get(i, [])
    if not t and i not in status: continue
    st, note = status.get(i, ['partial', ''])
    if i not in status: print('no status for', i)
    claims.append({"property": i, "status": st, "theorems": t, "note": note})
json.dump({"claims": claims}, open(os.path.join(root, 'MANIFEST.json'), 'w'), indent=1)
print(len(claims), 'claims', sum(len(c['theorems']) for c in claims), 'theorems; missing', [i for i in ids if i not in thms])
