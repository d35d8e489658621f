#!/usr/bin/env python3
"""DESIGN.md = tools/design_head.md + one row per property."""
import json, os, re, glob
os.chdir(os.path.join(os.path.dirname(os.path.abspath(__file__)), '..'))
props = [json.loads(l) for l in open('properties.jsonl')]
man = {c['property']: c for c in json.load(open('MANIFEST.json'))['claims']}
where = {}
for f in glob.glob('rocq/theories/*Properties*.v'):
    for n in re.findall(r'^Theorem (C\d\d\w*)', open(f).read(), re.M): where[n] = os.path.basename(f)
method = json.load(open('tools/method.json'))
o = ['| Id | Property | Files | Method | Scope and findings |', '|----|----------|-------|--------|--------------------|']
for p in props:
    c = man.get(p['id'], {'status': '-', 'theorems': [], 'note': ''})
    fs = sorted({where[t].replace('Properties', '').replace('.v', '') for t in c['theorems'] if t in where})
    o.append('| %s | %s | %s | %s | %s (%d theorems, %s) |' % (p['id'], p['title'], ', '.join(fs), method.get(p['id'], ''), c['note'].replace('|', '/'), len(c['theorems']), c['status']))
open('DESIGN.md', 'w').write(open('tools/design_head.md').read() + '\n'.join(o) + '\n')
