#!/usr/bin/env python3
"""Mutation testing of the theorems.  usage: mutate.py mutations.json
Each mutation: {"file": "X.v", "definition": "...", "old": "...", "new": "...", "edit": "...", "claim": "..."}.
In a scratch copy outside /verif the model file is edited and rebuilt; every proof that no longer checks is replaced by
Admitted (in the scratch copy only) so that the build goes on, and Print Assumptions then tells which property theorems
are lost.  One JSON line per mutation is appended to seeded/LOG.jsonl."""
import json, os, re, shutil, subprocess, sys, threading
from concurrent.futures import ThreadPoolExecutor
ROOT = os.environ.get('MUT_ROOT', '/verif/rocq')
EARLY = os.environ.get('EARLY')  # stop at the first property theorem lost
KW = re.compile(r'^[ \t]*(?:Local\s+|Global\s+)?(Lemma|Theorem|Example|Corollary|Remark|Fact)\s+([\w\']+)', re.M)

LOCK = threading.Lock()

def deps_order():
    out = subprocess.run(['coqdep', '-Q', 'theories', 'Verif'] + ['theories/' + f for f in sorted(os.listdir(ROOT + '/theories')) if f.endswith('.v')],
                         cwd=ROOT, capture_output=True, text=True).stdout
    d = {}
    for line in out.splitlines():
        if ':' not in line or '.vo ' not in line.split(':')[0] + ' ': continue
        l, r = line.split(':', 1)
        t = [x for x in l.split() if x.endswith('.vo')]
        if not t: continue
        name = os.path.basename(t[0]).replace('.vo', '.v')
        d[name] = [os.path.basename(x).replace('.vo', '.v') for x in r.split() if x.endswith('.vo')]
    return d

def topo(d, start):
    aff = {start}
    ch = True
    while ch:
        ch = False
        for k, v in d.items():
            if k not in aff and any(x in aff for x in v): aff.add(k); ch = True
    order, seen = [], set()
    def go(x):
        if x in seen: return
        seen.add(x)
        for y in d.get(x, []):
            if y in aff: go(y)
        order.append(x)
    # properties with the fewest affected files first, so that EARLY stops soon
    def cost(x):
        r, st = set(), [x]
        while st:
            y = st.pop()
            if y in r: continue
            r.add(y); st += [z for z in d.get(y, []) if z in aff]
        return len(r)
    for x in sorted([x for x in aff if 'Properties' in x], key=lambda x: (cost(x), x)): go(x)
    for x in sorted(aff): go(x)
    return order

def admit_at(src, line):
    lines = src.split('\n')
    pos = sum(len(l) + 1 for l in lines[:line - 1])
    ms = [m for m in KW.finditer(src) if m.start() <= pos + len(lines[line - 1])]
    if not ms: return None, None
    m = ms[-1]
    p = src.find('Proof.', m.start()); q = re.search(r'\b(Qed|Defined)\.', src[m.start():])
    if p < 0 or not q: return None, m.group(2)
    q = m.start() + q.end()
    if p > q or pos + len(lines[line-1]) < p: return None, m.group(2)
    body = src[p:q]
    return src[:p] + 'Proof. Admitted.' + '\n' * body.count('\n') + src[q:], m.group(2)

def run(mu, idx, deps):
    w = '/tmp/mut%d' % idx
    shutil.rmtree(w, ignore_errors=True)
    shutil.copytree(ROOT, w, copy_function=shutil.copy2)
    f = w + '/theories/' + mu['file']
    s = open(f).read()
    if s.count(mu['old']) < 1: return dict(mu, result='old text not found')
    n = mu.get('nth', 0)
    i = -1
    for _ in range(n + 1): i = s.index(mu['old'], i + 1)
    open(f, 'w').write(s[:i] + mu['new'] + s[i + len(mu['old']):])
    failed, broken, lost = [], [], []
    bad = set()
    for v in topo(deps, mu['file']):
        if EARLY and lost: break
        if EARLY and mu['file'] in bad: break
        if any(x in bad for x in deps.get(v, [])):
            bad.add(v); broken.append(v + ' (not built)'); continue
        while True:
            r = subprocess.run(['timeout', '300', 'coqc', '-Q', 'theories', 'Verif', 'theories/' + v], cwd=w, capture_output=True, text=True)
            if r.returncode == 0: break
            if EARLY and v == mu['file']:
                broken.append(v + ': ' + r.stderr[-200:]); bad.add(v); break
            m = re.search(r'line (\d+), characters', r.stderr)
            # last File line is the error
            ms = re.findall(r'File "[^"]*", line (\d+), characters [^\n]*\nError', r.stderr)
            if not ms and not m: broken.append(v + ': ' + r.stderr[:200]); bad.add(v); break
            ln = int(ms[-1] if ms else m.group(1))
            src = open(w + '/theories/' + v).read()
            new, name = admit_at(src, ln)
            if new is None:
                broken.append('%s:%d %s' % (v, ln, r.stderr[-200:])); bad.add(v); break
            failed.append(name)
            open(w + '/theories/' + v, 'w').write(new)
        if v in bad: continue
        if 'Properties' in v:
            src = open(w + '/theories/' + v).read()
            names = re.findall(r'^Print Assumptions ([\w\']+)\.', src, re.M)
            blocks = re.split(r'(?m)^(?=Axioms:|Closed under)', r.stdout)[1:]
            for nme, b in zip(names, blocks):
                if any(re.search(r'(?m)^(?:[\w.]+\.)?%s\b' % re.escape(x), b) for x in set(failed)): lost.append(nme)
    shutil.rmtree(w, ignore_errors=True)
    exs = [x for x in failed if re.match(r'C\d\d_', x)]
    return {'definition': mu['file'] + ': ' + mu['definition'], 'edit': mu.get('edit', mu['old'] + '  ==>  ' + mu['new']),
            'claim': mu['claim'], 'failed': sorted(set(lost + exs)), 'failed_lemmas': sorted(set(failed)), 'broken_files': broken,
            'tightened': mu.get('tightened', []), 'caught': bool(lost or exs or broken or failed)}

if __name__ == '__main__':
    mus = json.load(open(sys.argv[1]))
    deps = deps_order()
    with ThreadPoolExecutor(4) as ex:
        def one(t):
            r = run(t[1], t[0], deps)
            with LOCK:
                with open('/tmp/mut_progress.jsonl', 'a') as fh: fh.write(json.dumps(r) + '\n')
            return r
        res = list(ex.map(one, enumerate(mus)))
    for r in res:
        print(json.dumps({k: r.get(k) for k in ('definition', 'edit', 'failed', 'failed_lemmas', 'broken_files', 'result')}, indent=0)[:1200])
    out = '/tmp/mut_results.jsonl'
    with open(out, 'w') as fh:
        for r in res: fh.write(json.dumps(r) + '\n')
    print('caught', sum(1 for r in res if r.get('caught')), 'of', len(res))
