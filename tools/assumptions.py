#!/usr/bin/env python3
"""Writes ASSUMPTIONS.md: what Print Assumptions lists for every theorem of the manifest (needs a finished build)."""
import glob, json, os, re, subprocess, sys
root = os.path.dirname(os.path.dirname(os.path.abspath(__file__)))
th = os.path.join(root, 'rocq', 'theories')
claims = json.load(open(os.path.join(root, 'MANIFEST.json')))['claims']
where = {}
for f in glob.glob(os.path.join(th, 'Prop_*.v')):
    for n in re.findall(r'^(?:Theorem|Example)\s+(C\d+_\w+)', open(f).read(), re.M):
        where[n] = os.path.basename(f)[:-2]
names = [t for c in claims for t in c['theorems']]
bymod = {}
for n in names:
    bymod.setdefault(where[n], []).append(n)
res = {}
for m, ns in sorted(bymod.items()):
    src = 'From Verif Require %s.\n' % m + ''.join('Print Assumptions %s.%s.\n' % (m, n) for n in ns)
    p = '/tmp/assum.v'
    open(p, 'w').write(src)
    out = subprocess.run(['coqc', '-Q', th, 'Verif', p], capture_output=True, text=True)
    if out.returncode: sys.exit(m + out.stderr)
    parts, cur = [], None
    for l in out.stdout.splitlines():
        if l.startswith('Closed under'): parts.append([]); cur = None
        elif l.startswith('Axioms:'): cur = []; parts.append(cur)
        elif cur is not None and l and not l[0].isspace(): cur.append(l.split(' ')[0].rstrip(':'))
    assert len(parts) == len(ns), (m, len(parts), len(ns))
    res.update(zip(ns, parts))
closed = [n for n in names if not res[n]]
with open(os.path.join(root, 'ASSUMPTIONS.md'), 'w') as o:
    o.write('# What `Print Assumptions` lists\n\nWritten by `tools/assumptions.py` from the compiled theories. %d theorems; %d are closed under the global context.\n\n' % (len(names), len(closed)))
    o.write('## Theorems that rest on axioms (all of them axioms of the standard library\'s classical reals)\n\n')
    for n in names:
        if res[n]: o.write('* `%s`: %s\n' % (n, ', '.join('`%s`' % a for a in res[n])))
    o.write('\n## Theorems closed under the global context\n\n')
    for c in claims:
        l = [t for t in c['theorems'] if not res[t]]
        if l: o.write('* %s: %s\n' % (c['property'], ', '.join('`%s`' % t for t in l)))
