#!/usr/bin/env python3
"""Write ASSUMPTIONS.md: what Print Assumptions lists for each theorem of MANIFEST.json.
Run after the build, from /verif."""
import json, re, subprocess, tempfile, os, collections
root = os.path.dirname(os.path.dirname(os.path.abspath(__file__)))
th = os.path.join(root, 'rocq', 'theories')
files = sorted(f[:-2] for f in os.listdir(th) if f.startswith('Prop_') and f.endswith('.v'))
out = ['# Assumptions of the property theorems', '',
       'Generated by `tools/assumptions.py` from `Print Assumptions`.', '']
sets = collections.OrderedDict()
rows = []
for f in files:
    src = open(os.path.join(th, f + '.v')).read()
    names = re.findall(r'^\s*(?:Theorem|Corollary)\s+(C\d+\w*)', src, re.M)
    if not names: continue
    with tempfile.TemporaryDirectory() as d:
        p = os.path.join(d, 'a.v')
        with open(p, 'w') as h:
            h.write('From Coq Require Import String.\nFrom Verif Require %s.\n' % f)
            for n in names:
                h.write('Goal True. idtac "@@ %s". exact I. Qed.\nPrint Assumptions %s.%s.\n' % (n, f, n))
        r = subprocess.run(['coqc', '-Q', th, 'Verif', p], capture_output=True, text=True)
        if r.returncode: raise SystemExit(f + r.stderr + r.stdout)
    for part in r.stdout.split('@@ ')[1:]:
        n, _, body = part.partition('\n')
        ax = tuple(re.findall(r'^([A-Za-z_][\w.\']*)\s*(?::|$)', body, re.M)) if 'Axioms:' in body else ()
        ax = tuple(a for a in ax if a != 'Axioms')
        k = sets.setdefault(ax, 'A%d' % len(sets) if ax else 'closed')
        rows.append((f, n.strip(), k))
out.append('| set | axioms |'); out.append('|---|---|')
for ax, k in sets.items():
    out.append('| %s | %s |' % (k, ', '.join('`%s`' % a for a in ax) if ax else 'closed under the global context'))
out += ['', '| file | set | theorems |', '|---|---|---|']
g = collections.OrderedDict()
for f, n, k in rows: g.setdefault((f, k), []).append(n)
for (f, k), ns in g.items(): out.append('| %s | %s | %s |' % (f, k, ', '.join(ns)))
open(os.path.join(root, 'ASSUMPTIONS.md'), 'w').write('\n'.join(out) + '\n')
print(len(rows), 'theorems', len(sets), 'sets')
