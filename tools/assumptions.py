#!/usr/bin/env python3
"""Writes ASSUMPTIONS.md: what Print Assumptions says for every theorem of MANIFEST.json (needs a built tree)."""
import json, os, re, subprocess
V = os.path.dirname(os.path.dirname(os.path.abspath(__file__)))
claims = json.load(open(V + '/MANIFEST.json'))['claims']
names = sorted({t for c in claims for t in c['theorems']})
where = {}
mods = []
for l in open(V + '/rocq/_CoqProject'):
    l = l.strip()
    if l.endswith('.v'):
        m = os.path.basename(l)[:-2]; mods.append(m)
        for t in re.findall(r'^\s*(?:Theorem|Lemma|Corollary)\s+([A-Za-z0-9_\']+)', open(V + '/rocq/' + l).read(), re.M):
            where.setdefault(t, m)
src = ''.join('Require Verif.%s.\n' % m for m in mods)
for n in names: src += 'Print Assumptions Verif.%s.%s.\n' % (where[n], n)
p = subprocess.run(['coqtop', '-q', '-Q', V + '/rocq/theories', 'Verif'], input=src, capture_output=True, text=True)
out = p.stdout
blocks = re.split(r'(?=Closed under the global context|Axioms:)', out)[1:]
assert len(blocks) == len(names), (len(blocks), len(names))
rows = []
for n, b in zip(names, blocks):
    if b.startswith('Closed'): rows.append((n, where[n], 'none'))
    else:
        ax = re.findall(r'^([A-Za-z_.]+)\s*\n?\s*:', b, re.M)
        ax = [a.split('.')[-1] for a in ax if a not in ('Axioms',)]
        rows.append((n, where[n], ', '.join(sorted(set(ax)))))
with open(V + '/ASSUMPTIONS.md', 'w') as f:
    f.write('# What `Print Assumptions` lists for every theorem of MANIFEST.json\n\nGenerated by `tools/assumptions.py`. "none" means closed under the global context. The full names are\n`Coq.Reals.ClassicalDedekindReals.sig_forall_dec`, `Coq.Reals.ClassicalDedekindReals.sig_not_dec`,\n`Coq.Logic.FunctionalExtensionality.functional_extensionality_dep` and `Coq.Logic.Classical_Prop.classic`: axioms of the\nstandard library. Every other axiom `vcheck` counts belongs to libraries that are loaded and is used by no theorem.\n\n| theorem | file | axioms |\n|---|---|---|\n')
    for r in rows: f.write('| %s | %s.v | %s |\n' % r)
from collections import Counter
print(Counter(r[2] for r in rows))
