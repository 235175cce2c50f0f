#!/usr/bin/env python3
"""Collect what Print Assumptions says for every property theorem (after a build) and write it into DESIGN.md,
between the two markers at its end."""
import os, re, glob, subprocess, sys, tempfile
root = os.path.dirname(os.path.dirname(os.path.abspath(__file__)))
th = os.path.join(root, 'rocq', 'theories')
rows = []
for f in sorted(glob.glob(th + '/*_Props.v')):
    src = open(f).read()
    names = re.findall(r'^Print Assumptions (\S+)\.', src, re.M)
    thms = re.findall(r"^Theorem (C\d\d_[\w']+)", src, re.M)
    for t in thms:
        if t not in names:
            sys.exit('no Print Assumptions for ' + t)
    with tempfile.TemporaryDirectory() as d:
        out = subprocess.run(['coqc', '-w', 'none', '-Q', th, 'Verif', '-o', os.path.join(d, os.path.basename(f) + 'o'), f],
                             capture_output=True, text=True, check=True).stdout
    parts = re.findall(r'Closed under the global context|Axioms:\n(?:.+\n?)+?(?=Closed|Axioms|\Z)', out)
    if len(parts) != len(names):
        sys.exit('%s: %d answers for %d commands' % (f, len(parts), len(names)))
    for nme, p in zip(names, parts):
        ax = 'none' if p.startswith('Closed') else ', '.join('`%s`' % a for a in re.findall(r'^(\S+)\s*:', p, re.M) if a != 'Axioms')
        rows.append((nme, os.path.basename(f), ax))
rows.sort()
text = ['| theorem | file | axioms |', '|---|---|---|'] + ['| `%s` | `%s` | %s |' % r for r in rows]
doc = open(os.path.join(root, 'DESIGN.md')).read()
a, b = '<!-- assumptions -->', '<!-- end of assumptions -->'
i, j = doc.index(a), doc.index(b)
open(os.path.join(root, 'DESIGN.md'), 'w').write(doc[:i] + a + '\n' + '\n'.join(text) + '\n' + doc[j:])
print(len(rows), 'theorems;', sorted({r[2] for r in rows}))
