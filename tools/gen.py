#!/usr/bin/env python3
"""Regenerate rocq/_CoqProject (file list) and MANIFEST.json from the sources.

Theorems are the ones named Cxx_... in rocq/theories/*_Props.v; status and note come from tools/status.json.
"""
import json, os, re, glob
root = os.path.dirname(os.path.dirname(os.path.abspath(__file__)))
th = os.path.join(root, 'rocq', 'theories')
files = sorted(os.path.basename(f) for f in glob.glob(th + '/*.v'))
with open(os.path.join(root, 'rocq', '_CoqProject'), 'w') as f:
    f.write('-Q theories Verif\n')
    for x in files:
        f.write('theories/%s\n' % x)
thms = {}
for x in files:
    if x.endswith('_Props.v'):
        for m in re.finditer(r'^Theorem ((C\d\d)_\w+)', open(os.path.join(th, x)).read(), re.M):
            thms.setdefault(m.group(2), []).append(m.group(1))
status = json.load(open(os.path.join(root, 'tools', 'status.json')))
props = [json.loads(l)['id'] for l in open(os.path.join(root, 'properties.jsonl')) if l.strip()]
claims = []
for p in props:
    t = thms.get(p, [])
    if not t:
        continue
    st = status.get(p, {})
    claims.append({'property': p, 'status': st.get('status', 'partial' if any(n.endswith('_partial') or n.endswith('_refuted') for n in t) else 'proved'),
                   'theorems': t, 'note': st.get('note', '')})
json.dump({'claims': claims}, open(os.path.join(root, 'MANIFEST.json'), 'w'), indent=1)
print(len(claims), 'claims', sum(len(c['theorems']) for c in claims), 'theorems; missing:', [p for p in props if p not in thms])
