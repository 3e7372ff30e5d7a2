#!/usr/bin/env python3
"""Write MANIFEST.json: theorems are found by their Cnn_ prefix in rocq/theories/*Props*.v."""
import glob, json, os, re
root = os.path.join(os.path.dirname(os.path.abspath(__file__)), '..')
notes = json.load(open(os.path.join(root, 'tools', 'notes.json')))
props = [json.loads(l) for l in open(os.path.join(root, 'properties.jsonl'))]
thms = {}
for f in sorted(glob.glob(os.path.join(root, 'rocq', 'theories', '*Props*.v'))):
    for n in re.findall(r'^Theorem (C\d\d+_\w+)', open(f).read(), re.M):
        thms.setdefault(n.split('_')[0], []).append(n)
claims = []
for p in props:
    t = thms.get(p['id'], [])
    if not t:
        continue
    partial = any(n.endswith('_partial') or n.endswith('_refuted') for n in t)
    claims.append({'property': p['id'], 'status': 'partial' if partial else 'proved',
                   'theorems': t, 'note': notes.get(p['id'], '')})
    if p['id'] not in notes: print('no note for', p['id'])
json.dump({'claims': claims}, open(os.path.join(root, 'MANIFEST.json'), 'w'), indent=1)
missing = [p['id'] for p in props if p['id'] not in thms]
print(len(claims), 'claims; not yet covered:', ' '.join(missing))
