#!/usr/bin/env python3
"""Writes MANIFEST.json: collects the theorems named C<nn>_* from the Props*.v files."""
import json, re, glob, os
root = os.path.dirname(os.path.dirname(os.path.abspath(__file__)))
names = {}
for f in sorted(glob.glob(root + '/rocq/theories/Props*.v')):
    for m in re.finditer(r'^\s*(?:Theorem|Corollary|Lemma) (C(\d\d)_\w+)', open(f).read(), re.M):
        if not m[1].endswith('_aux'):
            names.setdefault('C' + m[2], []).append(m[1])
notes = json.load(open(root + '/tools/notes.json'))
claims = []
for p in map(json.loads, open(root + '/properties.jsonl')):
    i = p['id']
    st, note = notes.get(i, (None, ''))
    if st is None:
        continue
    claims.append({'property': i, 'status': st, 'theorems': names.get(i, []), 'note': note})
json.dump({'claims': claims}, open(root + '/MANIFEST.json', 'w'), indent=1)
for c in claims:
    print(c['property'], c['status'], len(c['theorems']))
missing = [p['id'] for p in map(json.loads, open(root + '/properties.jsonl')) if p['id'] not in notes]
print('no entry:', missing)
