#!/usr/bin/env python3
"""Writes MANIFEST.json from the theorem names in rocq/theories/Props and notes.json."""
import json, os, re
root = os.path.dirname(os.path.dirname(os.path.abspath(__file__)))
props = os.path.join(root, 'rocq/theories/Props')
thms = {}
for f in sorted(os.listdir(props)):
    if f.endswith('.v'):
        for m in re.finditer(r'^Theorem (C(\d+)\w*)', open(os.path.join(props, f)).read(), re.M):
            thms.setdefault('C' + m.group(2), []).append(m.group(1))
notes = json.load(open(os.path.join(root, 'tools/notes.json')))
claims = []
for line in open(os.path.join(root, 'properties.jsonl')):
    p = json.loads(line)['id']
    t = thms.get(p, [])
    if not t:
        st, note = 'partial', 'No theorem yet.'
    else:
        st = 'partial' if any(x.endswith('_partial') or x.endswith('_refuted') for x in t) else 'proved'
        note = ''
    n = notes.get(p, {})
    claims.append({'property': p, 'status': n.get('status', st), 'theorems': t, 'note': n.get('note', note)})
json.dump({'claims': claims}, open(os.path.join(root, 'MANIFEST.json'), 'w'), indent=1)
print(sum(c['status'] == 'proved' for c in claims), 'proved,', sum(bool(c['theorems']) for c in claims), 'with theorems')
