#!/usr/bin/env python3
"""Write MANIFEST.json from the theorem names in Properties*.v and tools/notes.json.
A property is `proved` when none of its theorems is named _partial/_refuted
(unless notes.json overrides the status)."""
import json, re, glob
names = {}
for f in sorted(glob.glob('rocq/theories/Properties*.v')):
    for n in re.findall(r'^Theorem (C\d\d\w*)', open(f).read(), re.M):
        names.setdefault(n[:3], []).append(n)
notes = json.load(open('tools/notes.json'))
claims = []
for line in open('properties.jsonl'):
    p = json.loads(line)['id']
    if p not in names:
        print('no theorems yet:', p)
        continue
    th = names[p]
    n = notes.get(p, {})
    weak = any(t.endswith('_partial') or '_refuted' in t for t in th)
    claims.append({'property': p, 'status': n.get('status', 'partial' if weak else 'proved'),
                   'theorems': th, 'note': n.get('note', '')})
json.dump({'claims': claims}, open('MANIFEST.json', 'w'), indent=1)
print(len(claims), 'claims', sum(len(c['theorems']) for c in claims), 'theorems')
