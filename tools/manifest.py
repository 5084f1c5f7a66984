#!/usr/bin/env python3
"""Write MANIFEST.json: theorems are those in P_*.v whose name starts with a property id, statuses
and notes come from notes.json."""
import glob, json, os, re
root = os.path.dirname(os.path.dirname(os.path.abspath(__file__)))
notes = json.load(open(os.path.join(root, 'tools', 'notes.json')))
ids = [json.loads(l)['id'] for l in open(os.path.join(root, 'properties.jsonl')) if l.strip()]
thms = {}
for f in sorted(glob.glob(os.path.join(root, 'rocq/theories/P_*.v'))):
    for m in re.finditer(r'^Theorem (C\d+)(_\w+)', open(f).read(), re.M):
        thms.setdefault(m.group(1), []).append(m.group(1) + m.group(2))
claims = []
for i in ids:
    t = thms.get(i, [])
    if not t:
        continue
    n = notes.get(i, {})
    bad = any('_refuted' in x or x.endswith('_partial') for x in t)
    claims.append({'property': i, 'status': n.get('status', 'partial' if bad else 'proved'),
                   'theorems': t, 'note': n.get('note', '')})
json.dump({'claims': claims}, open(os.path.join(root, 'MANIFEST.json'), 'w'), indent=1)
print(len(claims), 'claims;', [i for i in ids if i not in thms], 'without theorems;', set(thms) - set(ids))
