#!/usr/bin/env python3
"""Regenerate MANIFEST.json from the theorem names in rocq/theories/Prop*.v and tools/status.json."""
import re, glob, json, os
root = os.path.dirname(os.path.dirname(os.path.abspath(__file__)))
thms = {}
for f in sorted(glob.glob(root + '/rocq/theories/Prop*.v')):
    mod = os.path.basename(f)[:-2]
    for m in re.finditer(r'^Theorem\s+((C\d\d+)_\w+)', open(f).read(), re.M):
        thms.setdefault(m.group(2), []).append(m.group(1))
status = json.load(open(root + '/tools/status.json'))
ids = [json.loads(l)['id'] for l in open(root + '/properties.jsonl') if l.strip()]
claims = []
for i in ids:
    st, note = status.get(i, ['partial', 'Not yet modelled.'])
    if i not in thms and st != 'not_applicable':
        continue
    claims.append({'property': i, 'status': st, 'theorems': thms.get(i, []), 'note': note})
json.dump({'claims': claims}, open(root + '/MANIFEST.json', 'w'), indent=1)
print(len(claims), 'claims;', 'missing:', [i for i in ids if i not in thms])
