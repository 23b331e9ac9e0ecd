#!/usr/bin/env python3
"""Write MANIFEST.json: theorem names are collected from rocq/theories/Props*.v by property id,
status and note come from tools/status.json."""
import re, glob, os, json
here = os.path.dirname(os.path.abspath(__file__))
root = os.path.join(here, '..')
thms = {}
for f in sorted(glob.glob(os.path.join(root, 'rocq/theories/Props*.v'))):
    for n in re.findall(r'^Theorem (\w+) :', open(f).read(), re.M):
        thms.setdefault(n.split('_')[0], []).append(n)
status = json.load(open(os.path.join(here, 'status.json')))
claims = []
for l in open(os.path.join(root, 'properties.jsonl')):
    i = json.loads(l)['id']
    t = thms.get(i, [])
    st, note = status.get(i, ['', ''])
    if not t:
        if st == 'not_applicable':
            claims.append({'property': i, 'status': st, 'theorems': [], 'note': note})
        continue
    part = any(n.endswith('_partial') or n.endswith('_refuted') for n in t)
    if not st:
        st = 'partial' if part else 'proved'
    claims.append({'property': i, 'status': st, 'theorems': t, 'note': note})
json.dump({'claims': claims}, open(os.path.join(root, 'MANIFEST.json'), 'w'), indent=1)
print(len(claims), 'claims', sum(len(c['theorems']) for c in claims), 'theorems')
for c in claims:
    if c['status'] == 'partial' and not c['note']:
        print('no note:', c['property'])
