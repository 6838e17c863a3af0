#!/usr/bin/env python3
"""Regenerate _CoqProject and MANIFEST.json from the *Props.v files and notes.json."""
import json, re, glob, os
root = os.path.dirname(os.path.dirname(os.path.abspath(__file__)))
th = os.path.join(root, 'rocq', 'theories')
files = sorted(os.path.basename(f) for f in glob.glob(th + '/*.v'))
with open(os.path.join(root, 'rocq', '_CoqProject'), 'w') as f:
    f.write('-Q theories Verif\n')
    for x in files:
        f.write('theories/%s\n' % x)
notes = json.load(open(os.path.join(root, 'tools', 'notes.json')))
thms = {}
for x in files:
    if x.endswith('Props.v'):
        for n in re.findall(r'^\s*Theorem\s+(C\d\d\w*)', open(os.path.join(th, x)).read(), re.M):
            thms.setdefault(n[:3], []).append(n)
claims = []
for l in open(os.path.join(root, 'properties.jsonl')):
    p = json.loads(l)['id']
    t = thms.get(p, [])
    n = notes.get(p, {})
    if t:
        st = n.get('status', 'partial' if all(x.endswith('_partial') for x in t) else 'proved')
        claims.append(dict(property=p, status=st, theorems=t, note=n.get('note', '')))
    elif n.get('status') == 'not_applicable':
        claims.append(dict(property=p, status='not_applicable', theorems=[], note=n['note']))
json.dump({'claims': claims}, open(os.path.join(root, 'MANIFEST.json'), 'w'), indent=1)
print(len(claims), 'claims', sum(len(c['theorems']) for c in claims), 'theorems; missing', [json.loads(l)['id'] for l in open(os.path.join(root, 'properties.jsonl')) if json.loads(l)['id'] not in {c['property'] for c in claims}])
