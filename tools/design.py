#!/usr/bin/env python3
"""Write DESIGN.md: tools/design_head.md, one section per property (properties.jsonl, MANIFEST.json, tools/ideas.json), tools/design_tail.md."""
import json, os, re, glob
root = os.path.join(os.path.dirname(os.path.abspath(__file__)), '..')
read = lambda p: open(os.path.join(root, p)).read()
props = [json.loads(l) for l in read('properties.jsonl').splitlines() if l.strip()]
claims = {c['property']: c for c in json.loads(read('MANIFEST.json'))['claims']}
ideas = json.loads(read('tools/ideas.json'))
where, imports = {}, {}
for f in sorted(glob.glob(os.path.join(root, 'rocq/theories/*Props.v'))):
    text = open(f).read()
    base = os.path.basename(f)
    for m in re.finditer(r'^Theorem (C\d\d)_', text, re.M):
        where.setdefault(m.group(1), set()).add(base)
    req = ' '.join(re.findall(r'From Verif Require Import(.*?)\.\s', text, re.S))
    imports[base] = [w for w in req.split() if w.endswith('Model')]
out = [read('tools/design_head.md').rstrip(), '', '## 3. Properties', '']
out.append('For every property: the code it is about, the file with its theorems, the model files those theorems speak about, how it is proved, '
           'the theorems, and what is simplified or left out.')
for p in props:
    c = claims[p['id']]
    files = sorted(where[p['id']])
    models = sorted({m for f in files for m in imports[f]})
    out += ['', '### %s %s' % (p['id'], p['title']), '', p['statement'], '',
            '* Ranges over: %s.' % p['quantifier'].rstrip('.'),
            '* Code: ' + '; '.join('`%s` (%s)' % (a['file'].replace('src/flowket/', ''), ', '.join(a['symbols'])) for a in p['anchors']) + '.',
            '* Files: %s; model: %s.' % (', '.join('`%s`' % f for f in files), ', '.join('`%s.v`' % m for m in models)),
            '* Modelled and proved: %s' % ideas[p['id']],
            '* Status: %s. Theorems: %s.' % (c['status'], ', '.join('`%s`' % t for t in c['theorems']))]
    if c.get('note'):
        out.append('* Scope: %s' % c['note'])
out += ['', read('tools/design_tail.md').rstrip(), '']
open(os.path.join(root, 'DESIGN.md'), 'w').write('\n'.join(out))
