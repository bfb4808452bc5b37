#!/usr/bin/env python3
"""Regenerates MANIFEST.json: theorem names come from rocq/theories/P_*.v, status and notes from tools/notes.json."""
import json, re, glob, os
root = os.path.dirname(os.path.dirname(os.path.abspath(__file__)))
notes = json.load(open(os.path.join(root, 'tools/notes.json')))
thms = {}
for f in sorted(glob.glob(os.path.join(root, 'rocq/theories/P_*.v'))):
    src = open(f).read()
    printed = set(re.findall(r'Print Assumptions (\w+)\.', src))
    for t in re.findall(r'^Theorem (C\d\d\w*)', src, re.M):
        assert t in printed, ('no Print Assumptions', t)
        thms.setdefault(t[:3], []).append(t)
claims = []
for l in open(os.path.join(root, 'properties.jsonl')):
    p = json.loads(l)['id']
    n = notes.get(p)
    if n is None or p not in thms:
        print('missing', p); continue
    claims.append({'property': p, 'status': n['status'], 'theorems': thms[p], 'note': n['note']})
json.dump({'claims': claims}, open(os.path.join(root, 'MANIFEST.json'), 'w'), indent=1)
print(len(claims), 'claims', sum(len(c['theorems']) for c in claims), 'theorems')

titles = {json.loads(l)['id']: json.loads(l)['title'] for l in open(os.path.join(root, 'properties.jsonl'))}
rows = ['| id | property | status | theorems | note |', '|---|---|---|---|---|']
for c in claims:
    rows.append('| %s | %s | %s | %s | %s |' % (c['property'], titles[c['property']].replace('|', '/'), c['status'],
                                              ', '.join('`%s`' % t for t in c['theorems']), c['note'].replace('|', '/')))
d = os.path.join(root, 'DESIGN.md')
s = open(d).read()
a, b = '<!-- table: generated by tools/gen_manifest.py -->', '<!-- end of table -->'
s = s[:s.index(a) + len(a)] + '\n' + '\n'.join(rows) + '\n' + s[s.index(b):]
open(d, 'w').write(s)
