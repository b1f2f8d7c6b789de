#!/usr/bin/env python3
"""Regenerates MANIFEST.json from the theorem names in rocq/theories/*Thm.v
and the notes in tools/notes.json."""
import re, json, glob, os
root = os.path.dirname(os.path.dirname(os.path.abspath(__file__)))
props = [json.loads(l) for l in open(root + '/properties.jsonl')]
notes = json.load(open(root + '/tools/notes.json'))
thms = {}
for f in sorted(glob.glob(root + '/rocq/theories/*Thm.v')):
    for m in re.finditer(r'^Theorem (C\d\d+)(_\w+)', open(f).read(), re.M):
        thms.setdefault(m.group(1), []).append(m.group(1) + m.group(2))
claims = []
for p in props:
    t = thms.pop(p['id'], [])
    n = notes.get(p['id'], {})
    if isinstance(n, str): n = {'note': n}
    if n.get('status'): st = n['status']
    elif not t: continue
    else: st = 'partial' if any(x.endswith('_partial') or x.endswith('_refuted') for x in t) else 'proved'
    claims.append({'property': p['id'], 'status': st, 'theorems': t, 'note': n.get('note', p['title'])})
if thms: print('theorems without property:', thms)
json.dump({'claims': claims}, open(root + '/MANIFEST.json', 'w'), indent=1, ensure_ascii=False)
print(len(claims), 'claims,', sum(len(c['theorems']) for c in claims), 'theorems,', [p['id'] for p in props if p['id'] not in {c['property'] for c in claims}])
