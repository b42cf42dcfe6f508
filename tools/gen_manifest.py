#!/usr/bin/env python3
"""Regenerates MANIFEST.json from the theorem names in rocq/theories/Props*.v and tools/notes.json."""
import re, json, glob, os
root = os.path.dirname(os.path.dirname(os.path.abspath(__file__)))
listed = open(root + '/rocq/_CoqProject').read()
thms = {}
for f in sorted(glob.glob(root + '/rocq/theories/Props*.v')):
    if os.path.basename(f) not in listed: continue
    for m in re.finditer(r'^(?:Theorem|Corollary)\s+(C\d+_\w*)', open(f).read(), re.M):
        thms.setdefault(m.group(1).split('_')[0], []).append(m.group(1))
notes = json.load(open(root + '/tools/notes.json'))
claims = []
for line in open(root + '/properties.jsonl'):
    p = json.loads(line); i = p['id']; t = thms.get(i, [])
    n = notes.get(i, {})
    if isinstance(n, str): n = {'note': n}
    if 'status' in n: st = n['status']
    elif not t: st = 'partial'; n = {'note': 'not proved yet'}; 
    else: st = 'partial' if any(x.endswith('_partial') for x in t) else 'proved'
    claims.append({'property': i, 'status': st, 'theorems': t, 'note': n.get('note', '')})
json.dump({'claims': claims}, open(root + '/MANIFEST.json', 'w'), indent=1)
print(sum(c['status'] == 'proved' for c in claims), 'proved,', sum(c['status'] == 'partial' for c in claims), 'partial,',
      sum(c['status'] == 'not_applicable' for c in claims), 'n/a,', [c['property'] for c in claims if not c['theorems']])
