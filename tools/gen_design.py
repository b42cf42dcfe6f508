#!/usr/bin/env python3
"""DESIGN.md = tools/design_head.md + one entry per property (from properties.jsonl, MANIFEST.json, tools/plans.json)."""
import json, os
root = os.path.dirname(os.path.dirname(os.path.abspath(__file__)))
props = [json.loads(l) for l in open(root + '/properties.jsonl')]
man = {c['property']: c for c in json.load(open(root + '/MANIFEST.json'))['claims']}
plans = json.load(open(root + '/tools/plans.json'))
out = open(root + '/tools/design_head.md').read()
for p in props:
    c = man[p['id']]
    out += f"**{p['id']} {p['title']}** ({c['status']}).  Modelled: " + '; '.join(sorted({a['symbol'] for a in p['anchors']})) + '.  '
    out += 'Proof: ' + plans.get(p['id'], 'direct from the definitions and the lemmas about the called functions') + '.  '
    out += 'Theorems: ' + ', '.join('`%s`' % t for t in c['theorems']) + '.'
    if c['note']: out += '  ' + c['note']
    out += '\n\n'
open(root + '/DESIGN.md', 'w').write(out)
