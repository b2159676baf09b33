#!/usr/bin/env python3
"""Refresh the section "Per property" of DESIGN.md from MANIFEST.json,
properties.jsonl and tools/how.json (what is modelled, how it is proved)."""
import json, os
root = os.path.dirname(os.path.dirname(os.path.abspath(__file__)))
props = [json.loads(l) for l in open(root + '/properties.jsonl')]
claims = {c['property']: c for c in json.load(open(root + '/MANIFEST.json'))['claims']}
how = json.load(open(root + '/tools/how.json'))
out = []
for p in props:
    c = claims.get(p['id'], {'status': 'open', 'theorems': [], 'note': ''})
    h = how.get(p['id'], ['', ''])
    out.append('### %s %s (%s)\n' % (p['id'], p['title'], c['status']))
    out.append('*Modelled:* %s  ' % h[0])
    out.append('*Proof:* %s  ' % h[1])
    if c['note']:
        out.append('*Remarks:* %s  ' % c['note'])
    out.append('*Theorems:* %s\n' % ', '.join('`%s`' % t for t in c['theorems']))
path = root + '/DESIGN.md'
text = open(path).read()
begin, end = '<!-- per property: begin -->', '<!-- per property: end -->'
a, b = text.index(begin) + len(begin), text.index(end)
open(path, 'w').write(text[:a] + '\n\n' + '\n'.join(out) + '\n' + text[b:])
missing = [p['id'] for p in props if p['id'] not in how]
if missing:
    print('no entry in how.json:', ' '.join(missing))
