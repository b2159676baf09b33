#!/usr/bin/env python3
"""Regenerate MANIFEST.json.

Theorem names are collected from rocq/theories/Properties/*.v by their Cxx_
prefix; statuses and notes come from tools/status.json."""
import json, re, glob, os
root = os.path.dirname(os.path.dirname(os.path.abspath(__file__)))
thms = {}
for f in sorted(glob.glob(root + '/rocq/theories/Properties/*.v')):
    for m in re.finditer(r'^\s*(?:Theorem|Corollary)\s+((C\d\d+)_\w+)', open(f).read(), re.M):
        thms.setdefault(m.group(2), []).append(m.group(1))
status = json.load(open(root + '/tools/status.json'))
claims = []
for line in open(root + '/properties.jsonl'):
    i = json.loads(line)['id']
    if i not in thms and i not in status:
        continue
    st = status.get(i, {})
    ts = thms.get(i, [])
    default = 'partial' if any(t.endswith(('_partial', '_refuted')) for t in ts) else 'proved'
    claims.append({'property': i, 'status': st.get('status', default),
                   'theorems': ts, 'note': st.get('note', '')})
json.dump({'claims': claims}, open(root + '/MANIFEST.json', 'w'), indent=1)
print(len(claims), 'claims')
