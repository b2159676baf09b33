#!/usr/bin/env python3
"""Append the results of tools/seed.py to seeded/LOG.jsonl.

usage: seedlog.py seeds.json results.jsonl"""
import json, os, sys
root = os.path.dirname(os.path.dirname(os.path.abspath(__file__)))
seeds = {s['id']: s for s in json.load(open(sys.argv[1]))}
with open(os.path.join(root, 'seeded', 'LOG.jsonl'), 'a') as out:
    for line in open(sys.argv[2]):
        r = json.loads(line)
        s = seeds[r['id']]
        out.write(json.dumps({'definition': s['definition'], 'file': s['file'], 'edit': s['edit'],
                              'claim': s['claim'], 'theorems_failed': r['failed'],
                              'theorems_tightened': s.get('tightened', [])}) + '\n')
