#!/usr/bin/env python3
"""Writes MANIFEST.json from properties.jsonl, the theorem names found in
rocq/theories/Props*.v and the statuses below."""
import json, re, glob, os
root = os.path.dirname(os.path.dirname(os.path.abspath(__file__)))
names = {}
for f in sorted(glob.glob(root + '/rocq/theories/Props*.v')):
    for n in re.findall(r'^\s*Theorem (C\d\d\w*)', open(f).read(), re.M):
        names.setdefault(n[:3], []).append(n)
status = json.load(open(root + '/tools/status.json'))
claims = []
for l in open(root + '/properties.jsonl'):
    d = json.loads(l)
    s = status.get(d['id'], {})
    th = names.get(d['id'], [])
    st = s.get('status', 'partial')
    claims.append({'property': d['id'], 'status': st, 'theorems': th, 'note': s.get('note', 'No theorem yet.' if not th else '')})
json.dump({'claims': claims}, open(root + '/MANIFEST.json', 'w'), indent=1)
for c in claims:
    print(c['property'], c['status'], len(c['theorems']))
