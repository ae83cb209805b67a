#!/usr/bin/env python3
"""Refresh the property table of DESIGN.md from properties.jsonl, plan.json and MANIFEST.json."""
import json, re
V = '/verif/'
props = [json.loads(l) for l in open(V + 'properties.jsonl')]
plan = json.load(open(V + 'tools/plan.json'))
man = {c['property']: c for c in json.load(open(V + 'MANIFEST.json'))['claims']}
out = []
for p in props:
    c = man[p['id']]
    out.append(f"**{p['id']} {p['title']}** ({c['status']}). {plan[p['id']]}\n"
               f"Theorems: {', '.join('`' + t + '`' for t in c['theorems'])}.\n"
               + (f"Result: {c['note']}\n" if c['note'] else ''))
t = open(V + 'DESIGN.md').read()
t = re.sub(r'(<!-- begin properties -->\n).*?(<!-- end properties -->)', lambda m: m.group(1) + '\n'.join(out) + m.group(2), t, flags=re.S)
open(V + 'DESIGN.md', 'w').write(t)
