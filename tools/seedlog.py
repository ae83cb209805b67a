#!/usr/bin/env python3
"""Turn the results of mutate.py into /verif/seeded/LOG.jsonl.
Usage: seedlog.py out.jsonl...   tools/tightened.json gives, by definition and
edit, the theorems that were tightened or a remark."""
import json, os, sys
notes = json.load(open('/verif/tools/tightened.json')) if os.path.exists('/verif/tools/tightened.json') else {}
seen, out = set(), []
for f in sys.argv[1:]:
    for l in open(f):
        d = json.loads(l)
        if 'error' in d: continue
        key = (d['file'], d['old'], d['new'], d.get('nth', 0))
        if key in seen: continue
        seen.add(key)
        r = {'definition': f"{d['file']}.{d['definition']}", 'edit': {'from': d['old'], 'to': d['new']},
             'claim': d['claim'], 'theorems_failed': d['theorems_failed'],
             'examples_failed': d['examples_failed'], 'theorems_tightened': []}
        n = notes.get(f"{d['file']}.{d['definition']}|{d['new']}")
        if n: r['theorems_tightened'] = n.get('tightened', []); r['remark'] = n['remark']
        if d['unchecked']: r['unchecked'] = d['unchecked']
        out.append(r)
open('/verif/seeded/LOG.jsonl', 'w').write(''.join(json.dumps(r) + '\n' for r in out))
print(len(out), 'attempts;', sum(1 for r in out if not r['theorems_failed']), 'without a failing theorem')
