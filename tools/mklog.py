#!/usr/bin/env python3
"""mklog.py out1 out2 ... -- turns mutate.py results into seeded/LOG.jsonl lines (appends results not logged yet)."""
import json, os, sys
H = os.path.dirname(os.path.abspath(__file__)); L = os.path.join(H, '..', 'seeded', 'LOG.jsonl')
T = json.load(open(os.path.join(H, 'tightened.json')))   # key: definition|new -> {"tightened": [...], "note": "..."}
seen = set()
for l in open(L):
    r = json.loads(l); seen.add((r['file'], r['definition'], r['edit']))
with open(L, 'a') as out:
    for f in sys.argv[1:]:
        for l in open(f):
            r = json.loads(l); x = r['result']
            if 'error' in x: continue
            e = {'file': 'rocq/theories/' + r['file'], 'definition': r['definition'], 'edit': r['old'] + '  =>  ' + (r['new'] or '(removed)'), 'claim': r['claim']}
            if (e['file'], e['definition'], e['edit']) in seen: continue
            t = T.get(r['definition'] + '|' + r['new'], {})
            if x.get('not_compiled') and not t and not x['theorems_failed']: continue      # unclear, to be rerun
            e['theorems_failed'] = x['theorems_failed']; e['theorems_tightened'] = t.get('tightened', [])
            if t.get('note'): e['note'] = t['note']
            elif x.get('not_compiled'): e['note'] = 'statements in ' + ', '.join(x['not_compiled']) + ' no longer typecheck or time out, so more theorems may have failed'
            out.write(json.dumps(e) + '\n')
