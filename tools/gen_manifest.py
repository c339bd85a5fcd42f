#!/usr/bin/env python3
"""Writes MANIFEST.json: theorems are collected from theories/*.v by their Cnn_ prefix."""
import re, json, glob, os
root = os.path.dirname(os.path.dirname(os.path.abspath(__file__)))
thms = {}
order = [l.strip() for l in open(root + '/rocq/_CoqProject') if l.strip().endswith('.v')]
for f in order:
    for m in re.finditer(r'^\s*(?:Theorem|Lemma|Corollary|Example)\s+((?:C\d\d_)+[A-Za-z0-9_\']+)', open(root + '/rocq/' + f).read(), re.M):
        for c in re.findall(r'C\d\d', re.match(r'(?:C\d\d_)+', m.group(1)).group(0)):
            thms.setdefault(c, []).append(m.group(1))
notes = json.load(open(root + '/tools/notes.json'))
claims = []
for l in open(root + '/properties.jsonl'):
    i = json.loads(l)['id']
    n = notes.get(i, {})
    t = thms.get(i, [])
    if not t and n.get('status') != 'not_applicable':
        continue
    claims.append({"property": i, "status": n.get('status', 'partial'), "theorems": t, "note": n.get('note', '')})
json.dump({"claims": claims}, open(root + '/MANIFEST.json', 'w'), indent=1)
print(len(claims), 'claims', sum(len(c['theorems']) for c in claims), 'theorems')
