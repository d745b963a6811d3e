#!/usr/bin/env python3
"""Regenerate MANIFEST.json: theorems are found by their Cnn_ prefix in
rocq/theories/*Props.v; a property is "partial" if listed in PARTIAL."""
import json, re, glob, os
root = os.path.dirname(os.path.dirname(os.path.abspath(__file__)))
exec(open(os.path.join(root, 'tools', 'manifest_notes.py')).read())
thms = {}
for f in sorted(glob.glob(root + '/rocq/theories/*Props.v')):
    for m in re.finditer(r'^\s*Theorem\s+(C\d\d\d?)_(\w+)', open(f).read(), re.M):
        thms.setdefault(m.group(1), []).append(m.group(1) + '_' + m.group(2))
claims = []
for line in open(root + '/properties.jsonl'):
    p = json.loads(line)['id']
    if p in thms:
        st = 'partial' if p in PARTIAL else 'proved'
        claims.append(dict(property=p, status=st, theorems=thms[p], note=PARTIAL.get(p) or NOTES.get(p, '')))
    else:
        claims.append(dict(property=p, status='partial', theorems=[], note='not proved yet'))
json.dump({'claims': claims}, open(root + '/MANIFEST.json', 'w'), indent=1)
print(sum(1 for c in claims if c['theorems']), 'of', len(claims), 'have theorems;',
      sum(1 for c in claims if c['status'] == 'proved'), 'proved')
