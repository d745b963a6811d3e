#!/usr/bin/env python3
"""log_mutations.py JOBS.json RESULTS [TIGHTENED.json]: append to seeded/LOG.jsonl."""
import json, sys
jobs = {j['id']: j for j in json.load(open(sys.argv[1]))}
tight = json.load(open(sys.argv[3])) if len(sys.argv) > 3 else {}
seen = set()
try:
    seen = {json.loads(l)['id'] for l in open('/verif/seeded/LOG.jsonl')}
except FileNotFoundError:
    pass
with open('/verif/seeded/LOG.jsonl', 'a') as out:
    for l in open(sys.argv[2]):
        r = json.loads(l)
        if 'error' in r or r['id'] in seen:
            continue
        j = jobs[r['id']]
        t = tight.get(r['id'], {})
        edits = j.get('edits') or [[j['old'], j['new']]]
        out.write(json.dumps({
            'id': r['id'], 'definition': f"{j['file']}.v: {j['definition']}",
            'edit': ' ;; '.join(f'{o}  ==>  {n or "(removed)"}' for o, n in edits),
            'claim': j['claim'], 'broken_proofs': r['broken'], 'theorems_failed': r['failed'],
            'theorems_tightened': t.get('tightened', []), 'note': t.get('note', '')}) + '\n')
