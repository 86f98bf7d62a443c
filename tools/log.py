#!/usr/bin/env python3
"""Appends results of tools/mutate.py to seeded/LOG.jsonl: log.py RESULTS [name=thm1,thm2 ...]
(name=... records the theorems tightened after the mutant of that name survived)."""
import json, re, sys
def where(r):
    f = r['definition']
    try: t = open('/verif/rocq/theories/' + f).read()
    except OSError: return f
    i = t.find(r['edit'].split('  ==>  ')[0].strip())
    d = re.findall(r'(?m)^\s*(?:Definition|Fixpoint|Record|Inductive|with) (\w+)', t[:i + 40] if i >= 0 else '')
    return f + (': ' + d[-1] if d else '')
tight = dict(a.split('=') for a in sys.argv[2:])
have = {json.loads(l)['name'] for l in open('/verif/seeded/LOG.jsonl')}
with open('/verif/seeded/LOG.jsonl', 'a') as out:
    for l in open(sys.argv[1]):
        r = json.loads(l)
        if r['name'] in have: continue
        t = tight.get(r['name'])
        out.write(json.dumps(dict(name=r['name'], definition=where(r), edit=r['edit'], breaks=r['breaks'],
            theorems_failed=r['theorems_failed'], proofs_failed=r['broken_proofs'],
            theorems_tightened=t.split(',') if t else r.get('theorems_tightened', []))) + '\n')
        have.add(r['name'])
