#!/usr/bin/env python3
# Writes MANIFEST.json from the table below; checks that the theorem names exist in the P_*.v files.
import json, re, glob, os
R = os.path.join(os.path.dirname(os.path.abspath(__file__)), '..')
src = ''.join(open(f).read() for f in sorted(glob.glob(R + '/rocq/theories/P_*.v')))
names = set(re.findall(r'^\s*Theorem\s+(\w+)', src, re.M))
T = {}
def claim(p, status, theorems, note=''):
    T[p] = dict(property=p, status=status, theorems=theorems.split(), note=note)
exec(open(R + '/tools/claims.py').read())
used = set()
for c in T.values():
    for t in c['theorems']:
        if t not in names: print('MISSING', c['property'], t)
        used.add(t)
print('unlisted:', sorted(names - used))
json.dump({"claims": [T[k] for k in sorted(T)]}, open(R + '/MANIFEST.json', 'w'), indent=1)
print(len(T), 'claims')
