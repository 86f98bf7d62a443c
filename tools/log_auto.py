#!/usr/bin/env python3
"""log_auto.py RESULTS [file:line=T1,T2|note ...]: append the random mutants of
a campaign (one line per mutant) to seeded/LOG.jsonl."""
import json,re,sys,os
notes={}
for a in sys.argv[2:]:
    k,v=a.split('=',1); notes[k]=v
out=os.path.join(os.path.dirname(__file__),'..','seeded','LOG.jsonl')
seen={json.loads(l).get('name') for l in open(out)}
tag=os.path.basename(sys.argv[1]).split('.')[0]
n=0
with open(out,'a') as f:
    for l in open(sys.argv[1]):
        m=re.match(r'(\w+) (\S+):(\d+) \[(.*?) -> (.*?)\] (\S*) *\| (.*) \| (\d+)s$',l.strip())
        if not m: continue
        st,fn,ln,a,b,where,ctx,t=m.groups()
        name=f'{tag}-{fn[:-2]}-{ln}'
        if name in seen: continue
        k=f'{fn}:{ln}'; v=notes.get(k,''); th,_,note=v.partition('|')
        e={'name':name,'definition':f'{fn} line {ln}: {ctx}','edit':f'{a} ==> {b}','breaks':'random token edit'+(f'; {note}' if note else ''),
           'theorems_failed':[where+'.v (first file that stops compiling)'] if st=='killed' else [], 'theorems_tightened':[x for x in th.split(',') if x]}
        if st!='killed': e['result']='survived' if st=='SURVIVED' else 'proof search does not end'
        f.write(json.dumps(e)+'\n'); n+=1
print(n)
