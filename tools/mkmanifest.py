#!/usr/bin/env python3
"""Writes MANIFEST.json from the table below; fails on theorem names that do not exist."""
import json,re,glob,os
root=os.path.dirname(os.path.dirname(os.path.abspath(__file__)))
names=[]
for f in sorted(glob.glob(root+'/rocq/theories/Props*.v')):
    names+=re.findall(r'^Theorem (\w+)',open(f).read(),re.M)
notes=json.load(open(root+'/tools/notes.json'))
props=[json.loads(l)['id'] for l in open(root+'/properties.jsonl')]
claims=[]
for p in props:
    ts=[n for n in names if n.startswith(p+'_')]
    st,note=notes.get(p,(None,''))
    if not ts and st!='not_applicable': continue
    if st is None: st='partial' if any(t.endswith('_partial') for t in ts) else 'proved'
    claims.append(dict(property=p,status=st,theorems=ts,note=note))
json.dump(dict(claims=claims),open(root+'/MANIFEST.json','w'),indent=1)
print(len(claims),'claims;',sum(len(c['theorems']) for c in claims),'theorems; missing',[p for p in props if p not in [c['property'] for c in claims]])
