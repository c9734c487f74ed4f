#!/usr/bin/env python3
"""Write ASSUMPTIONS.md: what Print Assumptions says of every theorem in MANIFEST.json.  Needs a built /verif/rocq."""
import json,re,subprocess,os,tempfile
m=json.load(open('/verif/MANIFEST.json'))
th=[]
for c in m['claims']:
    for t in c['theorems']:
        if t not in th: th.append(t)
files=[re.sub(r'theories/(.*)\.v',r'\1',l.strip()) for l in open('/verif/rocq/_CoqProject') if l.strip().endswith('.v')]
src='From Verif Require '+' '.join(files)+'.\n'
where={}
for f in files:
    for t in re.findall(r'^(?:Theorem|Lemma|Corollary) (\w+)',open(f'/verif/rocq/theories/{f}.v').read(),re.M): where.setdefault(t,f)
for t in th:
    t0=t.split('.')[-1]
    src+=f'Fail idtac "{t}".\nPrint Assumptions {where[t0]}.{t0}.\n'.replace('Fail idtac','Goal True. idtac').replace('".\nPrint','". Abort.\nPrint')
d=tempfile.mkdtemp(); open(d+'/a.v','w').write(src)
r=subprocess.run(['coqc','-Q','/verif/rocq/theories','Verif',d+'/a.v'],capture_output=True,text=True)
assert r.returncode==0, r.stderr
res={};cur=None
for l in r.stdout.split('\n'):
    if l.strip() in th: cur=l.strip(); res[cur]=[]; continue
    if cur is None: continue
    res[cur].append(l)
groups={}
for t in th:
    txt='\n'.join(res[t])
    ax=tuple(sorted(set(re.findall(r'^([A-Z]\w*(?:\.\w+)+)',txt,re.M))))
    if 'Closed under the global context' in txt: assert not ax; 
    else: assert ax,(t,txt)
    groups.setdefault(ax,[]).append(t)
o='# What `Print Assumptions` lists for each theorem\n\nGenerated by `tools/mkassump.py` from the compiled theories.\n'
for ax in sorted(groups,key=len):
    o+='\n## '+('Closed under the global context (no axiom)' if not ax else 'Axioms of the standard library: '+', '.join('`%s`'%a for a in ax))+'\n\n'
    o+=''.join(f'* `{t}` ({where[t.split(".")[-1]]}.v)\n' for t in groups[ax])
open('/verif/ASSUMPTIONS.md','w').write(o)
print({len(k):len(v) for k,v in groups.items()})
