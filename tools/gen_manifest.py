#!/usr/bin/env python3
"""Writes MANIFEST.json from the theorem names Cxx_* of rocq/theories/Props_*.v."""
import re,json,glob,os
root=os.path.dirname(os.path.dirname(os.path.abspath(__file__)))
props=[json.loads(l) for l in open(root+'/properties.jsonl')]
th={}
for f in sorted(glob.glob(root+'/rocq/theories/Props_*.v')):
    s=open(f).read()
    for m in re.finditer(r'^(?:Theorem|Corollary|Example|Lemma) (C\d\d+)_(\w+)',s,re.M):
        th.setdefault(m.group(1),[]).append((m.group(1)+'_'+m.group(2),os.path.basename(f)))
notes=json.load(open(root+'/tools/manifest_notes.json'))
claims=[]
for p in props:
    l=th.pop(p['id'],[])
    names=[n for n,_ in l if 'nonvacuous' not in n]
    nv=[n for n,_ in l if 'nonvacuous' in n]
    files=sorted({f for _,f in l})
    n=notes.get(p['id'],{})
    status=n.get('status','proved' if names else 'not_applicable')
    note=(n.get('note','')+' ' if n.get('note') else '')+'Files: '+', '.join(files)+'.'+(' Concrete instances: '+', '.join(nv)+'.' if nv else '')
    claims.append(dict(property=p['id'],status=status,theorems=names,note=note))
assert not th, th
json.dump({"claims":claims},open(root+'/MANIFEST.json','w'),indent=1,ensure_ascii=False)
print(len(claims),sum(len(c['theorems']) for c in claims),[c['property'] for c in claims if c['status']!='proved'], 'no nonvac:',[c['property'] for c in claims if 'instances' not in c['note']])
