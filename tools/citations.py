#!/usr/bin/env python3
"""Prints every citation src/...:a-b in the model next to the first and last cited lines of /repo."""
import re,sys,glob,os
base=os.path.dirname(os.path.dirname(os.path.abspath(__file__)))+'/rocq/theories/'
for f in sys.argv[1:]:
    s=open(base+f+'.v').read()
    for m in re.finditer(r'(src/[a-z_/]+\.rs):((?:\d+(?:-\d+)?(?:, | and )?)+)([^*]{0,60})',s):
        ln=s.count('\n',0,m.start())+1
        L=open('/repo/'+m.group(1)).read().split('\n')
        for r in re.findall(r'\d+(?:-\d+)?',m.group(2)):
            a,_,b=r.partition('-'); b=b or a
            a,b=int(a),int(b)
            nxt=s[m.end():].split('*)',1)[1] if '*)' in s[m.end():] else ''
            d=re.search(r'(?:Definition|Fixpoint|Inductive|Record)\s+(\w+)',nxt)
            print(f'{f}:{ln} {os.path.basename(m.group(1))}:{r} [{d.group(1) if d else ""}] | {L[a-1].strip()[:55]} | {L[b-1].strip()[:30]}')
