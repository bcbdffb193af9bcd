#!/usr/bin/env python3
"""Prints the statements (without proofs) of the theorems Cxx_* of the files given."""
import re,sys
for f in sys.argv[1:]:
    s=open(f).read()
    print('=====',f)
    for m in re.finditer(r'^(Theorem|Lemma|Example|Corollary|Definition) (\w+)(.*?)(?=^Proof|\Z)',s,re.S|re.M):
        if m.group(1)=='Definition' or re.match(r'C\d\d_',m.group(2)):
            t=(m.group(1)[:3]+' '+m.group(2)+m.group(3)).strip()
            if m.group(1)=='Definition': t=re.split(r'\n(?=\n|Lemma|Theorem|Section|\(\*\*|Example)',t)[0]
            if m.group(2).endswith('nonvacuous'): t=t[:60]
            print(re.sub(r'\s+',' ',t)[:900])
