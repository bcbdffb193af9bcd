#!/usr/bin/env python3
"""Seeded-bug runner.  usage: mutate.py MUTANTS.json OUT.jsonl [WORKDIR]
MUTANTS.json: list of {file, old, new, claim, properties}.  For each mutant: copy the
compiled theories, apply the edit, rebuild every dependent file; a proof that fails is
replaced by Admitted and recorded, so that the set of theorems Cxx_* that fail (or that now
rest on a failed lemma, according to Print Assumptions) is obtained.  Nothing under /verif
is modified apart from OUT."""
import sys,json,os,re,subprocess,shutil,tempfile
SRC=os.environ.get('SNAP','/verif/rocq')
muts=json.load(open(sys.argv[1])); out=sys.argv[2]
base=sys.argv[3] if len(sys.argv)>3 else '/scratch/mut/w'
order=[l.strip() for l in open(SRC+'/_CoqProject') if l.strip().endswith('.v')]
names=[os.path.basename(x)[:-2] for x in order]
deps={}
for n in names:
    s=open(f'{SRC}/theories/{n}.v').read()
    s0=s[:6000]
    d=set()
    for m in re.finditer(r'From Verif Require (?:Import|Export)([^.]*)\.',s):
        d|=set(m.group(1).split())
    deps[n]=d & set(names)
def topo():
    done=[];seen=set()
    def v(n):
        if n in seen: return
        seen.add(n)
        for d in sorted(deps[n]): v(d)
        done.append(n)
    for n in names: v(n)
    return done
T=topo()
def dependents(f):
    s={f}
    for n in T:
        if deps[n]&s: s.add(n)
    return [n for n in T if n in s]
def coqc(w,n,timeout=900):
    try:
        r=subprocess.run(['coqc','-Q','.','Verif',n+'.v'],cwd=w,capture_output=True,text=True,timeout=timeout)
        return r.returncode,r.stderr
    except subprocess.TimeoutExpired:
        return 99,'timeout'
HEAD=re.compile(r'^\s*(?:Local |Global |#\[[a-z]+\] )?(Theorem|Lemma|Example|Corollary|Fact|Remark|Proposition|Fixpoint|Definition|Instance)\s+(\w+)')
for k,m in enumerate(muts):
    w=base
    shutil.rmtree(w,ignore_errors=True); shutil.copytree(SRC+'/theories',w)
    p=f'{w}/{m["file"]}.v'; s=open(p).read()
    if s.count(m['old'])!=1:
        print(k,'BAD MUTANT count',s.count(m['old']),m['file'],m['old'][:50],flush=True); continue
    s=s.replace(m['old'],m['new'])
    open(p,'w').write(s)
    todo=dependents(m['file']); admitted=[]; afiles=set(); broken=None
    for n in todo:
        if n.startswith('Conformance'): continue
        for _ in range(60):
            rc,err=coqc(w,n)
            if rc==0: break
            mm=re.search(r'line (\d+), characters',err)
            if not mm: broken=(n,err[:200]); break
            ln=int(mm.group(1)); L=open(f'{w}/{n}.v').read().split('\n')
            i=ln-1
            while i>=0 and not (HEAD.match(L[i])): i-=1
            if i<0: broken=(n,err[-300:]); break
            name=HEAD.match(L[i]).group(2)
            # proof span
            j=i
            while j<len(L) and not re.match(r'^\s*Proof',L[j]): j+=1
            e=i
            while e<len(L) and not re.search(r'(Qed|Defined)\.\s*$',L[e]): e+=1
            if j>=len(L) or e>=len(L) or ln-1>e or ln-1<j: broken=(n,name+': '+err[-300:]); break
            L[j:e+1]=['Admitted.']
            admitted.append(name); afiles.add(n)
            open(f'{w}/{n}.v','w').write('\n'.join(L))
        else: broken=(n,'too many')
        if broken: break
    failed=set(x for x in admitted if re.match(r'C\d\d_',x))
    if admitted and not broken:
        aset=set(admitted)
        affected=set(afiles)
        for n in T:
            if deps[n]&affected: affected.add(n)
        props=[n for n in todo if n.startswith('Props_') and n in affected]
        for n in props:
            th=re.findall(r'^(?:Theorem|Corollary) (C\d\d\w*)',open(f'{w}/{n}.v').read(),re.M)
            th=[t for t in th]
            open(f'{w}/QQ.v','w').write(f'From Verif Require Import {n}.\n'+''.join(f'Goal True. idtac "@@ {t}". Abort.\nPrint Assumptions {t}.\n' for t in th))
            r=subprocess.run(['coqc','-Q','.','Verif','QQ.v'],cwd=w,capture_output=True,text=True)
            cur=None
            for line in r.stdout.split('\n'):
                q=re.match(r'@@ (\w+)',line)
                if q: cur=q.group(1); continue
                q=re.match(r"([\w.']+)\s*(?::|$)",line)
                if q and cur and q.group(1).split('.')[-1] in aset: failed.add(cur)
    caught=bool([t for t in failed if not m.get('properties') or any(t.startswith(pp) for pp in m['properties'])]) or bool(broken)
    rec=dict(definition=m['file']+'.v: '+m.get('definition',''),edit=m['old'].strip()+'  ==>  '+m['new'].strip(),claim=m['claim'],theorems_failed=sorted(failed),lemmas_failed=[a for a in admitted if not re.match(r'C\d\d_',a)],theorems_tightened=[])
    if broken: rec['build_broken_at']=list(broken)
    open(out,'a').write(json.dumps(rec,ensure_ascii=False)+'\n')
    print(k,'CAUGHT' if caught else 'SURVIVED',m['file'],'|',m['old'].strip()[:40],'=>',m['new'].strip()[:40],'|',','.join(sorted(failed))[:150],'BROKEN '+str(broken)[:200] if broken else '',flush=True)
