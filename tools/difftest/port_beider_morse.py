import re,os
from functools import lru_cache
class Panic(Exception): pass
class BadConfig(Exception): pass
EOL=r'[ \t]*(?://[^\n]*)?(?:\Z|\n|\r\n)'
PART=r'"(?:(\\")|(?!\\")([^"]*))"'
QUAD=re.compile(PART+r'[ \t]+'+PART+r'[ \t]+'+PART+r'[ \t]+'+PART+EOL)
LANG=re.compile(r'([^ ]+) ([^ ]+) (true|false)'+EOL)
INCL=re.compile(r'#include ([\w-]+)'+EOL)
MULT=re.compile(r'/\*((?:(?!\*/).)*)\*/'+EOL,re.S)
LANGUAGE=re.compile(r'([A-Za-z]+)'+EOL)
EOLR=re.compile(EOL)
def rx(p): return re.compile(p.replace('$',r'\Z'))
ANY,NO='ANY','NO'   # or frozenset
def empty(l): return l==NO or (l!=ANY and not l)
def restrict(a,b):
    if b==ANY: return a
    if b==NO: return b
    if a==ANY: return b
    if a==NO: return a
    return a&b
def merge(a,b):
    if b==ANY: return b
    if b==NO: return a
    if a==ANY: return a
    if a==NO: return b
    return a|b
def opt(r):
    sw=r.startswith('^'); ew=r.endswith('$')
    c=r[(1 if sw else 0):(len(r)-1 if ew else len(r))]
    if '[' not in r:
        if sw and ew: return (lambda s:s=='') if not c else (lambda s:s==c)
        if (sw or ew) and not c: return lambda s:True
        if sw: return lambda s:s.startswith(c)
        if ew: return lambda s:s.endswith(c)
    else:
        if c.startswith('[') and c.endswith(']'):
            if len(c)<2: raise Panic
            d=c[1:-1]
            if '[' not in d:
                neg=d.startswith('^')
                if neg: d=d[1:]
                if sw and ew: return lambda s:len(s)==1 and (s in d)!=neg
                if sw: return lambda s:s!='' and (s[0] in d)!=neg
                if ew: return lambda s:s!='' and (s[-1] in d)!=neg
    return None
def ctx(r):
    o=opt(r)
    if o: return o
    p=rx(r); return lambda s:p.search(s) is not None
def phoneme(p):
    if '[' in p:
        i=p.index('[')
        if not p.endswith(']'): raise BadConfig
        return (p[:i],frozenset(p[i+1:-1].split('+')))
    return (p,ANY)
def expr(p):
    if p.startswith('('):
        if not p.endswith(')'): raise BadConfig
        q=p[1:-1]
        l=[phoneme(x) for x in q.split('|')]
        if q.startswith('|') or q.endswith('|'): l.append(('',ANY))
        return l
    return [phoneme(p)]
class Config:
    def __init__(s,files):  # name -> text
        s.files=files; s.langs={}; s.lang={}; s.rules={}
        for nt in('ash','gen','sep'):
            t=files[nt+'_languages.txt']; out=set(); k=0
            while k<len(t):
                for q in(EOLR,MULT,LANGUAGE):
                    m=q.match(t,k)
                    if m: break
                else: raise BadConfig
                if q is LANGUAGE: out.add(m[1])
                k=m.end()
            s.langs[nt]=out
        for nt in('ash','gen','sep'):
            t=files[nt+'_lang.txt']; out=[]; k=0
            while k<len(t):
                for q in(EOLR,MULT,LANG):
                    m=q.match(t,k)
                    if m: break
                else: raise BadConfig
                if q is LANG: out.append((rx(m[1]),set(m[2].split('+')),m[3]=='true'))
                k=m.end()
            s.lang[nt]=out
        for nt in('ash','gen','sep'):
            for rt in('approx','exact','rules'):
                for l in sorted(s.langs[nt])+(['common'] if rt!='rules' else []):
                    s.rules[nt,rt,l]=s.parse(f'{nt}_{rt}_{l}')
    def parse(s,fn):
        if fn+'.txt' not in s.files: raise BadConfig
        t=s.files[fn+'.txt']; k=0; res={}
        while k<len(t):
            for q in(QUAD,EOLR,INCL,MULT):
                m=q.match(t,k)
                if m: break
            else: raise BadConfig((fn,t[k:k+40]))
            if q is QUAD:
                g=[m[i] if m[i] is not None else m[i+1] for i in(1,3,5,7)]
                pat,l,r,ph=g
                rule=(pat,ctx(l+'$'),ctx('^'+r),expr(ph))
                if not pat: raise Panic
                res.setdefault(pat[0],[]).append(rule)
            elif q is INCL: res.update(s.parse(m[1]))
            k=m.end()
        return res
PRE={'ash':["bar","ben","da","de","van","von"],
 'gen':["da","dal","de","del","dela","de la","della","des","di","do","dos","du","van","von"],
 'sep':["al","el","da","dal","de","del","dela","de la","della","des","di","do","dos","du","van","von"]}
class Engine:
    def __init__(s,c,nt,rt,concat,mx): s.c,s.nt,s.rt,s.concat,s.mx=c,nt,rt,concat,mx
    def guess(s,t):
        t=t.lower(); L=set(s.c.langs[s.nt])
        for p,ls,acc in s.c.lang[s.nt]:
            if p.search(t): L=L&ls if acc else L-ls
        return frozenset(L) if L else ANY
    def encode(s,t): return s.encl(t,s.guess(t))
    def step(s,rules,t,i,b):
        for pat,l,r,ph in rules.get(t[i],[]):
            e=i+len(pat)
            if e<=len(t) and t[i:e]==pat and r(t[e:]) and l(t[:i]):
                nb={}
                def go():
                    for lt in sorted(b):
                        for rt_,rl in ph:
                            x=restrict(b[lt],rl)
                            if not empty(x):
                                if len(nb)<s.mx: nb.setdefault(lt+rt_,x)
                                if len(nb)>=s.mx: return
                go()
                return e,nb,True
        return i+1,b,False
    def final(s,b,rules):
        if not rules: return b
        out={}
        for t in sorted(b):
            sub={'':b[t]}; i=0
            while i<len(t):
                j,sub2,f=s.step(rules,t,i,sub)
                if not f: sub2={k+t[i]:v for k,v in sub.items()}
                sub=sub2; i=j
            for k in sorted(sub):
                if k in out: out[k]=merge(out[k],b[t])
                else: out[k]=sub[k]
        return out
    def encl(s,t,langs):
        l=next(iter(langs)) if langs not in(ANY,NO) and len(langs)==1 else 'any'
        try: rules=s.c.rules[s.nt,'rules',l]; f1=s.c.rules[s.nt,s.rt,'common']; f2=s.c.rules[s.nt,s.rt,l]
        except KeyError: raise Panic
        t=t.lower().replace('-',' ')
        if s.nt=='gen':
            if t.startswith("d'"):
                r=t[2:]; return '('+s.encode(r)+')-('+s.encode('d'+r)+')'
            for p in sorted(PRE['gen']):
                if t.startswith(p+' '):
                    r=t[len(p)+1:]; return '('+s.encode(r)+')-('+s.encode(p+r)+')'
        w=split_ws(t)
        if not s.concat and len(w)!=1: return '-'.join(s.encode(x) for x in w)
        w2=[x.split("'")[-1] if s.nt=='sep' else x for x in w]
        w2=[x for x in w2 if s.nt=='gen' or x not in PRE[s.nt]]
        t=' '.join(w2) if s.concat else w[0]
        b={'':langs}; i=0
        while i<len(t): i,b,_=s.step(rules,t,i,b)
        b=s.final(s.final(b,f1),f2)
        return '|'.join(sorted(b))
WS=set([9,10,11,12,13,32,0x85,0xa0,0x1680,*range(0x2000,0x200b),0x2028,0x2029,0x202f,0x205f,0x3000])
def split_ws(t): return ''.join(' ' if ord(c) in WS else c for c in t).split(' ') and [x for x in ''.join(' ' if ord(c) in WS else c for c in t).split(' ') if x]
