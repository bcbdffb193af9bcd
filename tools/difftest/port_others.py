from port_double_metaphone import *
import re
def bs(b,a,c=None):
    c=len(b) if c is None else c
    if not(0<=a<=c<=len(b) and bnd(b,a) and bnd(b,c)): raise Panic
    return b[a:c]
def vw(c): return c is not None and c in 'aeiou'
def metaphone(text,m):
    w=text.upper(); wb=w.encode()
    if len(wb)==1: return w
    f=w[0] if w else None; g=w[1] if len(w)>1 else None
    if f is not None and f in 'KGP': loc=w[1:] if g=='N' else w
    elif f=='A': loc=w[1:] if g=='E' else w
    elif f=='W':
        if g=='R': loc=w[1:]
        elif g=='H': loc='W'+w[2:]
        else: loc=w
    elif f=='X': loc='S'+w[1:]
    else: loc=w
    L=loc.encode(); z=len(L); n=len(loc)
    code=''
    nth=lambda i: loc[i] if 0<=i<n else None
    prev=lambda i,c: i>0 and nth(i-1)==c
    nxt=lambda i,c: nth(i+1)==c
    last=lambda i: i+1==z
    isv=lambda i: vw(alow(nth(i)))
    fr=lambda c: c is not None and c in 'EIY'
    def reg(i,t):
        if not(i+len(t)-1<z): return False
        if not bnd(L,i): raise Panic
        return L[i:].startswith(t.encode())
    skip=0
    for i,s in enumerate(loc):
        if skip: skip-=1; continue
        if m is not None and len(code)==m: break
        if s=='C' or not prev(i,s):
            if s in 'AEIOU':
                if i==0: code+=s
            elif s=='B':
                if not prev(i,'M') or not last(i): code+=s
            elif s=='C':
                if prev(i,'S') and not last(i) and fr(nth(i+1)): pass
                elif reg(i,"CIA"): code+='X'
                elif not last(i) and fr(nth(i+1)): code+='S'
                elif prev(i,'S') and nxt(i,'H'): code+='K'
                elif nxt(i,'H'):
                    code+='K' if i==0 and z>3 and isv(2) else 'X'
                else: code+='K'
            elif s=='D':
                if not last(i+1) and nxt(i,'G') and fr(nth(i+2)): code+='J'; skip=2
                else: code+='T'
            elif s=='G':
                if (last(i+1) and nxt(i,'H')) or (not last(i+1) and nxt(i,'H') and not isv(i+2)) or (i>0 and (reg(i,"GN") or reg(i,"GNED"))): pass
                elif not prev(i,'G') and not last(i) and fr(nth(i+1)): code+='J'
                else: code+='K'
            elif s=='H':
                if last(i) or (i>0 and nth(i-1) in 'CSPTG'): pass
                elif isv(i+1): code+='H'
            elif s in 'FJLMNR': code+=s
            elif s=='K':
                if i==0 or not prev(i,'C'): code+=s
            elif s=='P': code+='F' if nxt(i,'H') else s
            elif s=='Q': code+='K'
            elif s=='S': code+='X' if reg(i,"SH") or reg(i,"SIO") or reg(i,"SIA") else 'S'
            elif s=='T':
                if reg(i,"TIA") or reg(i,"TIO"): code+='X'
                elif reg(i,"TCH"): pass
                elif reg(i,"TH"): code+='0'
                else: code+='T'
            elif s=='V': code+='F'
            elif s in 'WY':
                if not last(i) and isv(i+1): code+=s
            elif s=='X': code+='KS'
            elif s=='Z': code+='S'
        if m is not None and len(code)>m: code=code[:m]
    return code
def clean(v): return ''.join(c.upper() for c in v if alphabetic(c))
ALPHA=None
def alphabetic(c): return ord(c) in ALPHA
def nysiis(v,strict):
    t=clean(v)
    if not t: return t
    if t.startswith('MAC'): t='MCC'+t[3:]
    if t.startswith('KN'): t='NN'+t[2:]
    if t.startswith('K'): t='C'+t[1:]
    if t.startswith('PH') or t.startswith('PF'): t='FF'+t[2:]
    if t.startswith('SCH'): t='SSS'+t[3:]
    if t[-2:] in('EE','IE'): t=t[:-2]+'Y'
    if t[-2:] in('DT','RT','RD','NT','ND'): t=t[:-2]+'D'
    ch=list(t); n=len(ch); key=ch[0]; i=1
    while i<n:
        nx=ch[i+1] if i+1<n else None; nn=ch[i+2] if i+2<n else None
        for k,c in enumerate(trans(ch[i-1],ch[i],nx,nn)):
            if i+k>=n: raise Panic
            ch[i+k]=c
        if ch[i-1]!=ch[i]: key+=ch[i]
        i+=1
    t=key
    if len(t.encode())>1:
        if t.endswith('S'): t=t[:-1]
        if len(t.encode())>2 and t.endswith('AY'): t=t[:-2]+t[-1]
        if t.endswith('A'): t=t[:-1]
    if strict:
        b=t.encode(); return bs(b,0,min(len(b),6)).decode()
    return t
def trans(p,c,n,nn):
    if c=='E' and n=='V': return 'AF'
    if vw(alow(c)): return 'A'
    if c=='Q': return 'G'
    if c=='Z': return 'S'
    if c=='M': return 'N'
    if c=='K': return 'NN' if n=='N' else 'C'
    if c=='S' and n=='C' and nn=='H': return 'SSS'
    if c=='P' and n=='H': return 'FF'
    if (c=='H' and (not vw(alow(p)) or not vw(alow(n)))) or (c=='W' and vw(alow(p))): return p
    return c
def phonex(v,m):
    t=clean(v)
    while t.endswith('S'): t=t[:-1]
    if t[:2]=='KN': t='N'+t[1:]
    elif t[:2]=='PH': t='F'+t[1:]
    elif t[:2]=='WR': t='R'+t[1:]
    if t[:1]=='H': t=t[1:]
    f=t[:1]
    if f and f in 'EIOUY': t='A'+t[1:]
    elif f=='P': t='B'+t[1:]
    elif f=='V': t='F'+t[1:]
    elif f and f in 'KQ': t='C'+t[1:]
    elif f=='J': t='G'+t[1:]
    elif f=='Z': t='S'+t[1:]
    res='';code='0';last='0';lp='0';k=0;n=len(t)
    vy=lambda c:is_vowel(alow(c),True)
    while k<n:
        i=k;cur=t[k];k+=1
        if len(res.encode())==m: break
        if i==0: res+=cur; lp=cur
        nx=t[k] if k<n else None
        sk=False
        if cur in 'BPFV': nc='1'
        elif cur in 'CSKGJQXZ': nc='2'
        elif cur in 'DT': nc=None if nx=='C' else '3'
        elif cur=='L': nc='4' if vy(nx) or nx is None else None
        elif cur in 'MN': nc='5'; sk=nx in('D','G')
        elif cur=='R': nc='6' if vy(nx) or nx is None else None
        else: nc='0'
        if nc is not None: code=nc
        if sk: k+=1; i+=1
        if last!=code and code!='0' and i!=0: res+=code; lp=code
        last=lp
        if i==0: last=code
    while len(res.encode())<m: res+='0'
    return res
def islower(c): return ord(c) in LOWER
LOWER=None
def compact(t,chs):
    r='';p=None
    for c in t:
        if c in chs:
            if p is None or p!=c: r+=c.upper(); p=c
        else: r+=c; p=None
    return r
def rend(t,a,b): return t[:len(t)-len(a)]+b if t.endswith(a) else t
def rstart(t,a,b): return b+t[len(a):] if t.startswith(a) else t
def caver_common(t):
    for a,b in [("cq","2q"),("ci","si"),("ce","se"),("cy","sy"),("tch","2ch"),("c","k"),("q","k"),("x","k"),("v","f"),("dg","2g"),("tio","sio"),("tia","sia"),("d","t"),("ph","fh"),("b","p"),("sh","s2"),("z","s")]: t=t.replace(a,b)
    if t and t[0] in 'aeiou': t='A'+t[1:]
    return ''.join('3' if c in 'aeiou' else c for c in t)
def cav1(s):
    if not s: return '1'*6
    t=''.join(c for c in lower(s) if islower(c))
    for a,b in [("cough","cou2f"),("rough","rou2f"),("tough","tou2f"),("enough","enou2f"),("gn","2n")]: t=rstart(t,a,b)
    t=rend(t,"mb","m2")
    t=caver_common(t)
    t=t.replace("3gh3","3kh3").replace("gh","22").replace('g','k')
    t=compact(t,'stpkfmn')
    for a,b in [("w3","W3"),("wy","Wy"),("wh3","Wh3"),("why","Why"),("w","2")]: t=t.replace(a,b)
    t=rstart(t,'h','A')
    for a,b in [("h","2"),("r3","R3"),("ry","Ry"),("r","2"),("l3","L3"),("ly","Ly"),("l","2"),("j","y"),("y3","Y3"),("y","2"),("2",""),("3","")]: t=t.replace(a,b)
    return bs((t+'1'*6).encode(),0,6).decode()
def cav2(s):
    if not s: return '1'*10
    t=''.join(c for c in lower(s) if islower(c))
    t=rend(t,'e','')
    for a,b in [("cough","cou2f"),("rough","rou2f"),("tough","tou2f"),("enough","enou2f"),("trough","trou2f"),("gn","2n")]: t=rstart(t,a,b)
    t=rend(t,"mb","m2")
    t=caver_common(t)
    t=t.replace('j','y'); t=rstart(t,'y3','Y3'); t=rstart(t,'y','A'); t=t.replace('y','3')
    t=t.replace("3gh3","3kh3").replace("gh","22").replace('g','k')
    t=compact(t,'stpkfmn')
    t=t.replace("w3","W3").replace("wh3","Wh3"); t=rend(t,'w','3'); t=t.replace('w','2')
    t=rstart(t,'h','A'); t=t.replace('h','2').replace('r3','R3'); t=rend(t,'r','3'); t=t.replace('r','2').replace('l3','L3')
    t=rend(t,'l','3'); t=t.replace('l','2').replace('2',''); t=rend(t,'3','A'); t=t.replace('3','')
    return bs((t+'1'*10).encode(),0,10).decode()
def lower(s): return s.lower()
def cologne(s):
    t=s.upper().replace('Ä','A').replace('Ü','U').replace('Ö','O')
    buf='';lo='/'
    def push(c):
        nonlocal buf,lo
        if c!='-' and lo!=c and (c!='0' or not buf): buf+=c
        lo=c
    lc='-'
    for k,c in enumerate(t):
        if not('A'<=c<='Z'): continue
        n=t[k+1] if k+1<len(t) else '-'
        if c in 'AEIJOUY': push('0')
        elif c=='B' or (c=='P' and n!='H'): push('1')
        elif c in 'DT' and n not in 'CSZ': push('2')
        elif c in 'FPVW': push('3')
        elif c in 'GKQ': push('4')
        elif c=='X' and lc not in 'CKQ': push('4');push('8')
        elif c in 'SZ': push('8')
        elif c=='C':
            if not buf: push('4' if n in 'AHKLOQRUX' else '8')
            elif lc in 'SZ' or n not in 'AHKOQUX': push('8')
            else: push('4')
        elif c in 'DTX': push('8')
        elif c=='R': push('7')
        elif c=='L': push('5')
        elif c in 'MN': push('6')
        elif c=='H': push('-')
        lc=c
    return buf
PL='AaEeIiOoUuAaEeIiOoUuYyAaEeIiOoUuYyAaOoNnAaEeIiOoUuYyAaCcOoUu'
UN=[0xC0,0xE0,0xC8,0xE8,0xCC,0xEC,0xD2,0xF2,0xD9,0xF9,0xC1,0xE1,0xC9,0xE9,0xCD,0xED,0xD3,0xF3,0xDA,0xFA,0xDD,0xFD,0xC2,0xE2,0xCA,0xEA,0xCE,0xEE,0xD4,0xF4,0xDB,0xFB,0x176,0x177,0xC3,0xE3,0xD5,0xF5,0xD1,0xF1,0xC4,0xE4,0xCB,0xEB,0xCF,0xEF,0xD6,0xF6,0xDC,0xFC,0x178,0xFF,0xC5,0xE5,0xC7,0xE7,0x150,0x151,0x170,0x171]
assert len(PL)==len(UN)==60
TR="-&'.,"
def mra(v):
    x=trim(v)
    if not x or len(x.encode())==1: return ''
    t=''.join(c for c in v.upper() if c not in TR and ord(c) not in WS)
    t=''.join(PL[UN.index(ord(c))] if ord(c) in UN else c for c in t)
    t=''.join(c for i,c in enumerate(t) if (i==0 or not vw(alow(c))) and c not in TR and ord(c) not in WS)
    t=t.upper()
    for d in 'BCDFGHJKLMNPQRSTVWXYZ': t=t.replace(d+d,d)
    b=t.encode()
    if len(b)>6: return (bs(b,0,3)+bs(b,len(b)-3)).decode()
    return t
def mra_eq(a,b):
    x,y=trim(a),trim(b)
    if not x or not y: return False
    if len(x.encode())==1 or len(y.encode())==1: return False
    if a==b: return True
    p,q=mra(a),mra(b)
    lp,lq=len(p.encode()),len(q.encode())
    if abs(lp-lq)>=3: return False
    s=lp+lq
    mn=5 if s<=4 else 4 if s<=7 else 3 if s<=11 else 2 if s==12 else 1
    n1,n2=list(p),list(q)
    if not n1 or not n2: raise Panic
    for i in range(len(n1)):
        if i>len(n2)-1: break
        if n1[i]==n2[i]: n1[i]=n2[i]=' '
        if n1[len(n1)-i-1]==n2[len(n2)-i-1]: n1[len(n1)-i-1]=n2[len(n2)-i-1]=' '
    r1=len(''.join(n1).replace(' ','').encode()); r2=len(''.join(n2).replace(' ','').encode())
    return abs(6-max(r1,r2))>=mn
SM="01230120022455012623010202"; GM="-123-12--22455-12623-1-2-2"; RM="01360240043788015936020505"
def mp(m,c):
    if not 0<=ord(c)-65<26: raise Panic
    return m[ord(c)-65]
def soundex(v,m,hw):
    t=clean(v)
    if not t: return t
    code=t[0];pr=mp(m,t[0])
    for c in t[1:]:
        if len(code)>=4: break
        if hw and c in 'HW': continue
        d=mp(m,c)
        if d=='-': continue
        if d!='0' and d!=pr: code+=d
        pr=d
    return code.ljust(4,'0')
def refined(v,m=RM):
    t=clean(v)
    if not t: return t
    code=t[0];pr=None
    for c in t:
        d=mp(m,c)
        if d!=pr: code+=d
        pr=d
    return code
RULES={};FOLD={}
for l in re.sub(r'/\*.*?\*/','',open('/repo/rules/dmrules.txt',encoding='utf8').read(),flags=re.S).split('\n'):
    x=re.match(r'"([^"]*)"\s+"([^"]*)"\s+"([^"]*)"\s+"([^"]*)"',l)
    if x: RULES.setdefault(x[1][0],[]).append((x[1],x[2].split('|'),x[3].split('|'),x[4].split('|')))
    elif re.match(r'.=.',l): FOLD[l[0]]=l[2]
for k in RULES: RULES[k].sort(key=lambda r:-len(r[0].encode()))
def dmsx(v,fold,branching):
    src=''
    for c in v:
        if ord(c) in WS: continue
        l=c.lower()[0]
        if fold and l in FOLD: l=FOLD[l]
        src+=l
    br=[('',None)]; last='\0'; i=0
    while i<len(src):
        c=src[i]; ctx=src[i:]; i+=1
        if c not in RULES: continue
        for pat,a,b,d in RULES[c]:
            if ctx.startswith(pat):
                k=len(pat.encode())
                rp=a if last=='\0' else (b if k<len(ctx.encode()) and k<len(ctx) and vw(ctx[k]) else d)
                nb=[]
                for bl,lr in br:
                    for x in rp:
                        force=(last=='m' and c=='n') or (last=='n' and c=='m')
                        y=bl
                        if (lr is None or not lr.endswith(x) or force) and len(y)<6: y=(y+x)[:6]
                        if (y,x) not in nb: nb.append((y,x))
                        if not branching: break
                br=nb
                if k>1: i+=k-1
                break
        last=c
    return [b.ljust(6,'0') for b,_ in br]
