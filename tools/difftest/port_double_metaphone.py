class Panic(Exception): pass
def bnd(b,i): return i==len(b) or (0<=i<len(b) and (b[i]&0xC0)!=0x80)
def is_vowel(c,y):
    return c in ('a','e','i','o','u') or (y and c=='y') if c is not None else False
def alow(c):
    return c if c is None else (c.lower() if ord(c)<128 else c)
class R:
    def __init__(s,m): s.p='';s.a='';s.m=m
    def ac(s,ch,alt=None): s.acp(ch); s.aca(ch if alt is None else alt)
    def acp(s,ch):
        if s.m is None or len(s.p.encode())<s.m: s.p+=ch
    def aca(s,ch):
        if s.m is None or len(s.a.encode())<s.m: s.a+=ch
    def as_(s,v,alt=None): s.asp(v); s.asa(v if alt is None else alt)
    def asp(s,v):
        if s.m is None: s.p+=v
        else:
            r=s.m-len(s.p)
            if r<0: raise Panic
            s.p+=v[:r]
    def asa(s,v):
        if s.m is None: s.a+=v
        else:
            r=s.m-len(s.a)
            if r<0: raise Panic
            s.a+=v[:r]
    def complete(s): return s.m is not None and len(s.p)>=s.m and len(s.a)>=s.m
class V:
    def __init__(s,t): s.t=t; s.b=t.encode()
    def n(s): return len(s.b)
    def c(s,start,l,*crit):
        if start<0: return False
        if start+l<=len(s.b):
            if not(bnd(s.b,start) and bnd(s.b,start+l)): raise Panic
            return s.b[start:start+l].decode() in crit
        return False
    def at(s,i):
        if 0<=i<len(s.b):
            if not bnd(s.b,i): raise Panic
            return s.b[i:].decode()[0]
        return None
def vow(v,i): return is_vowel(alow(v.at(i)),True)
def dm(text,m):
    r=R(m); t=trim(text)
    if not t: return r
    t=t.upper()   # python full upper
    v=V(t)
    sg=('W' in t) or ('K' in t) or ('CZ' in t) or ('WITZ' in t)
    ci=[];o=0
    for ch in t: ci.append((o,ch)); o+=len(ch.encode())
    k=0
    if any(t.startswith(x) for x in("GN","KN","PN","WR","PS")): k=1
    while not r.complete() and k<len(ci):
        i,ch=ci[k]
        nx=lambda c:1 if v.at(i+1)==c else 0
        sk=0
        if ch in 'AEIOUY':
            if i==0: r.ac('A')
        elif ch=='B': r.ac('P'); sk=nx('B')
        elif ch=='Ç': r.ac('S')
        elif ch=='C': sk=hc(v,r,i)
        elif ch=='D': sk=hd(v,r,i)
        elif ch=='F': r.ac('F'); sk=nx('F')
        elif ch=='G': sk=hg(v,r,i,sg)
        elif ch=='H': sk=hh(v,r,i)
        elif ch=='J': sk=hj(v,r,i,sg)
        elif ch=='K': r.ac('K'); sk=nx('K')
        elif ch=='L': sk=hl(v,r,i)
        elif ch=='M': r.ac('M'); sk=1 if cm0(v,i) else 0
        elif ch=='N': r.ac('N'); sk=nx('N')
        elif ch=='Ñ': r.ac('N')
        elif ch=='P': sk=hp(v,r,i)
        elif ch=='Q': r.ac('K'); sk=nx('Q')
        elif ch=='R': sk=hr(v,r,i,sg)
        elif ch=='S': sk=hs(v,r,i,sg)
        elif ch=='T': sk=ht(v,r,i)
        elif ch=='V': r.ac('F'); sk=nx('V')
        elif ch=='W': sk=hw(v,r,i)
        elif ch=='X': sk=hx(v,r,i)
        elif ch=='Z': sk=hz(v,r,i,sg)
        k+=1+sk
    return r
def hc(v,r,i):
    if cc0(v,i): r.ac('K'); return 1
    if i==0 and v.c(i,6,"CAESAR"): r.ac('S'); return 1
    if v.c(i,2,"CH"): return hch(v,r,i)
    if v.c(i,2,"CZ") and (i<2 or not v.c(i-2,4,"WICZ")): r.ac('S','X'); return 1
    if v.c(i+1,3,"CIA"): r.ac('X'); return 2
    if v.c(i,2,"CC") and not(i==1 and v.at(0)=='M'): return hcc(v,r,i)
    if v.c(i,2,"CK","CG","CQ"): r.ac('K'); return 1
    if v.c(i,2,"CI","CE","CY"):
        if v.c(i,3,"CIO","CIE","CIA"): r.ac('S','X')
        else: r.ac('S')
        return 1
    r.ac('K')
    if v.c(i+1,2," C"," Q"," G"): return 2
    if v.c(i+1,1,"C","K","Q") and not v.c(i+1,2,"CE","CI"): return 1
    return 0
def cc0(v,i):
    if v.c(i,4,"CHIA"): return True
    if i<1: return False
    if i<2 or (v.at(i-2) is not None and vow(v,i-2)): return False
    if i>0 and not v.c(i-1,3,"ACH"): return False
    ch=v.at(i+2)
    if i<2: return False
    return (ch is None or (ch!='I' and ch!='E')) or v.c(i-2,6,"BACHER","MACHER")
def hch(v,r,i):
    if i>0 and v.c(i,4,"CHAE"): r.ac('K','X')
    elif cch0(v,i) or cch1(v,i): r.ac('K')
    elif i>0:
        if v.c(0,2,"MC"): r.ac('K')
        else: r.ac('X','K')
    else: r.ac('X')
    return 1
def cch0(v,i):
    if i!=0: return False
    if not v.c(i+1,5,"HARAC","HARIS") and not v.c(i+1,3,"HOR","HYM","HIA","HEM"): return False
    return not v.c(0,5,"CHORE")
def cch1(v,i):
    return (v.c(0,4,"VAN","VON") or v.c(0,3,"SCH")) or (i>1 and v.c(i-2,6,"ORCHES","ARCHIT","ORCHID")) or (i>1 and v.c(i+2,1,"T","S")) or ((i==0 or v.c(i-1,1,"A","O","U","E")) and (v.c(i+2,1,"L","R","N","M","B","H","F","V","W"," ") or i+1==v.n()-1))
def hcc(v,r,i):
    if v.c(i+2,1,"I","E","H") and not v.c(i+2,2,"HU"):
        if (i==1 and v.at(i-1)=='A') or v.c(i-1,5,"UCCEE","UCCES"): r.as_("KS")
        else: r.ac('X')
        return 2
    r.ac('K'); return 1
def hd(v,r,i):
    if v.c(i,2,"DG"):
        if v.c(i+2,1,"I","E","Y"): r.ac('J'); return 2
        r.as_("TK"); return 1
    if v.c(i,2,"DT","DD"): r.ac('T'); return 1
    r.ac('T'); return 0
def hg(v,r,i,sg):
    if v.at(i+1)=='H': return hgh(v,r,i)
    if v.at(i+1)=='N':
        if i==1 and vow(v,0) and not sg: r.as_("KN","N")
        elif not v.c(i+2,2,"EY") and v.at(i+1)!='Y' and not sg: r.as_("N","KN")
        else: r.as_("KN")
        return 1
    if v.c(i+1,2,"LI") and not sg: r.as_("KL","L"); return 1
    if (i==0 and (v.at(i+1)=='Y' or v.c(i+1,2,"ES","EP","EB","EL","EY","IB","IL","IN","IE","EI","ER"))) or \
       ((v.c(i+1,2,"ER") or v.at(i+1)=='Y') and not v.c(0,6,"DANGER","RANGER","MANGER") and (i==0 or not v.c(i-1,1,"E","I")) and (i==0 or not v.c(i-1,3,"RGY","OGY"))):
        r.ac('K','J'); return 1
    if v.c(i+1,1,"E","I","Y") or (i>0 and v.c(i-1,4,"AGGI","OGGI")):
        if v.c(0,4,"VAN ","VON ") or v.c(0,3,"SCH") or v.c(i+1,2,"ET"): r.ac('K')
        elif v.c(i+1,3,"IER"): r.ac('J')
        else: r.ac('J','K')
        return 1
    if v.at(i+1)=='G': r.ac('K'); return 1
    r.ac('K'); return 0
def hgh(v,r,i):
    if i>0 and not vow(v,i-1): r.ac('K'); return 1
    if i==0:
        r.ac('J' if v.at(i+2)=='I' else 'K'); return 1
    if (i>1 and v.c(i-2,1,"B","H","D")) or (i>2 and v.c(i-3,1,"B","H","D")) or (i>3 and v.c(i-4,1,"B","H")): return 1
    if i>2 and v.at(i-1)=='U' and v.c(i-3,1,"C","G","L","R","T"): r.ac('F')
    elif i>0 and v.at(i-1)!='I': r.ac('K')
    return 1
def hh(v,r,i):
    if (i==0 or vow(v,i-1)) and vow(v,i+1): r.ac('H'); return 1
    return 0
def hj(v,r,i,sg):
    if v.c(i,4,"JOSE") or v.c(0,4,"SAN "):
        if ((i==0 and v.at(i+4)==' ') or v.n()==4) or v.c(0,4,"SAN "): r.ac('H')
        else: r.ac('J','H')
        return 0
    if i==0 and not v.c(i,4,"JOSE"): r.ac('J','A')
    elif i>0 and vow(v,i-1) and not sg and (v.at(i+1)=='A' or v.at(i+1)=='O'): r.ac('J','H')
    elif i==v.n()-1: r.ac('J',' ')
    elif not v.c(i+1,1,*"LTKSNMBZ") and (i==0 or not v.c(i-1,1,"S","K","L")): r.ac('J')
    return 1 if v.at(i+1)=='J' else 0
def hl(v,r,i):
    if v.at(i+1)=='L':
        if cl0(v,i): r.acp('L')
        else: r.ac('L')
        return 1
    r.ac('L'); return 0
def cl0(v,i):
    n=v.n()
    if n>=3 and i==n-3 and i>0 and v.c(i-1,4,"ILLO","ILLA","ALLE"): return True
    return ((n>1 and v.c(n-2,2,"AS","OS")) or (n!=0 and v.c(n-1,1,"A","O"))) and n!=0 and v.c(i-1,4,"ALLE")
def cm0(v,i):
    if v.at(i+1)=='M': return True
    return i>0 and v.c(i-1,3,"UMB") and (i+1==v.n()-1 or v.c(i+2,2,"ER"))
def hp(v,r,i):
    if v.at(i+1)=='H': r.ac('F'); return 1
    r.ac('P'); return 1 if v.c(i+1,1,"P","B") else 0
def hr(v,r,i,sg):
    if i>3 and i==v.n()-1 and not sg and v.c(i-2,2,"IE") and not v.c(i-4,2,"ME","MA"): r.aca('R')
    else: r.ac('R')
    return 1 if v.at(i+1)=='R' else 0
def hs(v,r,i,sg):
    if i>0 and v.c(i-1,3,"ISL","YSL"): return 0
    if i==0 and v.c(i,5,"SUGAR"): r.ac('X','S'); return 0
    if v.c(i,2,"SH"):
        r.ac('S' if v.c(i+1,4,"HEIM","HOEK","HOLM","HOLZ") else 'X'); return 1
    if v.c(i,3,"SIO","SIA") or v.c(i,4,"SIAN"):
        if sg: r.ac('S')
        else: r.ac('S','X')
        return 2
    if (i==0 and v.c(i+1,1,"M","N","L","W")) or v.c(i+1,1,"Z"):
        r.ac('S','X'); return 1 if v.c(i+1,1,"Z") else 0
    if v.c(i,2,"SC"): return hsc(v,r,i)
    if i>1 and i==v.n()-1 and v.c(i-2,2,"AI","OI"): r.aca('S')
    else: r.ac('S')
    return 1 if v.c(i+1,1,"S","Z") else 0
def hsc(v,r,i):
    if v.at(i+2)=='H':
        if v.c(i+3,2,"OO","ER","EN","UY","ED","EM"):
            if v.c(i+3,2,"ER","EN"): r.as_("X","SK")
            else: r.as_("SK")
        elif i==0 and not vow(v,3) and v.at(3)!='W': r.ac('X','S')
        else: r.ac('X')
    elif v.c(i+2,1,"I","E","Y"): r.ac('S')
    else: r.as_("SK")
    return 2
def ht(v,r,i):
    if v.c(i,4,"TION") or v.c(i,3,"TIA","TCH"): r.ac('X'); return 2
    if v.c(i,2,"TH") or v.c(i,3,"TTH"):
        if v.c(i+2,2,"OM","AM") or v.c(0,4,"VAN ","VON ") or v.c(0,3,"SCH"): r.ac('T')
        else: r.ac('0','T')
        return 1
    r.ac('T'); return 1 if v.c(i+1,1,"T","D") else 0
def hw(v,r,i):
    if v.c(i,2,"WR"): r.ac('R'); return 1
    if i==0 and (vow(v,i+1) or v.c(i,2,"WH")):
        if vow(v,i+1): r.ac('A','F')
        else: r.ac('A')
        return 0
    if (i>0 and i==v.n()-1 and vow(v,i-1)) or (i>0 and v.c(i-1,5,"EWSKI","EWSKY","OWSKI","OWSKY")) or v.c(0,3,"SCH"):
        r.aca('F'); return 0
    if v.c(i,4,"WICZ","WITZ"): r.as_("TS","FX"); return 3
    return 0
def hx(v,r,i):
    if i==0: r.ac('S'); return 0
    if not((i==v.n()-1) and ((i>2 and v.c(i-3,3,"IAU","EAU")) or (i>1 and v.c(i-2,2,"AU","OU")))): r.as_("KS")
    return 1 if v.c(i+1,1,"C","X") else 0
def hz(v,r,i,sg):
    if v.at(i+1)=='H': r.ac('J'); return 1
    if v.c(i+1,2,"ZO","ZI","ZA") or (sg and (i>0 and v.at(i-1)!='T')): r.as_("S","TS")
    else: r.ac('S')
    return 1 if v.at(i+1)=='Z' else 0
WS=set([9,10,11,12,13,32,0x85,0xa0,0x1680,*range(0x2000,0x200b),0x2028,0x2029,0x202f,0x205f,0x3000])
def trim(t):
    a,b=0,len(t)
    while a<b and ord(t[a]) in WS: a+=1
    while b>a and ord(t[b-1]) in WS: b-=1
    return t[a:b]
