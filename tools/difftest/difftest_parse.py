"""Rule files: the parsers of the model against a port, on random and damaged texts: tables, line numbers, error
texts and panics.  The regular-expression engines differ on exotic patterns ('[]a', '[a$]c', '[ab]*'): those are the only
differences reported.  usage: difftest_parse.py SEED COUNT VERIF_VO_DIR WORKDIR
"""
import sys,os,subprocess
EX = r"""From Coq Require Import List NArith Extraction ExtrOcamlBasic ExtrOcamlNatInt ExtrOcamlZInt.
From Verif Require Import Base UnicodeM UnicodeReal Lib RulesParser DaitchMokotoff BmLanguages BmRegex BmRule BmEngine MiniRegex.
Import ListNotations.
Extract Inductive N => int [ "0" "(fun p->p)" ] "(fun f0 fp n -> if n=0 then f0 () else fp n)".
Inductive out := OPanic | OFuel | OErr (l:nat) (f:option (list N)) (c d:list N) | OBm (t:list N) | OBad | OOk (x:list (list (list N))).
Definition pe (e:ParseError) := OErr (pe_line_number e) (pe_filename e) (pe_line_content e) (pe_description e).
Definition ph (e:PhoneticError) := match e with ParseRuleError p => pe p | BMErr (BadContextRegex _) => OBad | BMErr b => OBm (bm_error_text b) end.
Definition lg (l:LanguageSet) := match l with LAny => [[0%N]] | NoLanguages => [[1%N]] | SomeLanguages l => l end.
Definition dr (r:BmRule) := [bm_location r; [N.of_nat (bm_line r)]; bm_pattern r] ++ flat_map (fun p => ph_text p :: lg (ph_languages p)) (bm_phoneme r).
Definition f_rule (files:list (list N * option (list N))) (d:nat) (fn:list N) :=
 match parse_rule real_unicode mini_engine {| rs_lookup := find_file files; rs_not_found := fun x => x |} d fn with
 | Panic => OPanic | NoFuel => OFuel | Ok (RErr e) => ph e
 | Ok (ROk m) => OOk (flat_map (fun kv => [[fst kv]] :: map dr (snd kv)) m) end.
Definition f_dms t := match dms_build t true with Panic => OPanic | NoFuel => OFuel | Ok (inr e) => pe e
 | Ok (inl d) => OOk (flat_map (fun kv => [[fst kv]] :: map (fun r => [r_pattern r] ++ [[0%N]] ++ r_at_start r ++ [[0%N]] ++ r_before_vowel r ++ [[0%N]] ++ r_default r) (snd kv)) (dms_rules d) ++ [[map fst (dms_folding_rules d); map snd (dms_folding_rules d)]]) end.
Definition f_lang t := match parse_lang mini_engine (Some [70%N]) [[97%N]] (length t) [] 0 t with Panic => OPanic | NoFuel => OFuel | Ok (RErr e) => ph e
 | Ok (ROk l) => OOk (map (fun r => [[N.of_nat (lr_line_number r)]; [if lr_accept_on_match r then 1 else 0]%N; lr_pattern r] ++ lr_languages r) (lang_rules l)) end.
Definition f_list t := match parse_liste (length t) [] 0 t with Panic => OPanic | NoFuel => OFuel | Ok (RErr e) => ph e | Ok (ROk l) => OOk [l] end.
Extraction "ex.ml" f_rule f_dms f_lang f_list.
"""
ML = r"""open Ex
let parse s = if s="" then [] else List.map int_of_string (String.split_on_char ',' s)
let show l = String.concat "," (List.map string_of_int l)
let pr o = print_endline (match o with
 | OPanic -> "P" | OFuel -> "F" | OBad -> "R" | OBm t -> "B;"^show t
 | OErr (l,f,c,d) -> Printf.sprintf "E;%d;%s;%s;%s" l (match f with None -> "-" | Some f -> show f) (show c) (show d)
 | OOk x -> "K;"^String.concat ";" (List.map (fun y -> String.concat "/" (List.map show y)) x))
let () = try while true do
  match String.split_on_char ';' (input_line stdin) with
  | ["D";t] -> pr (f_dms (parse t))
  | ["L";t] -> pr (f_lang (parse t))
  | ["S";t] -> pr (f_list (parse t))
  | ["R";a;b;c] -> pr (f_rule [([97],Some (parse a));([98],Some (parse b));([99;45;95],Some (parse c))] 6 [97])
  | _ -> failwith "line" done with End_of_file -> ()
"""
vo,work=sys.argv[3],sys.argv[4]
os.makedirs(work,exist_ok=True)
if not os.path.exists(work+'/m'):
    open(work+'/Ex.v','w').write(EX); open(work+'/main.ml','w').write(ML)
    subprocess.run(['coqc','-R',vo,'Verif','Ex.v'],cwd=work,check=True,stderr=subprocess.DEVNULL)
    subprocess.run('ulimit -s unlimited; ocamlfind ocamlopt -w -a ex.mli ex.ml main.ml -o m',shell=True,cwd=work,check=True,stderr=subprocess.DEVNULL)
import sys,random,subprocess,re
from port_beider_morse import *
sh=lambda s:','.join(str(ord(x)) for x in s)
FOLDR=re.compile(r'(.)=(.)'+EOL,re.S)
INC2=re.compile(r'#include ((?:[^\W]|-)+)'+EOL)
class E(Exception): pass
class B(Exception): pass
class Rx(Exception): pass
class Fuel(Exception): pass
def err(n,f,rem,d): return E(f"E;{n};{'-' if f is None else sh(f)};{sh(rem.split(chr(10))[0])};{sh(d)}")
def valid(p):
    try: rx(p); return True
    except re.error: return False
def g4(m): return [m[i] if m[i] is not None else m[i+1] for i in(1,3,5,7)]
def dms(t):
    k=0;n=0;rules={};fold={}
    while k<len(t):
        n+=1
        m=QUAD.match(t,k)
        if m:
            p,a,b,d=g4(m)
            if not p: raise Panic
            rules.setdefault(p[0],[]).append((p,a,b,d)); k=m.end(); continue
        m=FOLDR.match(t,k)
        if m: fold[m[1]]=m[2]; k=m.end(); continue
        m=EOLR.match(t,k)
        if m: k=m.end(); continue
        m=MULT.match(t,k)
        if m: n+=len(m[1].split('\n')); k=m.end(); continue
        raise err(n,None,t[k:],"Can't recognize line")
    out=[]
    for c in sorted(rules):
        out.append((sh(c),['/'.join([sh(p)]+sum((['0']+[sh(z) for z in x.split('|')] for x in(a,b,d)),[])) for p,a,b,d in sorted(rules[c],key=lambda r:-len(r[0].encode()))]))
    return out,[(x,fold[x]) for x in sorted(fold)]
def lang(t):
    k=n=0;out=[]
    while k<len(t):
        n+=1
        m=EOLR.match(t,k)
        if m: k=m.end(); continue
        m=MULT.match(t,k)
        if m: n+=len(m[1].split('\n'))-1; k=m.end(); continue
        m=LANG.match(t,k)
        if m:
            k=m.end()
            if not valid(m[1]): raise Rx((n,t[k:]))
            out.append('/'.join([str(n),str(int(m[3]=='true')),sh(m[1])]+[sh(x) for x in sorted(set(m[2].split('+')))])); continue
        raise err(n,None,t[k:],"Can't parse line for language detection")
    return out
def lst(t):
    k=n=0;out=set()
    while k<len(t):
        n+=1
        m=EOLR.match(t,k)
        if m: k=m.end(); continue
        m=MULT.match(t,k)
        if m: n+=len(m[1].split('\n'))-1; k=m.end(); continue
        m=LANGUAGE.match(t,k)
        if m: k=m.end(); out.add(m[1]); continue
        raise err(n,None,t[k:],"Can't parse line for languages")
    return '/'.join(map(sh,sorted(out)))
def chkctx(r):
    if opt(r) is None and not valid(r): raise Rx(None)
def ph1(p):
    if '[' in p:
        i=p.index('[')
        if not p.endswith(']'): raise B("Wrong phoneme : Phoneme expression "+p+" has a '[' but doesn't ends with an ']'")
        return [sh(p[:i])]+[sh(x) for x in sorted(set(p[i+1:-1].split('+')))]
    return [sh(p),'0']
def phx(p):
    if p.startswith('('):
        if not p.endswith(')'): raise B("Wrong phoneme : Wrong phoneme rule "+p)
        q=p[1:-1]; o=sum((ph1(x) for x in q.split('|')),[])
        if q.startswith('|') or q.endswith('|'): o+=['','0']
        return o
    return ph1(p)
def rule(files,fn,depth):
    if depth==0: raise Fuel
    if fn not in files: raise B("Wrong file name : "+fn)
    t=files[fn];k=n=0;res={}
    while k<len(t):
        n+=1
        m=QUAD.match(t,k)
        if m:
            k=m.end(); p,l,r,x=g4(m)
            chkctx(l+'$'); chkctx('^'+r); o=phx(x)
            if not p: raise Panic
            res.setdefault(p[0],[]).append('/'.join([sh(fn),str(n),sh(p)]+o)); continue
        m=EOLR.match(t,k)
        if m: k=m.end(); continue
        m=INC2.match(t,k)
        if m:
            k=m.end()
            try: res.update(rule(files,m[1],depth-1))
            except B as e: raise err(n,fn,t[k:],e.args[0])
            except Rx: raise Rx('inc')
            continue
        m=MULT.match(t,k)
        if m: n+=len(m[1].split('\n'))-1; k=m.end(); continue
        raise err(n,fn,t[k:],"Can't parse line")
    return res
rnd=random.Random(int(sys.argv[1])); N=int(sys.argv[2])
J=['"','\n',' ','\t','/','*','\\','a','=','#','|','(',')','[',']','+','\r','é','😀','-','1','^','$','//','/*','*/','\r\n','""']
def q():
    r=rnd.random()
    if r<.06: return ''
    if r<.1: return '\\"'
    return ''.join(rnd.choice(['a','b','é','|','(','a','[ab]','[^b]','c',')','^','1','[a+b]','']) for _ in range(rnd.randint(1,3)))
def phq():
    r=rnd.random()
    one=lambda: rnd.choice(['','a','b','xy'])+rnd.choice(['','','[a+b]','[c]','[]','[a','[b+a+b]'])
    if r<.5: return one()
    return rnd.choice(['(','(','('])+'|'.join(one() for _ in range(rnd.randint(1,3)))+rnd.choice([')',')',')',')',''])
sp=lambda: rnd.choice([' ',' ','  ','\t',' \t'])
eol=lambda: rnd.choice(['\n','\n','\n','\r\n',' // x\n','//\n',' \n','// é\r\n'])
def cm(): return '/*'+''.join(rnd.choice(['a','\n','*','/',' ']) for _ in range(rnd.randint(0,6)))+'*/'
def line(kind):
    r=rnd.random()
    if r<.15: return rnd.choice(['','// foo'])
    if r<.3: return cm()
    if kind=='D':
        if r<.5: return rnd.choice('aéb=1"#/')+'='+rnd.choice('ab=\n"')
        return sp().join('"'+q().replace('"','\\"' if 0 else '"')+'"' for _ in range(4))
    if kind=='R':
        if r<.42: return '#include '+rnd.choice(['b','b','c-_','c-_','zz','a'])
        ctx=lambda: rnd.choice(['','','a','[ab]','[^ab]','^','$','a$','[ab]c','[a','(a|b)','.'])
        return sp().join('"'+x+'"' for x in(rnd.choice(['a','b','ab','é','']) if rnd.random()<.2 else rnd.choice(['a','b','ab']),ctx(),ctx(),phq()))
    if kind=='L': return rnd.choice(['a','[ab]','^b','(a','x\ny','[a'])+' '+rnd.choice(['a+b','c','c+','a+a',''])+' '+rnd.choice(['true','false','true','tru'])
    return rnd.choice(['any','French','a1','é','spanish'])
def text(kind):
    t=''.join(line(kind)+eol() for _ in range(rnd.randint(0,5)))
    for _ in range(rnd.choice([0,0,0,1,1,2])):
        i=rnd.randrange(len(t)+1)
        t=t[:i]+(rnd.choice(J) if rnd.random()<.6 else '')+t[i+rnd.choice([0,1]):]
    if rnd.random()<.3 and t: t=t[:-1]
    return t
cases=[]
for _ in range(N):
    k=rnd.choice('DDRRRLS')
    cases.append((k,text(k)) if k!='R' else (k,text(k),text(k),text(k)))
out=subprocess.run([work+'/m'],input=''.join(c[0]+';'+';'.join(map(sh,c[1:]))+'\n' for c in cases),capture_output=True,text=True).stdout.split('\n')
def groups(s):  # K;key;rule;...  key = single field
    g={};cur=None
    for f in s.split(';')[1:]:
        if f=='' : continue
        if '/' not in f: cur=f; g[cur]=[]
        else: g[cur].append(f)
    return [(k,g[k]) for k in sorted(g,key=int)]
stat={};bad=[]
for c,o in zip(cases,out):
    k=c[0]
    try:
        if k=='D':
            a,b=dms(c[1]); x=(a,b)
            if o[0]=='K':
                parts=o.rsplit(';',1); fk,fv=parts[1].split('/'); 
                y=(groups(parts[0]),sorted((chr(int(p)),chr(int(q))) for p,q in zip(fk.split(','),fv.split(',')) if p)); 
            else: y=o
        elif k=='L': x='K;'+';'.join(lang(c[1])); y=o
        elif k=='S': x='K;'+lst(c[1]); y=o
        else: x=[(sh(kk),v) for kk,v in sorted(rule({'a':c[1],'b':c[2],'c-_':c[3]},'a',6).items())]; y=groups(o) if o[0]=='K' else o
        s=k+'K'
    except E as e: x=e.args[0]; y=o; s=k+'E'
    except B as e: x='B;'+sh(e.args[0]); y=o; s=k+'B'
    except Panic: x='P';y=o; s=k+'P'
    except Fuel: x='F';y=o; s=k+'F'
    except Rx as e: s=k+'R'; x='R'; y='R' if o[0] in 'RE' else o
    stat[s]=stat.get(s,0)+1
    if x!=y and not (k=='L' and o.startswith('E;') and o.split(';')[2]=='70') and not (k=='R' and o=='R'): bad.append((c,x,y))
print(N,len(out)-1,stat,'bad',len(bad))
for b in bad[:5]: print(b)
