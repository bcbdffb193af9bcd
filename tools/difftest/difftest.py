"""Differential test of the Rocq model against a Python port of the Rust source.

usage: difftest.py SEED COUNT VERIF_VO_DIR WORKDIR

The port (port_double_metaphone.py, port_others.py) was written from /repo/src by
hand, without looking at the model: byte offsets, boundary panics and all.  The
model is extracted to OCaml in WORKDIR (outside /verif) with the table of
characters UnicodeReal.v, both sides run on the same random names (letters,
fragments that the rules of the source mention, accented and odd characters)
and every difference is printed.  VERIF_VO_DIR is a compiled copy of
rocq/theories.  This is a test of the model's fidelity: no theorem depends on it.
"""
import random,re,subprocess,sys
import os,shutil
import port_others as others
from port_double_metaphone import *; from port_others import *
EX = r"""From Coq Require Import List NArith Extraction ExtrOcamlBasic ExtrOcamlNatInt ExtrOcamlZInt.
From Verif Require Import Base UnicodeM UnicodeReal Helper Soundex Metaphone Nysiis Phonex Caverphone Cologne MatchRating DaitchMokotoff DoubleMetaphone.
From Verif Require Import DmRules.
Extract Inductive N => int [ "0" "(fun p->p)" ] "(fun f0 fp n -> if n=0 then f0 () else fp n)".
Definition u := real_unicode.
Definition f_dm m s := match double_metaphone u m s with Ok r => Some (dm_primary r, dm_alternate r) | _ => None end.
Definition o {A} (r:res A) := match r with Ok x => Some x | _ => None end.
Definition f_me m s := o (metaphone_encode u m s).
Definition f_ny b s := o (nysiis_encode u b s).
Definition f_ph m s := o (phonex_encode u m s).
Definition f_c1 s := o (caverphone1_encode u s).
Definition f_c2 s := o (caverphone2_encode u s).
Definition f_co s := o (cologne_encode u s).
Definition f_mr s := o (mra_encode u s).
Definition f_mq a b := o (mra_is_encoded_equals Checked u a b).
Definition f_sx m h s := o (soundex_encode u (soundex_new m h) s).
Definition f_rs m s := o (refined_encode u m s).
Definition f_ds b s := o (inner_soundex u dms_default s b).
Extraction "ex.ml" f_dm f_me f_ny f_ph f_c1 f_c2 f_co f_mr f_mq f_sx f_rs f_ds.
"""
ML = r"""open Ex
let parse s = if s="" then [] else List.map int_of_string (String.split_on_char ',' s)
let show l = String.concat "," (List.map string_of_int l)
let so = function Some l -> show l | None -> "!"
let sx = parse "48,49,50,51,48,49,50,48,48,50,50,52,53,53,48,49,50,54,50,51,48,49,48,50,48,50"
let gx = parse "45,49,50,51,45,49,50,45,45,50,50,52,53,53,45,49,50,54,50,51,45,49,45,50,45,50"
let rx = parse "48,49,51,54,48,50,52,48,48,52,51,55,56,56,48,49,53,57,51,54,48,50,48,53,48,53"
let () = try while true do
  let l = input_line stdin in
  match String.split_on_char ';' l with
  | [a;b] ->
    let a=parse a and b=parse b in
    let d m = match f_dm m a with Some (p,q) -> show p^"/"^show q | None -> "!" in
    let out = [d None; d (Some 4); d (Some 1); d (Some 3); so (f_me None a); so (f_me (Some 4) a); so (f_me (Some 1) a); so (f_ny true a); so (f_ny false a);
      so (f_ph 4 a); so (f_ph 8 a); so (f_c1 a); so (f_c2 a); so (f_co a); so (f_mr a);
      (match f_mq a b with Some true -> "T" | Some false -> "F" | None -> "!");
      so (f_sx sx true a); so (f_sx gx false a); so (f_rs rx a);
      (match f_ds true a with Some l -> String.concat "|" (List.map show l) | None -> "!");
      (match f_ds false a with Some l -> String.concat "|" (List.map show l) | None -> "!")] in
    print_endline (String.concat ";" out)
  | _ -> failwith "line"
done with End_of_file -> ()
"""
vo,work=sys.argv[3],sys.argv[4]
os.makedirs(work,exist_ok=True)
if not os.path.exists(work+'/m'):
    open(work+'/Ex.v','w').write(EX); open(work+'/main.ml','w').write(ML)
    subprocess.run(['coqc','-R',vo,'Verif','Ex.v'],cwd=work,check=True,stderr=subprocess.DEVNULL)
    subprocess.run('ulimit -s unlimited; ocamlfind ocamlopt -w -a ex.mli ex.ml main.ml -o m',shell=True,cwd=work,check=True,stderr=subprocess.DEVNULL)
src=open(vo+'/UnicodeReal.v').read()
def ranges(n):
    t=re.search(r'Definition '+n+r'[^=]*:=(.*?)\.\n',src,re.S)[1]
    S=set()
    for a,b in re.findall(r'\((\d+), (\d+)\)',t): S.update(range(int(a),int(b)+1))
    return S
others.ALPHA=ranges('alphabetic_ranges')|{c for c in range(256) if chr(c).isalpha()}
others.LOWER=ranges('lowercase_ranges')|{c for c in range(256) if chr(c).islower()}
frag=set()
for f in ['double_metaphone','metaphone','nysiis','phonex','caverphone','cologne']:
    t=open(f'/repo/src/{f}.rs').read().split('cfg(test)')[0]
    frag.update(re.findall(r'"([A-Za-z ]{1,6})"',t))
frag.update(p for v in RULES.values() for p,_,_,_ in v)
frag=sorted(frag); L='ABCDEFGHIJKLMNOPQRSTUVWXYZ'
odd=" -'.,&Çñßéàüöäſıİ\u00a0ﬁŉǰΣςσŐŸ€😀中ΐΰ1\u0345\t"
rnd=random.Random(int(sys.argv[1])); n=int(sys.argv[2])
def gen():
    m=rnd.random()
    if m<.3: s=''.join(rnd.choice(L) for _ in range(rnd.randint(0,9)))
    elif m<.75: s=''.join(rnd.choice(frag) if rnd.random()<.5 else rnd.choice(L+'AEIOUH') for _ in range(rnd.randint(1,5)))
    else: s=''.join(rnd.choice(odd) if rnd.random()<.25 else (rnd.choice(frag) if rnd.random()<.4 else rnd.choice(L)) for _ in range(rnd.randint(0,6)))
    if rnd.random()<.2: s=s.lower()
    if rnd.random()<.1: s=s.capitalize()
    return s
def sh(s): return ','.join(str(ord(c)) for c in s)
def tr(f,*a):
    try: return sh(f(*a))
    except Panic: return '!'
def d(s,m):
    try: r=dm(s,m); return sh(r.p)+'/'+sh(r.a)
    except Panic: return '!'
def exp(a,b):
    o=[d(a,None),d(a,4),d(a,1),d(a,3),tr(metaphone,a,None),tr(metaphone,a,4),tr(metaphone,a,1),tr(nysiis,a,True),tr(nysiis,a,False),tr(phonex,a,4),tr(phonex,a,8),tr(cav1,a),tr(cav2,a),tr(cologne,a),tr(mra,a)]
    try: o.append('T' if mra_eq(a,b) else 'F')
    except Panic: o.append('!')
    o+=[tr(soundex,a,SM,True),tr(soundex,a,GM,False),tr(refined,a),'|'.join(map(sh,dmsx(a,True,True))),'|'.join(map(sh,dmsx(a,True,False)))]
    return o
names="dmN dm4 dm1 dm3 meN me4 me1 nyT nyF ph4 ph8 c1 c2 col mra mraeq sx gx rs ds ds1".split()
cases=[(gen(),gen()) for _ in range(n)]
for i in range(0,n,5):
    a=cases[i][0]; 
    if a: k=rnd.randrange(len(a)); cases[i]=(a,a[:k]+rnd.choice(L)+a[k+1:])
inp='\n'.join(sh(a)+';'+sh(b) for a,b in cases)+'\n'
out=subprocess.run([work+'/m'],input=inp,capture_output=True,text=True).stdout.split('\n')
bad={};pan={}
for (a,b),o in zip(cases,out):
    for nm,x,y in zip(names,exp(a,b),o.split(';')):
        if x=='!': pan[nm]=pan.get(nm,0)+1
        if x!=y: bad.setdefault(nm,[]).append((a,b,x,y))
print(n,len(out),'panics',pan)
for k,v in bad.items(): print(k,len(v),v[:4])
