"""Beider-Morse codes: the model against port_beider_morse.py on random names, all name and rule types, with and
without given languages, over test_assets/cc-rules.  usage: difftest_bm.py SEED COUNT VERIF_VO_DIR WORKDIR
"""
import sys,os,subprocess
EX = r"""From Coq Require Import List NArith Extraction ExtrOcamlBasic ExtrOcamlNatInt ExtrOcamlZInt.
From Verif Require Import Base UnicodeM UnicodeReal BmLanguages BmRegex BmRule BmEngine MiniRegex.
Extract Inductive N => int [ "0" "(fun p->p)" ] "(fun f0 fp n -> if n=0 then f0 () else fp n)".
Definition cfg (files : list (list N * option (list N))) := match config_new real_unicode mini_engine (folder_of files) 3 with Ok (ROk c) => Some c | _ => None end.
Definition eng (c : ConfigFiles) (n t : nat) (cc : bool) (m : nat) : PhoneticEngine :=
  let n := match n with 0 => Ashkenazi | 1 => Generic | _ => Sephardic end in
  {| pe_rules := cf_rules c; pe_lang := match nt_assoc n (cf_langs c) with Some l => l | None => {| lang_languages := nil; lang_rules := nil |} end;
     pe_name_type := n; pe_rule_type := match t with 0 => Approx | _ => Exact end; pe_concat := cc; pe_max_phonemes := m |}.
Definition enc e s := match bm_encode real_unicode mini_engine e s with Ok x => Some x | _ => None end.
Definition encl e s l := match bm_encode_with_languages real_unicode mini_engine e s (SomeLanguages l) with Ok x => Some x | _ => None end.
Extraction "ex.ml" cfg eng enc encl.
"""
ML = r"""open Ex
let parse s = if s="" then [] else List.map int_of_string (String.split_on_char ',' s)
let show l = String.concat "," (List.map string_of_int l)
let so = function Some l -> show l | None -> "!"
let () =
  let n = int_of_string (input_line stdin) in
  let files = List.init n (fun _ -> let nm = input_line stdin in let tx = input_line stdin in (parse nm, Some (parse tx))) in
  let files = List.rev (List.rev files) in
  match cfg files with
  | None -> print_endline "NOCONFIG"
  | Some c ->
   print_endline "CONFIG";
   try while true do
    let l = input_line stdin in
    match String.split_on_char ';' l with
    | [a;nt;rt;cc;mx;lg] ->
      let e = eng c (int_of_string nt) (int_of_string rt) (cc="1") (int_of_string mx) in
      let a = parse a in
      print_endline (if lg="-" then so (enc e a) else so (encl e a (if lg="" then [] else List.map parse (String.split_on_char '+' lg))))
    | _ -> failwith "line"
   done with End_of_file -> ()
"""
vo,work=sys.argv[3],sys.argv[4]
os.makedirs(work,exist_ok=True)
if not os.path.exists(work+'/m'):
    open(work+'/Ex.v','w').write(EX); open(work+'/main.ml','w').write(ML)
    subprocess.run(['coqc','-R',vo,'Verif','Ex.v'],cwd=work,check=True,stderr=subprocess.DEVNULL)
    subprocess.run('ulimit -s unlimited; ocamlfind ocamlopt -w -a ex.mli ex.ml main.ml -o m',shell=True,cwd=work,check=True,stderr=subprocess.DEVNULL)
import sys,random,subprocess,os
from port_beider_morse import *
D='/repo/test_assets/cc-rules'
files={f:open(D+'/'+f,encoding='utf8',newline='').read() for f in sorted(os.listdir(D))}
c=Config(files)
rnd=random.Random(int(sys.argv[1])); n=int(sys.argv[2])
sh=lambda s:','.join(str(ord(x)) for x in s)
pats=sorted({r[0] for m in c.rules.values() for v in m.values() for r in v})
odd=[' ','-',"'","d'",'de ','van ','de la ','ben ','al ','ß','é','ż','ł','ő','ц','ш','א','ב','İ','Σ','\u00a0','1']
def gen():
    k=rnd.random()
    if k<.15:
        s=rnd.choice(["d'",'de ','van ','de la ','ben ','al ','el ','bar ','dela '])+gen()
        return s
    s=''.join(rnd.choice(pats) if rnd.random()<.5 else rnd.choice('abcdefghijklmnopqrstuvwxyzaeiou') for _ in range(rnd.randint(1,5)))
    if k<.4:
        i=rnd.randrange(len(s)+1); s=s[:i]+rnd.choice(odd)+s[i:]
    if rnd.random()<.2: s=s.upper()
    return s
cases=[]
NT=['ash','gen','sep'];RT=['approx','exact']
for _ in range(n):
    nt=rnd.randrange(3); L=None
    if rnd.random()<.3:
        al=sorted(c.langs[NT[nt]])+['xx']; L=sorted(set(rnd.choice(al) for _ in range(rnd.choice([0,1,1,1,2,3]))))
    cases.append((gen(),nt,rnd.randrange(2),rnd.random()<.7,rnd.choice([20,20,20,5,1,0,100]),L))
inp=str(len(files))+'\n'+''.join(sh(k)+'\n'+sh(v)+'\n' for k,v in files.items())+''.join(f"{sh(a)};{nt};{rt};{int(cc)};{mx};{'-' if L is None else '+'.join(map(sh,L))}\n" for a,nt,rt,cc,mx,L in cases)
out=subprocess.run(['bash','-c','ulimit -s unlimited; exec '+work+'/m'],input=inp,capture_output=True,text=True).stdout.split('\n')
print(out[0],len(out)-2,n)
bad=[];pan=0;lens=0
for (a,nt,rt,cc,mx,L),o in zip(cases,out[1:]):
    e=Engine(c,NT[nt],RT[rt],cc,mx)
    try: x=sh(e.encode(a) if L is None else e.encl(a,frozenset(L)))
    except Panic: x='!';pan+=1
    lens+=len(x)
    if x!=o: bad.append((a,nt,rt,cc,mx,L,x,o))
print('panics',pan,'avg',lens/n,'bad',len(bad))
for b in bad[:4]: print(b[:6], *(''.join(chr(int(z)) for z in y.split(',') if z not in('','!')) for y in b[6:]))
