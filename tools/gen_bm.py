#!/usr/bin/env python3
"""Generate BmCcRules.v (the rule directory test_assets/cc-rules as data),
BmEmbedded.v (rules/bm) and Conformance_bm.v (tests of beider_morse/*.rs run on
the model)."""
import re,glob,os
T='/verif/rocq/theories/'
def cs(s): return '"%s"'%s.replace('"','""')
def dirfile(mod,name,path,doc):
    o=['(** * %s'%doc,'    Generated by tools/gen_bm.py: file names and contents copied verbatim. *)',
    'From Verif Require Import Base BmLanguages.','']
    names=[]
    for f in sorted(glob.glob(path+'/*.txt')):
        n=os.path.basename(f); i='f_'+n[:-4].replace('-','_'); names.append((n,i))
        o.append('Definition %s_%s : ustr := Eval vm_compute in str %s%%string.'%(name,i,cs(open(f,encoding='utf8').read())))
    o.append('Definition %s : directory := Eval vm_compute in ['%name)
    o.append(';\n'.join('  (str %s%%string, Some %s_%s)'%(cs(n),name,i) for n,i in names)); o.append('].')
    open(T+mod+'.v','w',encoding='utf8').write('\n'.join(o)+'\n')
dirfile('BmCcRules','cc_rules','/repo/test_assets/cc-rules','The rule directory test_assets/cc-rules.')
dirfile('BmEmbedded','bm_embedded_files','/repo/rules/bm','The embedded Beider-Morse rules (rules/bm, included at src/beider_morse/rule.rs:436-494).')
R='/repo/src/beider_morse/'
STR=r'"((?:[^"\\]|\\.|\\\n)*)"'
def unesc(s):
    s=re.sub(r'\\\n\s*','',s)
    s=re.sub(r'\\u\{([0-9a-fA-F]+)\}',lambda m:chr(int(m.group(1),16)),s)
    return s.replace("\\'","'")
NT={'gen':'Generic','ash':'Ashkenazi','sep':'Sephardic'}
rows=[]
t=open(R+'engine.rs').read(); t=t[t.index('mod tests'):]
for v,e,n,r,c,m in re.findall(r'\(\s*'+STR+r',\s*'+STR+r',\s*NameType::(\w+),\s*RuleType::(\w+),\s*(true|false),\s*(\d+)\s*\)',t):
    rows.append((unesc(v),unesc(e),n,r,c,m,None))
for fn in t.split('#[test]')[2:]:
    args={}
    for m in re.finditer(r'(BTreeMap::new\(\))|args\.insert\('+STR+', '+STR+r'\)|assert_eq!\(\s*encode_helper\(config_files, args, (true|false), '+STR+r'\),\s*'+STR,fn):
        if m.group(1): args={}
        elif m.group(2): args[m.group(2)]=m.group(3)
        else:
            rows.append((unesc(m.group(5)),unesc(m.group(6)),NT[args.get('nameType','gen')],args.get('ruleType','approx').capitalize(),m.group(4),'20',args.get('languageSet')))
o=['(** * Conformance tests (not proofs) for the Beider-Morse model: the tests of',
'    src/beider_morse, with the rule directory test_assets/cc-rules and the small',
'    regular-expression matcher of MiniRegex.v.  Generated by tools/gen_bm.py. *)',
'From Verif Require Import Base UnicodeM Lib RulesParser DaitchMokotoff BmLanguages BmRegex BmRule BmEngine',
'  MiniRegex BmCcRules BmEmbedded BmDefault.','Local Open Scope N_scope.','',
'(** Lowercase of the few letters above Latin-1 used in the tests. *)',
'Definition test_unicode : Unicode := {|',
'  hi_alphabetic := fun _ => true; hi_numeric := fun _ => false; hi_lowercase := fun _ => false;',
'  hi_whitespace := fun c => (c =? 8203) && false; hi_cased := fun _ => true; hi_case_ignorable := fun _ => false;',
'  hi_upper := fun c => [c];',
'  hi_lower := fun c => if (913 <=? c) && (c <=? 937) then [c + 32] else if (1040 <=? c) && (c <=? 1071) then [c + 32]',
'                       else if c =? 268 then [269] else [c] |}.','',
'Definition cc_config : ConfigFiles := Eval vm_compute in',
'  match config_new test_unicode mini_engine cc_rules 3 with Ok (ROk c) => c | _ => {| cf_langs := []; cf_rules := [] |} end.',
'Example cc_config_built : (match config_new test_unicode mini_engine cc_rules 3 with Ok (ROk _) => true | _ => false end) = true.',
'Proof. vm_compute. reflexivity. Qed.','',
'Definition mk (n : NameType) (t : PrivateRuleType) (concat : bool) (max : nat) : PhoneticEngine :=',
'  {| pe_rules := cf_rules cc_config;',
'     pe_lang := match nt_assoc n (cf_langs cc_config) with Some l => l | None => {| lang_languages := []; lang_rules := [] |} end;',
'     pe_name_type := n; pe_rule_type := t; pe_concat := concat; pe_max_phonemes := max |}.',
'Definition run (e : PhoneticEngine) (langs : option LanguageSet) (s : ustr) : res ustr :=',
'  match langs with None => bm_encode test_unicode mini_engine e s | Some l => bm_encode_with_languages test_unicode mini_engine e s l end.',
'Definition ok (r : res ustr) (x : ustr) : bool := match r with Ok y => seq_eqb y x | _ => false end.','',
'(* %d vectors *)'%len(rows),'Example conf_bm : forallb (fun b : bool => b) [']
def langs(l): return 'None' if l is None or l=='auto' else '(Some (ls_of_vec [%s]))'%'; '.join('str '+cs(x) for x in l.split(','))
o.append(';\n'.join('  ok (run (mk %s %s %s %s) %s (str %s)) (str %s)'%(n,r,c,m,langs(l),cs(v),cs(e)) for v,e,n,r,c,m,l in rows))
o+=['] = true.','Proof. vm_compute. reflexivity. Qed.','']
t=open(R+'lang.rs').read(); t=t[t.index('mod tests'):]
g=re.findall(r'\('+STR+r', LanguageSet::(Any|from\(vec!\[(.*?)\]\))\)',t)
o.append('Definition ls_eqb (a b : LanguageSet) : bool := match a, b with LAny, LAny => true | NoLanguages, NoLanguages => true | SomeLanguages x, SomeLanguages y => Nat.eqb (length x) (length y) && forallb (fun xy => seq_eqb (fst xy) (snd xy)) (combine x y) | _, _ => false end.')
o.append('(* lang.rs: %d vectors *)\nExample conf_guess : forallb (fun b : bool => b) ['%len(g))
o.append(';\n'.join('  ls_eqb (guess_languages test_unicode mini_engine (pe_lang (mk Generic Approx true 20)) (str %s)) %s'%(cs(unesc(v)),'LAny' if x=='Any' else '(ls_of_vec [%s])'%'; '.join('str '+cs(z) for z in re.findall(STR,y))) for v,x,y in g))
o+=['] = true.','Proof. vm_compute. reflexivity. Qed.','']
# embedded
o+=['(** rules/bm through the embedded resolver (src/beider_morse/rule.rs:344-350), mod.rs test_config_file_default. *)',
'Example conf_embedded : (match build_rules test_unicode mini_engine embedded_resolver 3 languages_default with',
'  | Ok (ROk r) => match rules_get r (Generic, Exact, $ "any"), rules_get r (Generic, Approx, $ "any") with',
'                  | Some a, Some b => Nat.eqb (length a) 8 && Nat.eqb (length b) 22 | _, _ => false end',
'  | _ => false end) = true.','Proof. vm_compute. reflexivity. Qed.','']
inc={os.path.basename(f):open(f,encoding='utf8').read() for f in glob.glob('/repo/test_assets/test-include/*')}
o+=['(** rule.rs test_parse_rule_include. *)','Definition include_dir : directory := [',';\n'.join('  (str %s, Some (str %s))'%(cs(k),cs(v)) for k,v in inc.items()),'].',
'Example conf_include : (match parse_rule test_unicode mini_engine (dir_resolver include_dir) 3 $ "gen_exact_german" with',
'  | Ok (ROk m) => let ps := flat_map (fun kv => map bm_pattern (snd kv)) m in',
'      Nat.eqb (length ps) 2 && sset_mem $ "included" ps && sset_mem $ "original" ps',
'  | _ => false end) = true.','Proof. vm_compute. reflexivity. Qed.']
open(T+'Conformance_bm.v','w',encoding='utf8').write('\n'.join(o)+'\n')
print(len(rows),len(g),inc.keys())
