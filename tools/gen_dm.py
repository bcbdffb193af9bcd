#!/usr/bin/env python3
"""Generate DmRules.v (the embedded rule text rules/dmrules.txt, parsed by the
model's own builder) and Conformance_dm.v (unit tests of daitch_mokotoff.rs and
rules_parser.rs, evaluated on the model)."""
import re
T='/verif/rocq/theories/'
STR=r'"((?:[^"\\]|\\.|\\\n)*)"'
def unesc(s):
    s=re.sub(r'\\\n\s*','',s)
    s=re.sub(r'\\u\{([0-9a-fA-F]+)\}',lambda m:chr(int(m.group(1),16)),s)
    out='';i=0
    while i<len(s):
        if s[i]=='\\':
            out+={'n':'\n','t':'\t','r':'\r','"':'"',"'":"'",'\\':'\\'}[s[i+1]]; i+=2
        else: out+=s[i]; i+=1
    return out
def lit(s): return '[%s]'%'; '.join(str(ord(c)) for c in s)
def coq(s): return '(str "%s")'%s.replace('"','""')
rules=open('/repo/rules/dmrules.txt',encoding='utf8').read()
o=['(** * The embedded Daitch-Mokotoff rules (rules/dmrules.txt, included at',
'    src/daitch_mokotoff.rs:27).  Generated by tools/gen_dm.py: the text is copied',
'    verbatim and parsed by the model of the builder. *)',
'From Verif Require Import Base UnicodeM Lib RulesParser DaitchMokotoff.','',
'Definition dmrules_text : ustr := Eval vm_compute in str "%s"%%string.'%rules.replace('"','""'),'',
'(** src/daitch_mokotoff.rs:259-263, [Default]: folding enabled. *)',
'Definition dms_default : DMS := Eval vm_compute in',
'  match dms_build dmrules_text true with',
'  | Ok (inl d) => d',
'  | _ => {| dms_ascii_folding := true; dms_rules := []; dms_folding_rules := [] |}',
'  end.','',
'Lemma dms_default_built : dms_build dmrules_text true = Ok (inl dms_default).',
'Proof. vm_compute. reflexivity. Qed.']
open(T+'DmRules.v','w').write('\n'.join(o)+'\n')
t=open('/repo/src/daitch_mokotoff.rs',encoding='utf8').read()
t=t[t.index('mod tests'):]
# expected default table
i=t.index('fn test_default_rules'); j=t.index('fn test_custom_rule')
body=t[i:j]
fold=re.findall(r"insert\('(.)', '(.)'\)",body)
tab=re.findall(r"rules\.insert\(\s*'(.)',\s*vec!\[(.*?)\],\s*\);",body,re.S)
def vec(s): return '[%s]'%'; '.join(coq(unesc(x)) for x in re.findall(STR,s))
rows=[]
for c,b in tab:
    rs=[]
    for p,a,v,d in re.findall(r'pattern: '+STR+r'\.to_string\(\),\s*replacement_at_start: vec!\[(.*?)\],\s*replacement_before_vowel: vec!\[(.*?)\],\s*replacement_default: vec!\[(.*?)\],\s*\}',b,re.S):
        rs.append('{| r_pattern := %s; r_at_start := %s; r_before_vowel := %s; r_default := %s |}'%(coq(unesc(p)),vec(a),vec(v),vec(d)))
    rows.append('  (chr "%s", [%s])'%(c,';\n    '.join(rs)))
o=['(** * Conformance tests (not proofs) for the Daitch-Mokotoff model and the rule',
'    parsers.  Generated by tools/gen_dm.py from the unit tests in /repo/src. *)',
'From Verif Require Import Base UnicodeM Lib RulesParser DaitchMokotoff DmRules.','Local Open Scope N_scope.','',
'Definition lseq (a b : list ustr) : bool := Nat.eqb (length a) (length b) && forallb (fun xy => seq_eqb (fst xy) (snd xy)) (combine a b).',
'Definition rule_eqb (a b : Rule) : bool := seq_eqb (r_pattern a) (r_pattern b) && lseq (r_at_start a) (r_at_start b) && lseq (r_before_vowel a) (r_before_vowel b) && lseq (r_default a) (r_default b).',
'Definition rules_eqb (a b : list Rule) : bool := Nat.eqb (length a) (length b) && forallb (fun xy => rule_eqb (fst xy) (snd xy)) (combine a b).','',
'(* daitch_mokotoff.rs test_default_rules *)',
'Definition expected_table : list (N * list Rule) := [',';\n'.join(rows),'].',
'Definition expected_folding : list (N * N) := [','; '.join('(chr "%s", chr "%s")'%x for x in fold),'].',
'Example conf_default_rules : Nat.eqb (length (dms_rules dms_default)) (length expected_table) && forallb (fun kv => match assoc (fst kv) (dms_rules dms_default) with Some l => rules_eqb l (snd kv) | None => false end) expected_table = true.',
'Proof. vm_compute. reflexivity. Qed.',
'Example conf_default_folding : forallb (fun kv => match assoc (fst kv) (dms_folding_rules dms_default) with Some l => l =? snd kv | None => false end) expected_folding = true.',
'Proof. vm_compute. reflexivity. Qed.','']
# soundex/encode vectors: helper for lowercase of chars >=256 not needed except identity
sv=[(unesc(a),unesc(b)) for a,b in re.findall(r'\.soundex\(\s*'+STR+r'\s*\),\s*'+STR,t)]
ev=[(unesc(a),unesc(b)) for a,b in re.findall(r'\.encode\(\s*'+STR+r'\s*\),\s*'+STR,t)]
for n,f in re.findall(r'fn (\w+)\(\)[^{]*\{(.*?)\n    \}\n',t,re.S):
    for lst,exp in re.findall(r'vec!\[([^\]]*)\];.*?encode\(\w+\),\s*'+STR,f,re.S):
        ev+=[(unesc(x),unesc(exp)) for x in re.findall(STR,lst)]
def vecs(l): return '[\n'+';\n'.join('  (%s, %s)'%(coq(a),coq(b)) for a,b in l)+']'
o+=['Definition chkv (e : encoder) (l : list (ustr * ustr)) : bool :=',
'  forallb (fun io => match e (fst io) with Ok r => seq_eqb r (snd io) | _ => false end) l.',
'(* %d vectors *)'%len(sv),'Example conf_dm_soundex : chkv (dms_soundex latin1_only dms_default) '+vecs(sv)+' = true.','Proof. vm_compute. reflexivity. Qed.',
'(* %d vectors *)'%len(ev),'Example conf_dm_encode : chkv (dms_encode latin1_only dms_default) '+vecs(ev)+' = true.','Proof. vm_compute. reflexivity. Qed.']
# malformed
m=re.search(r'fn test_malformed_custom_rule\(\) \{(.*?)\n    \}\n',t,re.S)
print(m.group(1))
# rules_parser tests
t=open('/repo/src/rules_parser.rs',encoding='utf8').read(); t=t[t.index('mod tests'):]
P={'quadruplet':('quadruplet',4),'folding':('folding',2),'end_of_line':('end_of_line',0),'lang':('lang',3),'multiline_comment':('multiline_comment',1),'language':('language',1),'include':('(include latin1_only)',1)}
ex=[]
for part in t.split('#[test]')[1:]:
    if 'should_fail' in part and 'lang()' in part: continue
    m=re.search(r'(\w+)\(\)\s*\.parse\(\s*'+STR,part)
    if not m: continue
    p,s=m.group(1),unesc(m.group(2)); n=P[p][0]
    if 'is_err' in part: ex.append('match %s %s with None => true | _ => false end'%(n,coq(s))); continue
    rem=unesc(re.search(r'assert_eq!\(remains, '+STR,part).group(1))
    vals=re.findall(r'assert_eq!\((\w+), (.*?)\);',part); vals=[v for k,v in vals if k!='remains']
    if p=='quadruplet': c='(a,b,c,d)'; conds=['seq_eqb %s %s'%(x,coq(unesc(v[1:-1]))) for x,v in zip('abcd',vals)]
    elif p=='folding': c='(a,b)'; conds=['(%s =? chr "%s")'%(x,v[1:-1]) for x,v in zip('ab',vals)]
    elif p=='lang': c='(a,b,c)'; conds=['seq_eqb %s %s'%(x,coq(unesc(v[1:-1]))) for x,v in zip('ab',vals)]+['negb c' if 'assert!(!include)' in part else 'c']
    elif p=='multiline_comment': c='a'; conds=['Nat.eqb a %s'%vals[0]]
    else: c='_'; conds=['true']
    ex.append('match %s %s with Some (%s, r) => seq_eqb r %s && %s | None => false end'%(n,coq(s),c,coq(rem),' && '.join(conds)))
o+=['(* rules_parser.rs: %d tests *)'%len(ex),'Example conf_parsers : forallb (fun b : bool => b) [',';\n'.join('  '+e for e in ex),'] = true.','Proof. vm_compute. reflexivity. Qed.']
open(T+'Conformance_dm.v','w').write('\n'.join(o)+'\n')
print(len(sv),len(ev),len(ex),len(rows),len(fold))
