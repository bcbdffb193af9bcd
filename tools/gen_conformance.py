#!/usr/bin/env python3
"""Generate rocq/theories/Conformance_encoders.v from the unit tests in /repo/src.

The generated file contains tests (vm_compute on literals), not proofs of
properties: they check that the model reproduces the expectations recorded in
the project's own test-suite."""
import re, sys
R='/repo/src/'
STR=r'"((?:[^"\\]|\\.)*)"'
def unesc(s):
    s=re.sub(r'\\u\{([0-9a-fA-F]+)\}',lambda m:chr(int(m.group(1),16)),s)
    return s.replace('\\n','\n').replace('\\t','\t').replace('\\r','\r').replace('\\"','"').replace("\\'","'").replace('\\\\','\\')
def coq(s):
    return '(str "%s")'%s.replace('"','""')
def tests(name):
    t=open(R+name+'.rs').read()
    i=t.index('#[cfg(test)]')
    t=t[i:]
    parts=re.split(r'\n    (?:#\[test\]\s*|#\[ignore\]\s*)*(?:pub )?fn (\w+)',t)
    return parts[0],[(parts[k],parts[k+1]) for k in range(1,len(parts),2)]
enc={}   # encoder expr -> list of (in,out)
eqs={}   # encoder expr -> list of (a,b,bool)
extra=[]
def E(e,a,b): enc.setdefault(e,[]).append((unesc(a),unesc(b)))
def Q(e,a,b,v): eqs.setdefault(e,[]).append((unesc(a),unesc(b),v))
U='latin1_only'
def common(body,e):
    for a,b in re.findall(r'\.encode\(\s*'+STR+r'\s*\),\s*'+STR,body): E(e,a,b)
    for a,b in re.findall(r'let result = \w+\.encode\('+STR+r'\);\s*assert_eq!\(result, '+STR,body): E(e,a,b)
    for n,a,b in re.findall(r'assert!\((!?)\w+\.is_encoded_equals\('+STR+r',\s*'+STR+r'\)',body): Q(e,a,b,n=='')
PAIR=r'\(\s*'+STR+r',\s*'+STR+r',?\s*\)'
# soundex
for n,b in tests('soundex')[1]:
    e=f'soundex_encode {U} soundex_default'
    if 'GENEALOGY' in b: e=f'soundex_encode {U} (soundex_from DEFAULT_US_ENGLISH_GENEALOGY_MAPPING_SOUNDEX)'
    if 'MAPPING_SOUNDEX, false' in b: e=f'soundex_encode {U} (soundex_new DEFAULT_US_ENGLISH_MAPPING_SOUNDEX false)'
    common(b,e)
    m=re.search(r'vec!\[(.*?)\];\s*check_encoding\(data, '+STR,b,re.S)
    if m:
        for v in re.findall(STR,m.group(1)): E(e,v,m.group(2))
    for x,y,k in re.findall(r'difference\('+STR+r', '+STR+r'\), (\d+)',b):
        extra.append(f'(match difference ({e}) {coq(unesc(x))} {coq(unesc(y))} with Ok k => Nat.eqb k {k} | _ => false end)')
for n,b in tests('refined_soundex')[1]:
    e=f'refined_encode {U} ENGLISH_MAPPING'
    common(b,e)
    for x,y,k in re.findall(r'difference\('+STR+r', '+STR+r'\), (\d+)',b):
        extra.append(f'(match difference ({e}) {coq(unesc(x))} {coq(unesc(y))} with Ok k => Nat.eqb k {k} | _ => false end)')
for n,b in tests('cologne')[1]:
    e=f'cologne_encode {U}'
    common(b,e)
    if 'Vec<(&str, &str)>' in b:
        for x,y in re.findall(PAIR,b):
            if 'is_encoded_equals' in b: Q(e,x,y,True)
            else: E(e,x,y)
    m=re.search(r'Vec<&str> = vec!\[(.*?)\];.*assert_eq!\(result, '+STR,b,re.S)
    if m:
        for v in re.findall(STR,m.group(1)): E(e,v,m.group(2))
for n,b in tests('caverphone')[1]:
    k=1 if 'Caverphone1' in b else 2
    common(b,f'caverphone{k}_encode {U}')
for n,b in tests('nysiis')[1]:
    if n in('encode','encode_all'): continue
    for vs,x in re.findall(r'encode_all\(\s*vec!\[(.*?)\],\s*'+STR,b,re.S):
        for v in re.findall(STR,vs): E(f'nysiis_encode {U} true',v,x)
    if re.search(r'\bencode\(values\)',b):
        for x,y in re.findall(PAIR,b): E(f'nysiis_encode {U} false',x,y)
    e=f'nysiis_encode {U} false' if 'Nysiis::new(false)' in b else f'nysiis_encode {U} true'
    common(b,e)
for n,b in tests('phonex')[1]:
    if n in('encode','preprocess','transcode'): continue
    if re.search(r'\bencode\(',b):
        for x,y in re.findall(PAIR,b): E(f'phonex_encode {U} 4',x,y)
    if n=='test_preprocess':
        for x,y in re.findall(r'\('+STR+r', String::from\('+STR+r'\)\)',b):
            extra.append(f'(seq_eqb (px_preprocess {U} {coq(unesc(x))}) {coq(unesc(y))})')
    m=re.search(r'Phonex::new\((\d+)\)',b)
    common(b,f'phonex_encode {U} {m.group(1) if m else 4}')
for n,b in tests('metaphone')[1]:
    mx='(Some 4)'
    m=re.search(r'Metaphone::new\((.*?)\);',b)
    if m: mx='None' if m.group(1)=='None' else '(Some %s)'%re.findall(r'\d+',m.group(1))[0]
    e=f'metaphone_encode {U} {mx}'
    common(b,e)
    if 'Vec<(&str, &str)>' in b:
        for x,y in re.findall(PAIR,b): Q(e,x,y,True)
    m=re.search(r'let v1 = '+STR+r';\s*let data: Vec<&str> = vec!\[(.*?)\];',b,re.S)
    if m:
        for v in re.findall(STR,m.group(2)): Q(e,m.group(1),v,True)
for n,b in tests('match_rating_approach')[1]:
    for x,y in re.findall(r'\.encode\('+STR+r'\), '+STR,b): E(f'mra_encode {U}',x,y)
    for neg,x,y in re.findall(r'assert!\((!?)encoder\.is_encoded_equals\('+STR+r',\s*'+STR+r'\)',b):
        want='true' if neg=='' else 'false'
        for p in ('Checked','Wrapping'):
            extra.append(f'(match mra_is_encoded_equals {p} {U} {coq(unesc(x))} {coq(unesc(y))} with Ok k => Bool.eqb k {want} | _ => false end)')
    for f,x,y in re.findall(r'MatchRatingApproach::(\w+)\(\s*'+STR+r'(?:\.to_string\(\))?\s*\),\s*'+STR,b):
        g={'remove_accent':'Ok (map plain %s)','remove_double_consonants':'Ok (remove_double_consonants latin1_only %s)','remove_vowels':'Ok (remove_vowels latin1_only %s)','get_first3_last3':'get_first3_last3 %s','clean_name':'Ok (clean_name latin1_only %s)'}[f]
        extra.append(f'(match {g%coq(unesc(x))} with Ok k => seq_eqb k {coq(unesc(y))} | _ => false end)')
    for x,y,k in re.findall(r'left_to_right_then_right_to_left_processing\(\s*'+STR+r'\.to_string\(\),\s*'+STR+r'\.to_string\(\)\s*\),\s*(\d+)',b):
        extra.append(f'(match mra_rate Checked {coq(x)} {coq(y)} with Ok k => Nat.eqb k {k} | _ => false end)')
    for x,k in re.findall(r'get_minimum_rating\((\d+)\), (\d+)',b):
        extra.append(f'(Nat.eqb (get_minimum_rating {x}) {k})')
pre,ts=tests('double_metaphone')
allt=open(R+'double_metaphone.rs').read()
P=lambda mx='(Some 4)':f'dm_encode {U} {mx}'
A=lambda mx='(Some 4)':f'dm_encode_alternate {U} {mx}'
m=re.search(r'static TEST_DATA: .*?= \[(.*?)\n    \];',allt,re.S)
for v,p,a in re.findall(r'\(\s*'+STR+r',\s*'+STR+r',\s*'+STR+r',?\s*\)',m.group(1)): E(P(),v,p); E(A(),v,a)
m=re.search(r'const MATCHES: .*?= \[(.*?)\n    \];',allt,re.S)
matches=[(unesc(x),unesc(y)) for x,y in re.findall(PAIR,m.group(1))]
for n,b in ts:
    mx='(Some 4)'
    if 'DoubleMetaphone::new(None)' in b: mx='None'
    common(b,P(mx))
    for x,y in re.findall(r'let result = encoder\.encode_alternate\('+STR+r'\);\s*assert_eq!\(result, '+STR,b): E(A(mx),x,y)
    for x,y in re.findall(r'assert_double_metaphone\('+STR+r', '+STR,b): E(P(),y,x)
    for x,y in re.findall(r'assert_double_metaphone_alternate\('+STR+r', '+STR,b): E(A(),y,x)
    for neg,x,y,alt in re.findall(r'assert!\((!?)encoder\.is_double_metaphone_equal\('+STR+r', '+STR+r', (true|false)\)',b):
        want='true' if neg=='' else 'false'
        extra.append(f'(match is_double_metaphone_equal {U} (Some 4) {coq(unesc(x))} {coq(unesc(y))} {alt} with Ok k => Bool.eqb k {want} | _ => false end)')
    if n=='test_is_double_metaphone_equal_basic':
        for x,y in re.findall(PAIR,b): Q(P(),x,y,True); Q(A(),x,y,True)
o=['(** * Conformance tests (not proofs): the expectations of the unit tests of',
'    /repo/src, evaluated on the model.  Generated by tools/gen_conformance.py. *)',
'From Verif Require Import Base UnicodeM Lib Helper Soundex Cologne Caverphone Nysiis Phonex',
'  Metaphone MatchRating DoubleMetaphone.','',
'Definition chk (e : encoder) (l : list (ustr * ustr)) : bool :=',
'  forallb (fun io => match e (fst io) with Ok r => seq_eqb r (snd io) | _ => false end) l.',
'Definition chk_eq (e : encoder) (l : list (ustr * ustr * bool)) : bool :=',
'  forallb (fun t => match is_encoded_equals e (fst (fst t)) (snd (fst t)) with Ok b => Bool.eqb b (snd t) | _ => false end) l.','']
k=0
for e,l in enc.items():
    k+=1
    o.append(f'(* {len(l)} vectors *)\nExample conf_enc_{k} : chk ({e}) [')
    o.append(';\n'.join(f'  ({coq(a)}, {coq(b)})' for a,b in l))
    o.append('] = true.\nProof. vm_compute. reflexivity. Qed.\n')
k=0
for e,l in eqs.items():
    k+=1
    o.append(f'(* {len(l)} vectors *)\nExample conf_eq_{k} : chk_eq ({e}) [')
    o.append(';\n'.join(f'  ({coq(a)}, {coq(b)}, {"true" if v else "false"})' for a,b,v in l))
    o.append('] = true.\nProof. vm_compute. reflexivity. Qed.\n')
o.append('Example conf_dm_matches : forallb (fun ab => match is_double_metaphone_equal latin1_only (Some 4) (fst ab) (snd ab) false, is_double_metaphone_equal latin1_only (Some 4) (fst ab) (snd ab) true with Ok x, Ok y => x || y | _, _ => false end) [')
o.append(';\n'.join(f'  ({coq(a)}, {coq(b)})' for a,b in matches)); o.append('] = true.\nProof. vm_compute. reflexivity. Qed.\n')
o.append('Example conf_extra : forallb (fun b : bool => b) ['); o.append(';\n'.join('  '+x for x in extra)); o.append('] = true.\nProof. vm_compute. reflexivity. Qed.')
open('/verif/rocq/theories/Conformance_encoders.v','w').write('\n'.join(o)+'\n')
for e,l in enc.items(): print(len(l),e)
for e,l in eqs.items(): print('eq',len(l),e)
print('extra',len(extra),'matches',len(matches))
