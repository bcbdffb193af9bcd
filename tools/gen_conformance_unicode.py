"""Writes rocq/theories/Conformance_unicode.v: the Latin-1 part of UnicodeM.v against Python's unicodedata."""
import unicodedata as U, os
L=[chr(i) for i in range(256)]
def lst(f): return '['+'; '.join(str(i) for i in range(256) if f(L[i]))+']'
alpha=lst(lambda c:U.category(c)[0]=='L')
num=lst(lambda c:U.category(c)[0]=='N')
low=lst(lambda c:c.islower() or U.category(c)=='Ll' or c in 'ªº')
ws=lst(lambda c:c in '\t\n\v\f\r \x85\xa0')
ci=lst(lambda c:U.category(c) in('Mn','Me','Cf','Lm','Sk') or c in "'.:·")
up='['+'; '.join('(%d, [%s])'%(i,'; '.join(str(ord(d)) for d in L[i].upper())) for i in range(256) if L[i].upper()!=L[i])+']'
lo='['+'; '.join('(%d, [%s])'%(i,'; '.join(str(ord(d)) for d in L[i].lower())) for i in range(256) if L[i].lower()!=L[i])+']'
out=f'''(** * Conformance_unicode: the Latin-1 part of [UnicodeM] against the Unicode Character Database.
    GENERATED by tools/gen_conformance_unicode.py (Python's unicodedata).  These are checks of
    literals, not properties: they guard the transcription of the standard library's tables. *)
From Verif Require Import Base UnicodeM.
Local Open Scope N_scope.
Definition latin1 : list N := map N.of_nat (seq 0 256).
Definition members (f : N -> bool) : list N := filter f latin1.
Definition changed (f : N -> ustr) : list (N * ustr) :=
  filter (fun p => negb (seq_eqb (snd p) [fst p])) (map (fun c => (c, f c)) latin1).
Example conf_alphabetic : forall u, members (is_alphabetic u) = {alpha}.
Proof. reflexivity. Qed.
Example conf_numeric : forall u, members (is_numeric u) = {num}.
Proof. reflexivity. Qed.
Example conf_lowercase : forall u, members (is_lowercase u) = {low}.
Proof. reflexivity. Qed.
Example conf_whitespace : forall u, members (is_whitespace u) = {ws}.
Proof. reflexivity. Qed.
Example conf_cased : forall u, members (cased u) = {alpha}.
Proof. reflexivity. Qed.
Example conf_case_ignorable : forall u, members (case_ignorable u) = {ci}.
Proof. reflexivity. Qed.
Example conf_upper : forall u, changed (to_upper u) = {up}.
Proof. reflexivity. Qed.
Example conf_lower : forall u, changed (to_lower u) = {lo}.
Proof. reflexivity. Qed.
(** From U+0100 on the tables are the oracle's. *)
Example conf_high : forall u c, 256 <= c ->
  is_alphabetic u c = hi_alphabetic u c /\\ is_numeric u c = hi_numeric u c /\\ is_lowercase u c = hi_lowercase u c
  /\\ is_whitespace u c = hi_whitespace u c /\\ cased u c = hi_cased u c /\\ case_ignorable u c = hi_case_ignorable u c
  /\\ to_upper u c = hi_upper u c /\\ to_lower u c = hi_lower u c.
Proof.
  intros u c H. assert (E : (c <? 256) = false) by (now apply N.ltb_ge).
  unfold is_alphabetic, is_numeric, is_lowercase, is_whitespace, cased, case_ignorable, to_upper, to_lower. rewrite E. now repeat split.
Qed.
'''
open(os.path.join(os.path.dirname(os.path.abspath(__file__)),'../rocq/theories/Conformance_unicode.v'),'w').write(out)
