#!/usr/bin/env python3
"""Generates rocq/theories/UnicodeReal.v: the case mappings and classes above
Latin-1 from Python's unicodedata, as an instance of the model's Unicode record."""
import unicodedata as ud, os
R=[c for c in range(256,0x110000) if not 0xD800<=c<0xE000]
def mapping(f):
    one={};sp={}
    for c in R:
        s=f(chr(c))
        if s!=chr(c):
            v=[ord(x) for x in s]
            if len(v)==1: one[c]=v[0]
            else: sp[c]=v
    keys=sorted(one); out=[]; i=0
    while i<len(keys):
        best=(keys[i],1,1,one[keys[i]])
        for step in (1,2):
            n=1; c=keys[i]
            while c+n*step in one and one[c+n*step]==one[c]+n*step: n+=1
            # step 2 runs must not cover a different key in between
            if n>best[1]: best=(c,n,step,one[c])
        lo,n,step,t=best
        out.append(best)
        cov={lo+k*step for k in range(n)}
        keys=[k for k in keys if k not in cov]
    return sorted(out),sp
def ranges(p):
    out=[];
    for c in R:
        if p(c):
            if out and out[-1][1]==c-1: out[-1][1]=c
            else: out.append([c,c])
    return out
cat=lambda c: ud.category(chr(c))
lo,los=mapping(str.lower); up,ups=mapping(str.upper)
classes=[('alphabetic','General categories L* and Nl (the property Alphabetic also has Other_Alphabetic).',lambda c: cat(c)[0]=='L' or cat(c)=='Nl'),
 ('numeric','General categories N*.',lambda c: cat(c)[0]=='N'),
 ('lowercase','[str.islower].',lambda c: chr(c).islower()),
 ('whitespace','[str.isspace].',lambda c: chr(c).isspace()),
 ('cased','Lower, upper or title case.',lambda c: chr(c).islower() or chr(c).isupper() or chr(c).istitle()),
 ('case_ignorable','General categories Mn, Me, Cf, Lm, Sk and some punctuation.',lambda c: cat(c) in('Mn','Me','Cf','Lm','Sk') or c in (0x2018,0x2019,0x2024,0x2027,0xfe13,0xfe52,0xfe55,0xff07,0xff0e,0xff1a))]
def w(items,per=8):
    L=[items[i:i+per] for i in range(0,len(items),per)]
    return ';\n   '.join('; '.join(x) for x in L)
o=[]
o.append('''(** * An instance of [Unicode] close to the real tables (generated by
    tools/gen_unicode.py from Python's unicodedata, Unicode %s).

    It is not part of the trusted base: no theorem depends on it.  It shows that
    the hypotheses [UnicodeOK] and [LowerOK] hold of real tables. *)
From Verif Require Import Base UnicodeM DaitchMokotoff BmLanguages BmRegex BmRule BmEngine Spec_bm Spec_bm_engine.
Local Open Scope N_scope.

(** A run of a case mapping: first character, number of characters, step, image
    of the first character. *)
Definition run := (N * N * N * N)%%type.
Definition run_has (c : N) (r : run) : bool :=
  let '(lo, n, step, _) := r in (lo <=? c) && (c <? lo + n * step) && ((c - lo) mod step =? 0).
Definition run_map (c : N) (r : run) : N := let '(lo, _, _, t) := r in t + (c - lo).
Fixpoint in_ranges (c : N) (l : list (N * N)) : bool :=
  match l with [] => false | (a, b) :: r => if c <? a then false else (c <=? b) || in_ranges c r end.
Fixpoint special (c : N) (l : list (N * ustr)) : option ustr :=
  match l with [] => None | (k, v) :: r => if k =? c then Some v else special c r end.
Definition case_map (sp : list (N * ustr)) (runs : list run) (c : N) : ustr :=
  match special c sp with
  | Some v => v
  | None => match find (run_has c) runs with Some r => [run_map c r] | None => [c] end
  end.
'''%ud.unidata_version)
for nm,(rs,sp) in (('lower',(lo,los)),('upper',(up,ups))):
    o.append('Definition %s_runs : list run :=\n  [%s].\n'%(nm,w(['(%d, %d, %d, %d)'%x for x in rs],5)))
    o.append('Definition %s_special : list (N * ustr) :=\n  [%s].\n'%(nm,w(['(%d, [%s])'%(k,'; '.join(map(str,v))) for k,v in sorted(sp.items())],5)))
for nm,doc,p in classes:
    o.append('(** %s *)\nDefinition %s_ranges : list (N * N) :=\n  [%s].\n'%(doc,nm,w(['(%d, %d)'%tuple(x) for x in ranges(p)])))
o.append('''Definition real_unicode : Unicode := {|
  hi_alphabetic := fun c => in_ranges c alphabetic_ranges;
  hi_numeric := fun c => in_ranges c numeric_ranges;
  hi_lowercase := fun c => in_ranges c lowercase_ranges;
  hi_whitespace := fun c => in_ranges c whitespace_ranges;
  hi_cased := fun c => in_ranges c cased_ranges;
  hi_case_ignorable := fun c => in_ranges c case_ignorable_ranges;
  hi_upper := case_map upper_special upper_runs;
  hi_lower := case_map lower_special lower_runs |}.

Lemma special_In : forall c l v, special c l = Some v -> In (c, v) l.
Proof.
  intros c. induction l as [|[k w] l IH]; intros v H; cbn [special] in H; [discriminate|].
  destruct (k =? c) eqn:E; [|right; now apply IH]. injection H as <-. left. f_equal. now apply N.eqb_eq.
Qed.
Lemma case_map_nonempty : forall sp runs c, (forall k v, In (k, v) sp -> v <> []) -> case_map sp runs c <> [].
Proof.
  intros sp runs c H. unfold case_map. destruct (special c sp) as [v|] eqn:E.
  - apply special_In in E. exact (H _ _ E).
  - destruct (find (run_has c) runs); discriminate.
Qed.
Theorem real_unicode_ok : UnicodeOK real_unicode.
Proof.
  split; intros c; apply case_map_nonempty.
  - assert (G : forallb (fun kv : N * ustr => match snd kv with [] => false | _ => true end) upper_special = true) by (vm_compute; reflexivity).
    rewrite forallb_forall in G. intros k v I. apply G in I. cbn in I. destruct v; discriminate.
  - assert (G : forallb (fun kv : N * ustr => match snd kv with [] => false | _ => true end) lower_special = true) by (vm_compute; reflexivity).
    rewrite forallb_forall in G. intros k v I. apply G in I. cbn in I. destruct v; discriminate.
Qed.

(** The characters a mapping changes. *)
Definition expand (r : run) : list N :=
  let '(lo, n, step, _) := r in map (fun k => lo + N.of_nat k * step) (seq 0 (N.to_nat n)).
Lemma run_has_expand : forall c r, (let '(_, _, step, _) := r in step <> 0) -> run_has c r = true -> In c (expand r).
Proof.
  intros c [[[lo n] step] t] S H. unfold run_has in H. unfold expand. apply andb_prop in H as [H M]. apply andb_prop in H as [A B].
  apply in_map_iff. exists (N.to_nat ((c - lo) / step)).
  assert (E : c - lo = step * ((c - lo) / step)) by (apply N.div_exact; [exact S|now apply N.eqb_eq]).
  apply N.leb_le in A. apply N.ltb_lt in B. split; [rewrite N2Nat.id, N.mul_comm, <- E; lia|].
  apply in_seq. assert ((c - lo) / step < n); [|lia].
  apply N.div_lt_upper_bound; [exact S|]. rewrite N.mul_comm. lia.
Qed.
Definition stable (x : N) : bool :=
  match to_lower real_unicode x with [y] => (y =? x) && negb (x =? 931) | _ => false end.
Lemma stable_spec : forall x, stable x = true -> to_lower real_unicode x = [x] /\\ x <> 931.
Proof.
  intros x H. unfold stable in H. destruct (to_lower real_unicode x) as [|y [|]]; try discriminate.
  apply andb_prop in H as [H1 H2]. apply N.eqb_eq in H1. subst. split; [reflexivity|]. intros ->. discriminate.
Qed.
Theorem real_lower_ok : LowerOK real_unicode.
Proof.
  split; [|split; vm_compute; reflexivity]. intros c x H.
  destruct (N.ltb_spec c 256) as [L|L].
  - assert (G : forallb (fun c => forallb stable (to_lower real_unicode c)) (map N.of_nat (seq 0 256)) = true) by (vm_compute; reflexivity).
    rewrite forallb_forall in G. assert (I : In c (map N.of_nat (seq 0 256))).
    { apply in_map_iff. exists (N.to_nat c). split; [lia|]. apply in_seq. lia. }
    apply G in I. rewrite forallb_forall in I. apply stable_spec. now apply I.
  - assert (E : to_lower real_unicode c = case_map lower_special lower_runs c).
    { unfold to_lower. destruct (N.ltb_spec c 256); [lia|reflexivity]. }
    destruct (special c lower_special) as [v|] eqn:S.
    + pose proof (special_In _ _ _ S) as I.
      assert (G : forallb (fun kv : N * ustr => forallb stable (snd kv)) lower_special = true) by (vm_compute; reflexivity).
      rewrite forallb_forall in G. apply G in I. cbn [snd] in I. rewrite forallb_forall in I. apply stable_spec. apply I.
      rewrite E in H. unfold case_map in H. now rewrite S in H.
    + destruct (find (run_has c) lower_runs) as [r|] eqn:F.
      * apply find_some in F as [F1 F2].
        assert (Z : forallb (fun r : run => let '(_, _, step, _) := r in negb (step =? 0)) lower_runs = true) by (vm_compute; reflexivity).
        rewrite forallb_forall in Z. pose proof (Z _ F1) as Z1. apply run_has_expand in F2; [|destruct r as [[[? ?] st] ?]; destruct (N.eqb_spec st 0); [discriminate|assumption]].
        assert (G : forallb (fun r => forallb (fun c => forallb stable (to_lower real_unicode c)) (expand r)) lower_runs = true) by (vm_compute; reflexivity).
        rewrite forallb_forall in G. apply G in F1. rewrite forallb_forall in F1. apply F1 in F2. rewrite forallb_forall in F2. apply stable_spec. now apply F2.
      * assert (EE : to_lower real_unicode c = [c]) by (rewrite E; unfold case_map; now rewrite S, F).
        rewrite EE in H. destruct H as [<-|[]]. split; [assumption|]. intros ->. vm_compute in F. discriminate.
Qed.
''')
open(os.path.join(os.path.dirname(__file__),'../rocq/theories/UnicodeReal.v'),'w').write('\n'.join(o))
# check of the runs
def cm(sp,rs,c):
    if c in sp: return sp[c]
    for lo_,n,st,t in rs:
        if lo_<=c<lo_+n*st and (c-lo_)%st==0: return [t+c-lo_]
    return [c]
for c in R[:70000]:
    assert cm(los,lo,c)==[ord(x) for x in chr(c).lower()],c
    assert cm(ups,up,c)==[ord(x) for x in chr(c).upper()],c
