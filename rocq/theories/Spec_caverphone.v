(** * Caverphone 1.0 and 2.0 as published: a sequence of rewriting passes
    (uses nothing of the model). *)
From Verif Require Import Base Spec_common Spec_rewrite.
Local Open Scope N_scope.

Definition lower_vowel (c : N) : Prop := In c $ "aeiou".

(** Runs of equal letters of [set] become one uppercase letter. *)
Inductive runs_raised (set : ustr) : ustr -> ustr -> Prop :=
| rr_end : runs_raised set [] []
| rr_other : forall c r r', ~ In c set -> runs_raised set r r' -> runs_raised set (c :: r) (c :: r')
| rr_run : forall c k r r', In c set -> (forall x, r <> c :: x) -> runs_raised set r r' ->
    runs_raised set (repeat c (S k) ++ r) (c - 32 :: r').

Inductive pass :=
| Starts (p q : ustr)      (** at the beginning of the text *)
| Ends (p q : ustr)        (** at the end of the text *)
| All (p q : ustr)         (** everywhere *)
| InitialVowel             (** a vowel at the beginning becomes A *)
| Vowels                   (** every other vowel becomes 3 *)
| Runs (letters : ustr).   (** runs of these letters become one uppercase letter *)

Inductive pass_done : pass -> ustr -> ustr -> Prop :=
| pd_starts : forall p q s s', start_rewritten [(p, q)] s s' -> pass_done (Starts p q) s s'
| pd_ends : forall p q s s', end_rewritten [(p, q)] s s' -> pass_done (Ends p q) s s'
| pd_all : forall p q s s', all_replaced p q s s' -> pass_done (All p q) s s'
| pd_initial : forall c r, lower_vowel c -> pass_done InitialVowel (c :: r) (# "A" :: r)
| pd_no_initial : forall s, (forall c r, s = c :: r -> ~ lower_vowel c) -> pass_done InitialVowel s s
| pd_vowels : forall s s',
    Forall2 (fun c d => (lower_vowel c /\ d = # "3") \/ (~ lower_vowel c /\ d = c)) s s' ->
    pass_done Vowels s s'
| pd_runs : forall l s s', runs_raised l s s' -> pass_done (Runs l) s s'.

Inductive passes_done : list pass -> ustr -> ustr -> Prop :=
| ps_none : forall s, passes_done [] s s
| ps_more : forall p ps s t s', pass_done p s t -> passes_done ps t s' -> passes_done (p :: ps) s s'.

(** Caverphone 1.0 *)
Definition caverphone1_rules : list pass := [
  Starts $ "cough" $ "cou2f"; Starts $ "rough" $ "rou2f"; Starts $ "tough" $ "tou2f";
  Starts $ "enough" $ "enou2f"; Starts $ "gn" $ "2n"; Ends $ "mb" $ "m2";
  All $ "cq" $ "2q"; All $ "ci" $ "si"; All $ "ce" $ "se"; All $ "cy" $ "sy"; All $ "tch" $ "2ch";
  All $ "c" $ "k"; All $ "q" $ "k"; All $ "x" $ "k"; All $ "v" $ "f"; All $ "dg" $ "2g";
  All $ "tio" $ "sio"; All $ "tia" $ "sia"; All $ "d" $ "t"; All $ "ph" $ "fh"; All $ "b" $ "p";
  All $ "sh" $ "s2"; All $ "z" $ "s";
  InitialVowel; Vowels;
  All $ "3gh3" $ "3kh3"; All $ "gh" $ "22"; All $ "g" $ "k";
  Runs $ "stpkfmn";
  All $ "w3" $ "W3"; All $ "wy" $ "Wy"; All $ "wh3" $ "Wh3"; All $ "why" $ "Why"; All $ "w" $ "2";
  Starts $ "h" $ "A"; All $ "h" $ "2";
  All $ "r3" $ "R3"; All $ "ry" $ "Ry"; All $ "r" $ "2";
  All $ "l3" $ "L3"; All $ "ly" $ "Ly"; All $ "l" $ "2";
  All $ "j" $ "y"; All $ "y3" $ "Y3"; All $ "y" $ "2";
  All $ "2" []; All $ "3" [] ].

(** Caverphone 2.0 *)
Definition caverphone2_rules : list pass := [
  Ends $ "e" [];
  Starts $ "cough" $ "cou2f"; Starts $ "rough" $ "rou2f"; Starts $ "tough" $ "tou2f";
  Starts $ "enough" $ "enou2f"; Starts $ "trough" $ "trou2f"; Starts $ "gn" $ "2n"; Ends $ "mb" $ "m2";
  All $ "cq" $ "2q"; All $ "ci" $ "si"; All $ "ce" $ "se"; All $ "cy" $ "sy"; All $ "tch" $ "2ch";
  All $ "c" $ "k"; All $ "q" $ "k"; All $ "x" $ "k"; All $ "v" $ "f"; All $ "dg" $ "2g";
  All $ "tio" $ "sio"; All $ "tia" $ "sia"; All $ "d" $ "t"; All $ "ph" $ "fh"; All $ "b" $ "p";
  All $ "sh" $ "s2"; All $ "z" $ "s";
  InitialVowel; Vowels;
  All $ "j" $ "y"; Starts $ "y3" $ "Y3"; Starts $ "y" $ "A"; All $ "y" $ "3";
  All $ "3gh3" $ "3kh3"; All $ "gh" $ "22"; All $ "g" $ "k";
  Runs $ "stpkfmn";
  All $ "w3" $ "W3"; All $ "wh3" $ "Wh3"; Ends $ "w" $ "3"; All $ "w" $ "2";
  Starts $ "h" $ "A"; All $ "h" $ "2";
  All $ "r3" $ "R3"; Ends $ "r" $ "3"; All $ "r" $ "2";
  All $ "l3" $ "L3"; Ends $ "l" $ "3"; All $ "l" $ "2";
  All $ "2" []; Ends $ "3" $ "A"; All $ "3" [] ].

(** The code of a text given by its lowercase letters: the passes, then cut or padded with 1. *)
Definition caverphone_code (n : nat) (rules : list pass) (letters code : ustr) : Prop :=
  exists t, passes_done rules letters t /\ code = pad_to n (# "1") t.
