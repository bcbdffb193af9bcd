(** * Beider-Morse (specification vocabulary). *)
From Verif Require Import Base UnicodeM BmLanguages BmRegex BmRule BmEngine.
Local Open Scope N_scope.

(** Lexicographic order of texts, by code points: a proper prefix, or a smaller
    character at the first difference. *)
Definition lex_lt (a b : ustr) : Prop :=
  (exists c r, b = a ++ c :: r)
  \/ (exists p x y ra rb, a = p ++ x :: ra /\ b = p ++ y :: rb /\ x < y).

(** Strictly increasing lists (the content of a [BTreeSet]). *)
Fixpoint increasing (l : list ustr) : Prop :=
  match l with
  | [] => True
  | x :: r => (forall y, In y r -> lex_lt x y) /\ increasing r
  end.

(** The languages a set denotes: [Any] denotes all of them. *)
Definition ls_mem (x : ustr) (s : LanguageSet) : Prop :=
  match s with LAny => True | NoLanguages => False | SomeLanguages l => In x l end.
(** Well-formed: the list is a set. *)
Definition ls_ok (s : LanguageSet) : Prop :=
  match s with SomeLanguages l => increasing l | _ => True end.

(** Phonemes in increasing order of their texts, each text once. *)
Definition psorted (l : list Phoneme) : Prop := increasing (map ph_text l).
(** The first phoneme of a list with its text. *)
Definition first_of (l : list Phoneme) (ph : Phoneme) : Prop :=
  exists pre post, l = pre ++ ph :: post /\ forall q, In q pre -> ph_text q <> ph_text ph.
(** [b] holds, in increasing order of the texts, the first phoneme of [l] with each text. *)
Definition distinct_of (l b : list Phoneme) : Prop :=
  psorted b /\ forall ph, In ph b <-> first_of l ph.

(** The languages two sets share, and whether there is none. *)
Definition shared (a b : LanguageSet) : LanguageSet :=
  match a, b with
  | LAny, x => x
  | x, LAny => x
  | SomeLanguages l, SomeLanguages m => SomeLanguages (filter (fun x => existsb (seq_eqb x) m) l)
  | _, _ => NoLanguages
  end.
Definition no_language (a : LanguageSet) : bool :=
  match a with LAny => false | NoLanguages => true | SomeLanguages l => Nat.eqb (length l) 0 end.

(** A language survives the rules of languages when every rule that matches the
    lowercased text agrees: accept rules list it, reject rules do not. *)
Definition survives (u : Unicode) (rx : RegexEngine) (rules : list LangRule) (text x : ustr) : Prop :=
  forall r, In r rules -> rx_match rx (lr_pattern r) (str_lower u text) = true ->
    (lr_accept_on_match r = true -> In x (lr_languages r)) /\ (lr_accept_on_match r = false -> ~ In x (lr_languages r)).
