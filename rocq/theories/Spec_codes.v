(** * Which codes exist: the form of the codes of each algorithm (uses nothing of the model). *)
From Verif Require Import Base Spec_common Spec_soundex.
Local Open Scope N_scope.

(** Every character of the word is one of [set]. *)
Definition made_of (set word : ustr) : Prop := forall c, In c word -> In c set.
(** The word filled up with [fill] to exactly [n] characters. *)
Definition filled (n : nat) (fill : N) (word code : ustr) : Prop :=
  (length word <= n)%nat /\ code = word ++ repeat fill (n - length word).

(** ** Soundex *)
(** A letter and up to three digits 1-6, filled up with 0. *)
Definition soundex_form (code : ustr) : Prop :=
  code = [] \/ exists f digits, In f $ "ABCDEFGHIJKLMNOPQRSTUVWXYZ" /\ made_of $ "123456" digits
                 /\ filled 4 (# "0") (f :: digits) code.
(** With the genealogy table no digit is repeated, that of the first letter included. *)
Definition genealogy_form (code : ustr) : Prop :=
  code = [] \/ exists f digits, In f $ "ABCDEFGHIJKLMNOPQRSTUVWXYZ" /\ made_of $ "123456" digits
                 /\ no_adjacent_equal (american_digit f :: digits)
                 /\ filled 4 (# "0") (f :: digits) code.
(** ** Refined Soundex: a letter, its digit, and more digits; no digit is repeated. *)
Definition refined_form (code : ustr) : Prop :=
  code = [] \/ exists f digits, In f $ "ABCDEFGHIJKLMNOPQRSTUVWXYZ" /\ made_of $ "0123456789" digits
                 /\ no_adjacent_equal (refined_digit f :: digits)
                 /\ code = f :: refined_digit f :: digits.
(** ** Cologne: digits 1-8, after an optional 0. *)
Definition cologne_form (code : ustr) : Prop :=
  exists digits, made_of $ "12345678" digits /\ (code = digits \/ code = # "0" :: digits).
(** ** Match rating: up to six characters of ASCII, no lower case letter, no white space and
    none of - & ' . , ; vowels only in front. *)
Definition match_rating_form (code : ustr) : Prop :=
  (length code <= 6)%nat
  /\ (forall c, In c code -> c < 128 /\ ~ (97 <= c <= 122) /\ ~ (9 <= c <= 13) /\ ~ In c $ " -&'.,")
  /\ (forall c, In c (tl code) -> ~ In c $ "AEIOU").
(** ** Phonex: 0s only, or a letter and digits 1-6 that are not repeated, filled up with 0. *)
Definition phonex_form (n : nat) (code : ustr) : Prop :=
  code = repeat (# "0") n
  \/ exists f digits, In f $ "ABCDFGHLMNRSTWX" /\ made_of $ "123456" digits
       /\ no_adjacent_equal digits /\ filled n (# "0") (f :: digits) code.
(** ** Metaphone: one character, or consonants and 0 after an optional vowel. *)
Definition metaphone_form (code : ustr) : Prop :=
  (exists c, c < 128 /\ ~ (97 <= c <= 122) /\ code = [c])
  \/ exists sounds, made_of $ "BFHJKLMNPRSTWXY0" sounds
       /\ (code = sounds \/ exists v, In v $ "AEIOU" /\ code = v :: sounds).
(** ** Double Metaphone, primary code: consonants and 0 after an optional A. *)
Definition double_metaphone_form (code : ustr) : Prop :=
  exists sounds, made_of $ "FHJKLMNPRSTX0" sounds /\ (code = sounds \/ code = # "A" :: sounds).
(** ** Caverphone 1: consonants after an optional A, filled up with 1. *)
Definition caverphone1_form (code : ustr) : Prop :=
  exists front body, (front = [] \/ front = $ "A") /\ made_of $ "FKLMNPRSTWY" body
    /\ filled 6 (# "1") (front ++ body) code.
(** ** Caverphone 2: consonants between an optional A or Y and an optional A, filled up with 1.
    L, R, W and Y are only heard before a vowel, and a final vowel is written: none of them is the
    last letter, unless the code is full. *)
Definition caverphone2_form (code : ustr) : Prop :=
  exists front body back, In front [[]; $ "A"; $ "Y"] /\ made_of $ "FKLMNPRSTW" body /\ In back [[]; $ "A"]
    /\ filled 10 (# "1") (front ++ body ++ back) code
    /\ ((length (front ++ body ++ back) < 10)%nat ->
        forall word c, front ++ body ++ back = word ++ [c] -> ~ In c $ "LRWY").
(** ** NYSIIS *)
(** A stem begins with a letter other than K; after it, letters of ABCDFGHJLNPRSTVWXY, none repeated, H only
    after a vowel and before an A (or last), W not after a vowel; it does not end in A. *)
Definition nysiis_stem (p : ustr) : Prop :=
  (exists f rest, p = f :: rest /\ In f $ "ABCDEFGHIJLMNOPQRSTUVWXYZ" /\ made_of $ "ABCDFGHJLNPRSTVWXY" rest)
  /\ (forall before x c after, p = before ++ x :: c :: after ->
        x <> c
        /\ (c = # "H" -> In x $ "AEIOU" /\ (after = [] \/ exists r, after = # "A" :: r))
        /\ (c = # "W" -> ~ In x $ "AEIOU"))
  /\ (forall before, p <> before ++ $ "A").
(** A code is empty, or A, or a stem, or a stem ending in H or Y with a Y added. *)
Definition nysiis_form (code : ustr) : Prop :=
  code = [] \/ code = $ "A" \/ nysiis_stem code
  \/ exists p x, nysiis_stem (p ++ [x]) /\ In x $ "HY" /\ code = p ++ [x] ++ $ "Y".
(** ** Daitch-Mokotoff, embedded rules: digits other than 0 and 2 after an optional 0 or 2, filled up with 0. *)
Definition daitch_form (code : ustr) : Prop :=
  exists front digits, In front [[]; $ "0"; $ "2"] /\ made_of $ "13456789" digits /\ filled 6 (# "0") (front ++ digits) code.
(** ** Double Metaphone, alternate code: consonants (never 0) after an optional A and before an optional space. *)
Definition alternate_form (code : ustr) : Prop :=
  exists front sounds back, In front [[]; $ "A"] /\ made_of $ "FHJKLMNPRSTX" sounds /\ In back [[]; $ " "]
    /\ code = front ++ sounds ++ back.
