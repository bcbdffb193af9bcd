(** * Specification of Soundex and Refined Soundex, by their textbook definition. *)
From Verif Require Import Base Spec_common.
Local Open Scope N_scope.

(** The digit of a letter in American Soundex. *)
Definition american_digit (c : N) : N :=
  if isin c $ "BFPV" then # "1"
  else if isin c $ "CGJKQSXZ" then # "2"
  else if isin c $ "DT" then # "3"
  else if isin c $ "L" then # "4"
  else if isin c $ "MN" then # "5"
  else if isin c $ "R" then # "6"
  else # "0".

(** H and W do not separate equal digits. *)
Definition american_transparent (c : N) : bool := isin c $ "HW".

(** The digits that follow the first letter of a word with letters
    [first :: others]: drop the transparent letters, take digits (that of the
    first letter included), collapse runs of equal digits, remove the digit of
    the first letter, remove the zeros. *)
Definition soundex_digits (digit : N -> N) (transparent : N -> bool) (first : N) (others : ustr)
  : ustr :=
  filter (fun d => negb (d =? # "0"))
    (tl (collapse (digit first :: map digit (filter (fun c => negb (transparent c)) others)))).

(** The code of a word, given its uppercase letters. *)
Definition soundex_code (digit : N -> N) (transparent : N -> bool) (letters : ustr) : ustr :=
  match letters with
  | [] => []
  | first :: others => first :: pad_to 3 (# "0") (soundex_digits digit transparent first others)
  end.

Definition american_soundex : ustr -> ustr := soundex_code american_digit american_transparent.

(** A 26-entry table used as a digit assignment for 'A'..'Z'. *)
Definition table_digit (table : ustr) (c : N) : N := nth (N.to_nat (c - # "A")) table 0.

(** With a custom table, letters marked '-' are transparent; H and W are
    transparent as well when [hw] is set. *)
Definition table_transparent (table : ustr) (hw : bool) (c : N) : bool :=
  (table_digit table c =? # "-") || (hw && isin c $ "HW").

(** Refined Soundex: first letter, then all digits with runs collapsed. *)
Definition refined_code (digit : N -> N) (letters : ustr) : ustr :=
  match letters with
  | [] => []
  | first :: _ => first :: collapse (map digit letters)
  end.

Definition refined_digit (c : N) : N :=
  if isin c $ "BP" then # "1"
  else if isin c $ "FV" then # "2"
  else if isin c $ "CKS" then # "3"
  else if isin c $ "GJ" then # "4"
  else if isin c $ "QXZ" then # "5"
  else if isin c $ "DT" then # "6"
  else if isin c $ "L" then # "7"
  else if isin c $ "MN" then # "8"
  else if isin c $ "R" then # "9"
  else # "0".

(** The letters of a text as Soundex sees them: its alphabetic characters, uppercased. *)
Definition upper_letters (alphabetic : N -> bool) (upper : N -> ustr) (text : ustr) : ustr :=
  flat_map upper (filter alphabetic text).

(** The longest prefix made of A-Z only. *)
Fixpoint leading_AZ (l : ustr) : ustr :=
  match l with
  | c :: r => if (# "A" <=? c) && (c <=? # "Z") then c :: leading_AZ r else []
  | [] => []
  end.

(** What Soundex does with any letters: [None] is a panic.  Letters outside A-Z have no code; one
    is fatal unless three digits are known before it. *)
Definition soundex_outcome (digit : N -> N) (transparent : N -> bool) (letters : ustr)
  : option ustr :=
  let known := leading_AZ letters in
  if Nat.eqb (length known) (length letters) then Some (soundex_code digit transparent letters)
  else match known with
       | [] => None
       | first :: others =>
           if Nat.leb 3 (length (soundex_digits digit transparent first others))
           then Some (soundex_code digit transparent known) else None
       end.

(** The same for RefinedSoundex: every letter must be in A-Z. *)
Definition refined_outcome (digit : N -> N) (letters : ustr) : option ustr :=
  if Nat.eqb (length (leading_AZ letters)) (length letters) then Some (refined_code digit letters)
  else None.
