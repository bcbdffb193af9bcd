(** * What the match rating approach computes (specification). *)
From Verif Require Import Base.
Local Open Scope N_scope.

(** A doubled consonant is written once; the scan continues after the pair, so
    a run of k equal consonants shrinks to half of it, rounded up. *)
Fixpoint halve_runs (undouble : N -> bool) (l : ustr) : ustr :=
  match l with
  | [] => []
  | x :: r =>
      match r with
      | [] => [x]
      | y :: r' => if (x =? y) && undouble x then x :: halve_runs undouble r'
                   else x :: halve_runs undouble r
      end
  end.

Definition upper_vowel (c : N) : bool := isin c $ "AEIOU".
Definition upper_consonant (c : N) : bool := isin c $ "BCDFGHJKLMNPQRSTVWXYZ".
(** Vowels are dropped everywhere but in first position. *)
Definition drop_inner_vowels (l : ustr) : ustr :=
  match l with [] => [] | x :: r => x :: filter (fun c => negb (upper_vowel c)) r end.
(** White space and - & ' . , are removed. *)
Definition mra_noise (c : N) : bool := isin c (9 :: 10 :: 11 :: 12 :: 13 :: $ " -&'.,").
(** Codes of more than six characters keep the first and the last three. *)
Definition first3_last3 (l : ustr) : ustr :=
  if Nat.ltb 6 (length l) then firstn 3 l ++ skipn (length l - 3) l else l.

(** The code of an ASCII name of at least two characters. *)
Definition mra_code (s : ustr) : ustr :=
  first3_last3 (halve_runs upper_consonant
    (drop_inner_vowels (filter (fun c => negb (mra_noise c)) (map ascii_up s)))).

(** The minimum rating for a given sum of code lengths. *)
Definition mra_threshold (sum : nat) : nat :=
  if Nat.leb sum 4 then 5 else if Nat.leb sum 7 then 4 else if Nat.leb sum 11 then 3
  else if Nat.eqb sum 12 then 2 else 1.

(** ** Any name *)
(** Accented letters are written without their accent. *)
Definition unaccent_table : list (ustr * N) := [
  ($ "ÀÁÂÃÄÅ", # "A"); ($ "àáâãäå", # "a"); ($ "Ç", # "C"); ($ "ç", # "c");
  ($ "ÈÉÊË", # "E"); ($ "èéêë", # "e"); ($ "ÌÍÎÏ", # "I"); ($ "ìíîï", # "i");
  ($ "Ñ", # "N"); ($ "ñ", # "n"); ($ "ÒÓÔÕÖŐ", # "O"); ($ "òóôõöő", # "o");
  ($ "ÙÚÛÜŰ", # "U"); ($ "ùúûüű", # "u"); ($ "ÝŶŸ", # "Y"); ($ "ýŷÿ", # "y") ].
Definition unaccent (c : N) : N :=
  match find (fun e => isin c (fst e)) unaccent_table with Some (_, b) => b | None => c end.

(** [mra_letters upcase noise s]: upper case, without noise and accents, inner
    vowels dropped, upper case again, doubled consonants written once. *)
Definition mra_letters (upcase : ustr -> ustr) (noise : N -> bool) (s : ustr) : ustr :=
  let l := map unaccent (filter (fun c => negb (noise c)) (upcase s)) in
  halve_runs upper_consonant
    (upcase match l with
            | [] => []
            | x :: r => x :: filter (fun c => negb (isin c $ "AEIOUaeiou")) r
            end).

(** ** The rating of two codes *)
(** [struck a b k]: the pairs of positions struck out after [k] rounds.  Round
    [i] strikes out the i-th characters from the left if they are the same and
    neither is already struck out, then the i-th characters from the right. *)
Definition free (l : list (nat * nat)) (p : nat * nat) : bool :=
  negb (existsb (fun q => Nat.eqb (fst q) (fst p) || Nat.eqb (snd q) (snd p)) l).
Definition same_char (a b : ustr) (p : nat * nat) : bool :=
  match nth_error a (fst p), nth_error b (snd p) with Some x, Some y => x =? y | _, _ => false end.
Definition strike (a b : ustr) (p : nat * nat) (l : list (nat * nat)) : list (nat * nat) :=
  if free l p && same_char a b p then p :: l else l.
Fixpoint struck (a b : ustr) (rounds : nat) : list (nat * nat) :=
  match rounds with
  | O => []
  | S i => strike a b (length a - 1 - i, length b - 1 - i)%nat (strike a b (i, i) (struck a b i))
  end.
(** The bytes struck out: of each of the two codes, since the characters are the
    same (for an ASCII code, the number of pairs). *)
Fixpoint struck_bytes (a : ustr) (l : list (nat * nat)) : nat :=
  match l with
  | [] => 0
  | p :: r => (match nth_error a (fst p) with Some c => utf8_len c | None => 0 end + struck_bytes a r)%nat
  end.
(** Six minus what is left of the longer code. *)
Definition mra_rating (a b : ustr) : nat :=
  (6 - (Nat.max (blen a) (blen b)
        - struck_bytes a (struck a b (Nat.min (length a) (length b)))))%nat.
