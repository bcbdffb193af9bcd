(** * Metaphone (src/metaphone.rs). *)
From Verif Require Import Base UnicodeM Lib Helper.
Local Open Scope N_scope.

(** src/metaphone.rs:22-23 *)
Definition FRONTV : ustr := $ "EIY".
Definition VARSON : ustr := $ "CSPTG".

(** src/metaphone.rs:54-57, [is_vowel]. *)
Definition mt_is_vowel (text : ustr) (index : nat) : bool :=
  is_vowel (option_map ascii_low (nth_char text index)) false.

(** src/metaphone.rs:59-61, [is_previous_char]. *)
Definition mt_is_previous_char (text : ustr) (index : nat) (c : N) : bool :=
  Nat.ltb 0 index && opt_is (nth_char text (index - 1)) c.

(** src/metaphone.rs:63-65, [is_next_char]. *)
Definition mt_is_next_char (text : ustr) (index : nat) (c : N) : bool :=
  opt_is (nth_char text (index + 1)) c.

(** src/metaphone.rs:67-69, [region_match].  [index] is a character index used as
    a byte offset, as in the code: the slice panics off a character boundary. *)
Definition mt_region_match (text : ustr) (index : nat) (test : ustr) : res bool :=
  if Nat.ltb (index + blen test - 1) (blen text) then
    t <- slice_from index text ;; Ok (starts_with t test)
  else Ok false.

(** [a || b] where [b] may panic. *)
Definition orelse (a b : res bool) : res bool :=
  x <- a ;; if x then Ok true else b.

(** src/metaphone.rs:71-73, [is_last_char]. *)
Definition mt_is_last_char (wdsz n : nat) : bool := Nat.eqb (n + 1) wdsz.

(** [local.chars().nth(i).map(|ch| FRONTV.contains(ch)) == Some(true)] *)
Definition mt_frontv (text : ustr) (i : nat) : bool := isin_opt (nth_char text i) FRONTV.

(** src/metaphone.rs:96-125: exceptions on the first letters.  The dropped
    characters are ASCII, so [&inwd[1..]] and [&inwd[2..]] cannot panic. *)
Definition mt_local (inwd : ustr) : ustr :=
  match inwd with
  | c :: r =>
      let next := hd_error r in
      if isin c $ "KGP" then if opt_is next (# "N") then r else inwd
      else if c =? # "A" then if opt_is next (# "E") then r else inwd
      else if c =? # "W" then
        if opt_is next (# "R") then r
        else if opt_is next (# "H") then # "W" :: tl r
        else inwd
      else if c =? # "X" then # "S" :: r
      else inwd
  | [] => inwd
  end.

(** src/metaphone.rs:141-273: the characters pushed for the symbol [symb] at
    [index], and the value given to [skip]. *)
Definition mt_symbol (local : ustr) (wdsz index : nat) (symb : N) : res (ustr * nat) :=
  let push l := Ok (l, 0%nat) in
  let nothing := Ok ([], 0%nat) in
  if isin symb $ "AEIOU" && Nat.eqb index 0 then push [symb]
  else if (symb =? # "B")
          && (negb (mt_is_previous_char local index (# "M")) || negb (mt_is_last_char wdsz index))
  then push [symb]
  else if symb =? # "C" then
    if mt_is_previous_char local index (# "S") && negb (mt_is_last_char wdsz index)
       && mt_frontv local (index + 1)
    then nothing
    else
      cia <- mt_region_match local index $ "CIA" ;;
      if cia : bool then push $ "X"
      else if negb (mt_is_last_char wdsz index) && mt_frontv local (index + 1) then push $ "S"
      else if mt_is_previous_char local index (# "S") && mt_is_next_char local index (# "H")
      then push $ "K"
      else if mt_is_next_char local index (# "H") then
        if Nat.eqb index 0 && Nat.ltb 3 wdsz && mt_is_vowel local 2 then push $ "K" else push $ "X"
      else push $ "K"
  else if symb =? # "D" then
    if negb (mt_is_last_char wdsz (index + 1)) && mt_is_next_char local index (# "G")
       && mt_frontv local (index + 2)
    then Ok ($ "J", 2%nat)
    else push $ "T"
  else if symb =? # "G" then
    silent <-
      (if (mt_is_last_char wdsz (index + 1) && mt_is_next_char local index (# "H"))
          || (negb (mt_is_last_char wdsz (index + 1)) && mt_is_next_char local index (# "H")
              && negb (mt_is_vowel local (index + 2)))
       then Ok true
       else if Nat.ltb 0 index then
         orelse (mt_region_match local index $ "GN") (mt_region_match local index $ "GNED")
       else Ok false) ;;
    if silent : bool then nothing
    else if negb (mt_is_previous_char local index (# "G")) && negb (mt_is_last_char wdsz index)
            && mt_frontv local (index + 1)
    then push $ "J"
    else push $ "K"
  else if symb =? # "H" then
    if mt_is_last_char wdsz index
       || (Nat.ltb 0 index && isin_opt (nth_char local (index - 1)) VARSON)
    then nothing
    else if mt_is_vowel local (index + 1) then push $ "H"
    else nothing
  else if isin symb $ "FJLMNR" then push [symb]
  else if (symb =? # "K") && (Nat.eqb index 0 || negb (mt_is_previous_char local index (# "C")))
  then push [symb]
  else if symb =? # "P" then
    if mt_is_next_char local index (# "H") then push $ "F" else push [symb]
  else if symb =? # "Q" then push $ "K"
  else if symb =? # "S" then
    x <- orelse (mt_region_match local index $ "SH")
           (orelse (mt_region_match local index $ "SIO") (mt_region_match local index $ "SIA")) ;;
    if x : bool then push $ "X" else push $ "S"
  else if symb =? # "T" then
    x <- orelse (mt_region_match local index $ "TIA") (mt_region_match local index $ "TIO") ;;
    if x : bool then push $ "X"
    else
      tch <- mt_region_match local index $ "TCH" ;;
      if tch : bool then nothing
      else
        th <- mt_region_match local index $ "TH" ;;
        if th : bool then push $ "0" else push $ "T"
  else if symb =? # "V" then push $ "F"
  else if isin symb $ "WY" && negb (mt_is_last_char wdsz index) && mt_is_vowel local (index + 1)
  then push [symb]
  else if symb =? # "X" then push $ "KS"
  else if symb =? # "Z" then push $ "S"
  else nothing.

(** src/metaphone.rs:277-281: truncation ([code.len()] counts bytes). *)
Definition mt_truncate (max : option nat) (code : ustr) : res ustr :=
  match max with
  | Some m => if Nat.ltb m (blen code) then slice_to m code else Ok code
  | None => Ok code
  end.

(** src/metaphone.rs:133-139: [max_code_length.map(|v| code.len() == v)]. *)
Definition mt_full (max : option nat) (code : ustr) : bool :=
  match max with Some m => Nat.eqb (blen code) m | None => false end.

(** src/metaphone.rs:129-285: the loop over [local]. *)
Fixpoint mt_loop (max : option nat) (local : ustr) (wdsz : nat)
         (index skip : nat) (chars code : ustr) : res ustr :=
  match chars with
  | [] => Ok code
  | symb :: r =>
      match skip with
      | S k => mt_loop max local wdsz (S index) k r code
      | O =>
          if mt_full max code then Ok code
          else
            '(pushed, skip') <-
              (if (symb =? # "C") || negb (mt_is_previous_char local index symb)
               then mt_symbol local wdsz index symb
               else Ok ([], 0%nat)) ;;
            code' <- mt_truncate max (code ++ pushed) ;;
            mt_loop max local wdsz (S index) skip' r code'
      end
  end.

(** src/metaphone.rs:86-288, [encode]. *)
Definition metaphone_encode (u : Unicode) (max : option nat) : encoder := fun value =>
  let inwd := str_upper u value in
  if Nat.eqb (blen inwd) 1 then Ok inwd
  else
    let local := mt_local inwd in
    mt_loop max local (blen local) 0 0 local [].

(** src/metaphone.rs:77-83, [Default]. *)
Definition metaphone_default_max : option nat := Some 4%nat.
