(** * Phonex (src/phonex.rs). *)
From Verif Require Import Base UnicodeM Lib Helper.
Local Open Scope N_scope.

(** src/phonex.rs:53-55: drop all trailing 'S'. *)
Fixpoint drop_leading_S (s : ustr) : ustr :=
  match s with
  | [] => []
  | c :: r => if c =? # "S" then drop_leading_S r else s
  end.
Definition drop_trailing_S (s : ustr) : ustr := rev (drop_leading_S (rev s)).

(** src/phonex.rs:59-65: leading pairs. *)
Definition px_pairs (s : ustr) : ustr :=
  match s with
  | a :: b :: r =>
      if (a =? # "K") && (b =? # "N") then # "N" :: b :: r
      else if (a =? # "P") && (b =? # "H") then # "F" :: b :: r
      else if (a =? # "W") && (b =? # "R") then # "R" :: b :: r
      else s
  | _ => s
  end.

(** src/phonex.rs:69-72: remove one leading 'H'. *)
Definition px_drop_H (s : ustr) : ustr :=
  match s with
  | c :: r => if c =? # "H" then r else s
  | [] => s
  end.

(** src/phonex.rs:81-92: first character. *)
Definition px_first (s : ustr) : ustr :=
  match s with
  | c :: r =>
      if isin c $ "EIOUY" then # "A" :: r
      else if c =? # "P" then # "B" :: r
      else if c =? # "V" then # "F" :: r
      else if isin c $ "KQ" then # "C" :: r
      else if c =? # "J" then # "G" :: r
      else if c =? # "Z" then # "S" :: r
      else s
  | [] => s
  end.

(** src/phonex.rs:49-95, [preprocess]. *)
Definition px_preprocess (u : Unicode) (value : ustr) : ustr :=
  px_first (px_drop_H (px_pairs (drop_trailing_S (soundex_clean u value)))).

(** src/phonex.rs:97-102, [is_vowel] (with 'y'). *)
Definition px_is_vowel (c : option N) : bool :=
  match c with Some c => is_vowel (Some (ascii_low c)) true | None => false end.

(** src/phonex.rs:104-141, [transcode]. *)
Definition px_transcode (curr : N) (next : option N) (is_last_char : bool) : option N * bool :=
  if isin curr $ "BPFV" then (Some (# "1"), false)
  else if isin curr $ "CSKGJQXZ" then (Some (# "2"), false)
  else if isin curr $ "DT" then
    (if opt_is next (# "C") then (None, false) else (Some (# "3"), false))
  else if curr =? # "L" then
    (if px_is_vowel next || is_last_char then (Some (# "4"), false) else (None, false))
  else if isin curr $ "MN" then (Some (# "5"), isin_opt next $ "DG")
  else if curr =? # "R" then
    (if px_is_vowel next || is_last_char then (Some (# "6"), false) else (None, false))
  else (Some (# "0"), false).

(** The mutable variables of the loop; [result] is kept in reverse. *)
Record px_state := { px_result : ustr; px_code : N; px_last : N; px_last_push : N }.

(** src/phonex.rs:172-208: the body of the loop for the character [curr] at index
    [i0]; returns the new state and whether the next character is consumed. *)
Definition px_step (i0 : nat) (curr : N) (next : option N) (st : px_state) : px_state * bool :=
  let result := if Nat.eqb i0 0 then curr :: px_result st else px_result st in
  let last_push := if Nat.eqb i0 0 then curr else px_last_push st in
  let '(new_code, skip) := px_transcode curr next (match next with None => true | _ => false end) in
  let code := match new_code with Some c => c | None => px_code st end in
  let i := if skip then S i0 else i0 in
  let push := negb (px_last st =? code) && negb (code =? # "0") && negb (Nat.eqb i 0) in
  let result := if push then code :: result else result in
  let last_push := if push then code else last_push in
  let last := if Nat.eqb i 0 then code else last_push in
  ({| px_result := result; px_code := code; px_last := last; px_last_push := last_push |}, skip).

(** src/phonex.rs:166-209: the loop. [result.len()] is a byte length. *)
Fixpoint px_loop (max : nat) (i : nat) (chars : ustr) (st : px_state) : px_state :=
  match chars with
  | [] => st
  | curr :: r =>
      if Nat.eqb (blen (px_result st)) max then st
      else
        let '(st', skip) := px_step i curr (hd_error r) st in
        match r with
        | _ :: r' => if skip then px_loop max (S (S i)) r' st' else px_loop max (S i) r st'
        | [] => st'
        end
  end.

(** src/phonex.rs:153-217, [encode]; lines 211-214 pad with '0' up to
    [max_code_length] bytes.  No operation can panic. *)
Definition phonex_encode (u : Unicode) (max : nat) : encoder := fun value =>
  let st := px_loop max 0 (px_preprocess u value)
              {| px_result := []; px_code := # "0"; px_last := # "0"; px_last_push := # "0" |} in
  let result := rev (px_result st) in
  Ok (result ++ repeat (# "0") (max - blen result)).
