(** * MatchRatingApproach (src/match_rating_approach.rs). *)
From Verif Require Import Base UnicodeM Lib Helper.
Local Open Scope N_scope.

(** src/match_rating_approach.rs:23-28 *)
Definition PLAIN_ASCII : ustr :=
  $ "AaEeIiOoUuAaEeIiOoUuYyAaEeIiOoUuYyAaOoNnAaEeIiOoUuYyAaCcOoUu".
(** src/match_rating_approach.rs:31-40 *)
Definition UNICODE : ustr := [
  192; 224; 200; 232; 204; 236; 210; 242;
  217; 249; 193; 225; 201; 233; 205; 237;
  211; 243; 218; 250; 221; 253; 194; 226;
  202; 234; 206; 238; 212; 244; 219; 251;
  374; 375; 195; 227; 213; 245; 209; 241;
  196; 228; 203; 235; 207; 239; 214; 246;
  220; 252; 376; 255; 197; 229; 199; 231;
  336; 337; 368; 369 ].

(** src/match_rating_approach.rs:42-64: the letters [X] of the pairs
    ("XX", "X"), in order. *)
Definition DOUBLE_CONSONANT : ustr := $ "BCDFGHJKLMNPQRSTVWXYZ".

(** src/match_rating_approach.rs:66 *)
Definition CHAR_TO_TRIM : ustr := $ "-&'.,".

(** src/match_rating_approach.rs:101-107: one character of [remove_accent]. *)
Fixpoint accent_lookup (froms tos : ustr) (c : N) : N :=
  match froms, tos with
  | f :: fs, t :: ts => if f =? c then t else accent_lookup fs ts c
  | _, _ => c
  end.
Definition plain (c : N) : N := accent_lookup UNICODE PLAIN_ASCII c.

(** src/match_rating_approach.rs:86-109, [clean_name], [remove_accent]. *)
Definition clean_name (u : Unicode) (value : ustr) : ustr :=
  map plain
    (filter (fun c => negb (is_whitespace u c))
      (filter (fun c => negb (isin c CHAR_TO_TRIM)) (str_upper u value))).

(** src/match_rating_approach.rs:111-120, [remove_vowels]. *)
Definition mra_vowel (c : N) : bool := is_vowel (Some (ascii_low c)) false.
Definition mra_keep (u : Unicode) (c : N) : bool := negb (isin c CHAR_TO_TRIM) && negb (is_whitespace u c).
Definition remove_vowels (u : Unicode) (value : ustr) : ustr :=
  filter (mra_keep u)
    (match value with
     | [] => []
     | c :: r => c :: filter (fun c => negb (mra_vowel c)) r
     end).

(** src/match_rating_approach.rs:122-130, [remove_double_consonants]. *)
Definition remove_double_consonants (u : Unicode) (value : ustr) : ustr :=
  fold_left (fun result x => replace [x; x] [x] result) DOUBLE_CONSONANT (str_upper u value).

(** src/match_rating_approach.rs:132-138, [get_first3_last3] (byte slices). *)
Definition get_first3_last3 (value : ustr) : res ustr :=
  if Nat.ltb 6 (blen value) then
    a <- slice 0 3 value ;;
    b <- slice_from (blen value - 3) value ;;
    Ok (a ++ b)
  else Ok value.

(** src/match_rating_approach.rs:189-200, [encode]. *)
Definition mra_encode (u : Unicode) : encoder := fun value =>
  let t := trim u value in
  if Nat.eqb (length t) 0 || Nat.eqb (blen t) 1 then Ok []
  else
    get_first3_last3
      (remove_double_consonants u (remove_vowels u (clean_name u value))).

(** src/match_rating_approach.rs:140-148, [get_minimum_rating]. *)
Definition get_minimum_rating (sum_length : nat) : nat :=
  if Nat.leb sum_length 4 then 5
  else if Nat.leb sum_length 7 then 4
  else if Nat.leb sum_length 11 then 3
  else if Nat.eqb sum_length 12 then 2
  else 1.

(** [v[i] = c] on a vector. *)
Fixpoint set_nth (i : nat) (c : N) (l : ustr) : ustr :=
  match l with
  | [] => []
  | x :: r => match i with O => c :: r | S i' => x :: set_nth i' c r end
  end.

(** src/match_rating_approach.rs:157-175: the loop; [todo] iterations left.  The
    two [get(..).unwrap()] pairs panic out of range.  [n1len]/[n2len] are only
    used where the lengths are positive. *)
Fixpoint mra_pairs (todo i : nat) (n1 n2 : ustr) : res (ustr * ustr) :=
  match todo with
  | O => Ok (n1, n2)
  | S todo' =>
      if Nat.ltb (length n2 - 1) i then Ok (n1, n2)
      else
        c1 <- unwrap (nth_error n1 i) ;;
        c2 <- unwrap (nth_error n2 i) ;;
        let '(n1, n2) := if c1 =? c2 then (set_nth i (# " ") n1, set_nth i (# " ") n2)
                         else (n1, n2) in
        d1 <- unwrap (nth_error n1 (length n1 - (i + 1))) ;;
        d2 <- unwrap (nth_error n2 (length n2 - (i + 1))) ;;
        let '(n1, n2) := if d1 =? d2
                         then (set_nth (length n1 - 1 - i) (# " ") n1,
                               set_nth (length n2 - 1 - i) (# " ") n2)
                         else (n1, n2) in
        mra_pairs todo' (S i) n1 n2
  end.

(** [usize::abs_diff] *)
Definition abs_diff (a b : nat) : nat := (a - b) + (b - a).

(** src/match_rating_approach.rs:177-184: the final count ([len] in bytes). *)
Definition mra_count (n1 n2 : ustr) : nat :=
  let r1 := filter (fun c => negb (c =? # " ")) n1 in
  let r2 := filter (fun c => negb (c =? # " ")) n2 in
  if Nat.ltb (blen r2) (blen r1) then abs_diff 6 (blen r1) else abs_diff 6 (blen r2).

(** src/match_rating_approach.rs:150-185,
    [left_to_right_then_right_to_left_processing].  With overflow checks
    [len() - 1] panics on an empty name.  Without them it wraps to [usize::MAX]:
    an empty [n1] then skips the loop; an empty [n2] (with [n1] not empty) never
    satisfies [i > n2len] and panics on [n2.get(0).unwrap()]. *)
Definition mra_rate (p : profile) (name1 name2 : ustr) : res nat :=
  match name1, name2, p with
  | [], _, Checked => Panic
  | _, [], Checked => Panic
  | [], _, Wrapping => Ok (mra_count name1 name2)
  | _, [], Wrapping => Panic
  | _, _, _ =>
      '(n1, n2) <- mra_pairs (length name1) 0 name1 name2 ;;
      Ok (mra_count n1 n2)
  end.

(** src/match_rating_approach.rs:202-228, [is_encoded_equals]. *)
Definition mra_is_encoded_equals (p : profile) (u : Unicode) (first second : ustr) : res bool :=
  let t1 := trim u first in
  let t2 := trim u second in
  if Nat.eqb (length t1) 0 || Nat.eqb (length t2) 0 then Ok false
  else if Nat.eqb (blen t1) 1 || Nat.eqb (blen t2) 1 then Ok false
  else if seq_eqb first second then Ok true
  else
    name1 <- mra_encode u first ;;
    name2 <- mra_encode u second ;;
    if Nat.leb 3 (abs_diff (blen name1) (blen name2)) then Ok false
    else
      let min_rating := get_minimum_rating (blen name1 + blen name2) in
      count <- mra_rate p name1 name2 ;;
      Ok (Nat.leb min_rating count).
