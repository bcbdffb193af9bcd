(** * Soundex (src/soundex.rs) and RefinedSoundex (src/refined_soundex.rs). *)
From Verif Require Import Base UnicodeM Lib.
Local Open Scope N_scope.

(** src/soundex.rs:23 *)
Definition SILENT : N := # "-".

(** src/soundex.rs:35-38 *)
Definition DEFAULT_US_ENGLISH_MAPPING_SOUNDEX : ustr := $ "01230120022455012623010202".
(** src/soundex.rs:51-54 *)
Definition DEFAULT_US_ENGLISH_GENEALOGY_MAPPING_SOUNDEX : ustr := $ "-123-12--22455-12623-1-2-2".

(** src/soundex.rs:56-58, [has_silent_in_mapping]. *)
Definition has_silent_in_mapping (mapping : ustr) : bool := isin SILENT mapping.

(** src/soundex.rs:75-78.  The array type [char; 26] is a list; that it has 26
    entries is a hypothesis ([length mapping = 26]) where it matters. *)
Record soundex := { sx_mapping : ustr; sx_special_case_h_w : bool }.

(** src/soundex.rs:93-98, [Soundex::new]. *)
Definition soundex_new (mapping : ustr) (special : bool) : soundex :=
  {| sx_mapping := mapping; sx_special_case_h_w := special |}.

(** [mapping[ch as usize - 65]] (src/soundex.rs:100-102,
    src/refined_soundex.rs:60-62): for [ch < 65] the subtraction panics (with
    overflow checks) or wraps to an index out of bounds (without): a panic both
    ways. *)
Definition get_mapping_code (mapping : ustr) (c : N) : res N :=
  if c <? 65 then Panic
  else if c - 65 <? N.of_nat (length mapping)
       then unwrap (nth_error mapping (N.to_nat (c - 65)))
       else Panic.

(** src/soundex.rs:108-115, [Default]. *)
Definition soundex_default : soundex :=
  {| sx_mapping := DEFAULT_US_ENGLISH_MAPPING_SOUNDEX; sx_special_case_h_w := true |}.

(** src/soundex.rs:117-125, [From<[char; 26]>]. *)
Definition soundex_from (mapping : ustr) : soundex :=
  {| sx_mapping := mapping; sx_special_case_h_w := negb (has_silent_in_mapping mapping) |}.

(** [Vec<char>::try_into::<[char; 26]>]: fails, returning the vector, unless the
    length is 26. *)
Definition try_into_26 (v : ustr) : ustr + ustr :=
  if Nat.eqb (length v) 26 then inl v else inr v.

(** src/soundex.rs:153-156 (and 185-188, 217-219), [TryFrom<&str>], [FromStr],
    [TryFrom<String>]: [inl] is [Ok], [inr] is [Err]. *)
Definition soundex_try_from (mapping : ustr) : soundex + ustr :=
  match try_into_26 mapping with
  | inl m => inl (soundex_from m)
  | inr e => inr e
  end.

(** src/soundex.rs:236-255: the loop; [count] is [count] of the code (the loop
    runs while it is < 4), [code] holds the characters written so far in
    [code[1..count]], most recent first. *)
Fixpoint soundex_loop (sx : soundex) (count : nat) (code : ustr) (previous : N) (chars : ustr)
  : res (nat * ustr) :=
  if Nat.ltb count 4 then
    match chars with
    | [] => Ok (count, code)
    | c :: r =>
        if sx_special_case_h_w sx && ((c =? # "H") || (c =? # "W"))
        then soundex_loop sx count code previous r
        else
          digit <- get_mapping_code (sx_mapping sx) c ;;
          if digit =? SILENT then soundex_loop sx count code previous r
          else if negb (digit =? # "0") && negb (digit =? previous)
               then soundex_loop sx (S count) (digit :: code) digit r
               else soundex_loop sx count code digit r
    end
  else Ok (count, code).

(** src/soundex.rs:223-258, [Encoder::encode].  The array [code] starts as
    ['0','0','0','0'], so unwritten entries are '0'. *)
Definition soundex_encode (u : Unicode) (sx : soundex) : encoder := fun value =>
  let value := soundex_clean u value in
  match value with
  | [] => Ok []
  | c :: r =>
      previous <- get_mapping_code (sx_mapping sx) c ;;
      '(count, code) <- soundex_loop sx 1 [] previous r ;;
      Ok (c :: rev code ++ repeat (# "0") (4 - count))
  end.

(** src/refined_soundex.rs:23-26 *)
Definition ENGLISH_MAPPING : ustr := $ "01360240043788015936020505".

(** src/refined_soundex.rs:89-92, 119-122, 149-151. *)
Definition refined_try_from (mapping : ustr) : ustr + ustr := try_into_26 mapping.

(** src/refined_soundex.rs:177-183: the loop, returning the characters pushed. *)
Fixpoint refined_loop (mapping : ustr) (previous : option N) (chars : ustr) : res ustr :=
  match chars with
  | [] => Ok []
  | c :: r =>
      code_value <- get_mapping_code mapping c ;;
      rest <- refined_loop mapping (Some code_value) r ;;
      Ok (if opt_is previous code_value then rest else code_value :: rest)
  end.

(** src/refined_soundex.rs:163-186, [Encoder::encode]. *)
Definition refined_encode (u : Unicode) (mapping : ustr) : encoder := fun value =>
  let value := soundex_clean u value in
  match value with
  | [] => Ok []
  | c :: _ =>
      code <- refined_loop mapping None value ;;
      Ok (c :: code)
  end.
