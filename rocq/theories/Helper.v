(** * Helper functions and CharSequence (src/helper.rs). *)
From Verif Require Import Base UnicodeM.
Local Open Scope N_scope.

(** src/helper.rs:23-45, [replace_compact_all_to_uppercase]. *)
Fixpoint compact_upper_aux (chars : ustr) (previous : option N) (s : ustr) : ustr :=
  match s with
  | [] => []
  | c :: r =>
      if isin c chars then
        match previous with
        | Some prev =>
            if negb (prev =? c) then ascii_up c :: compact_upper_aux chars (Some c) r
            else compact_upper_aux chars previous r
        | None => ascii_up c :: compact_upper_aux chars (Some c) r
        end
      else c :: compact_upper_aux chars None r
  end.
Definition replace_compact_all_to_uppercase (s chars : ustr) : ustr :=
  compact_upper_aux chars None s.

(** src/helper.rs:48-53, [replace_end]: [ends_with], then the last
    [pattern.len()] bytes are replaced.  Those bytes are the pattern, so the cut
    is at the character offset [length s - length pattern]. *)
Definition replace_end (s pattern to : ustr) : ustr :=
  if ends_with s pattern then firstn (length s - length pattern) s ++ to else s.

(** src/helper.rs:56-61, [is_vowel]. *)
Definition is_vowel (c : option N) (include_y : bool) : bool :=
  match c with
  | Some c => isin c $ "aeiou" || (include_y && (c =? # "y"))
  | None => false
  end.

(** src/helper.rs:63-68, [replace_char]: map with the character index. *)
Fixpoint replace_char_aux (f : nat -> N -> N) (i : nat) (s : ustr) : ustr :=
  match s with
  | [] => []
  | c :: r => f i c :: replace_char_aux f (S i) r
  end.
Definition replace_char (s : ustr) (f : nat -> N -> N) : ustr := replace_char_aux f 0 s.

(** src/helper.rs:70-75, [remove_all_non_letter]. *)
Definition remove_all_non_letter (u : Unicode) (s : ustr) : ustr := filter (is_lowercase u) s.

(* ------------------------------------------------------------------ *)
(** ** CharSequence *)

(** src/helper.rs:84-87. *)
Record CharSequence := { cs_inner : ustr; cs_len : N }.

(** src/helper.rs:113-121, [From<&str>]: counts the characters. *)
Definition cs_from (s : ustr) : CharSequence :=
  {| cs_inner := s; cs_len := N.of_nat (length s) |}.

(** [str::char_indices]: each character with its byte offset. *)
Fixpoint char_indices_from (i : nat) (s : ustr) : list (nat * N) :=
  match s with
  | [] => []
  | c :: r => (i, c) :: char_indices_from (i + utf8_len c) r
  end.
Definition char_indices (s : ustr) : list (nat * N) := char_indices_from 0 s.

(** [Iterator::skip(n)] for an arbitrarily large [n]. *)
Fixpoint skipN {A} (n : N) (l : list A) : list A :=
  match l with
  | [] => []
  | x :: r => if n =? 0 then l else skipN (n - 1) r
  end.

(** src/helper.rs:129-157, [Index<Range<usize>>].  [iterator] is the list of the
    (offset, char) pairs still to come.  The final slices are byte slices of
    [inner] and panic outside a character boundary. *)
Definition cs_range (s : CharSequence) (a b : N) : res ustr :=
  let iterator := skipN a (char_indices (cs_inner s)) in
  let start := hd_error iterator in
  let iterator := tl iterator in
  if a <? b then
    let iterator := skipN (b - (a + 1)) iterator in
    let end_ := hd_error iterator in
    match start with
    | None => Ok []
    | Some (s0, _) =>
        match end_ with
        | None => slice_from s0 (cs_inner s)
        | Some (e, _) => slice s0 e (cs_inner s)
        end
    end
  else Ok [].

(** src/helper.rs:159-165, [Index<RangeFrom>]. *)
Definition cs_range_from (s : CharSequence) (a : N) : res ustr := cs_range s a (cs_len s).
(** src/helper.rs:167-173, [Index<RangeFull>]. *)
Definition cs_range_full (s : CharSequence) : res ustr := cs_range s 0 (cs_len s).
(** src/helper.rs:183-189, [Index<RangeTo>]. *)
Definition cs_range_to (s : CharSequence) (b : N) : res ustr := cs_range s 0 b.

(** [usize::MAX] on a 64-bit target, and [x + 1] under the two build profiles:
    with overflow checks it panics, without it wraps. *)
Definition usize_max : N := 18446744073709551615.
Inductive profile := Checked | Wrapping.
Definition succ_usize (p : profile) (x : N) : res N :=
  if x <? usize_max then Ok (x + 1)
  else match p with Checked => Panic | Wrapping => Ok 0 end.

(** src/helper.rs:175-181, [Index<RangeInclusive>].  ([RangeInclusive]'s
    [exhausted] flag plays no role: the code reads [start()] and [end()].) *)
Definition cs_range_incl (p : profile) (s : CharSequence) (a b : N) : res ustr :=
  e <- succ_usize p b ;; cs_range s a e.
(** src/helper.rs:191-197, [Index<RangeToInclusive>]. *)
Definition cs_range_to_incl (p : profile) (s : CharSequence) (b : N) : res ustr :=
  cs_range_incl p s 0 b.
