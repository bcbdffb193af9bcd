(** * Lib: the encoder traits (src/lib.rs). *)
From Verif Require Import Base UnicodeM.
Local Open Scope N_scope.

(** An encoder is modelled by its [encode] method: a function from strings to
    the returned string or a panic (src/lib.rs:147-169). *)
Definition encoder := ustr -> res ustr.

(** src/lib.rs:193-198, the default [Encoder::is_encoded_equals]. *)
Definition is_encoded_equals (encode : encoder) (first second : ustr) : res bool :=
  f <- encode first ;;
  s <- encode second ;;
  Ok (seq_eqb f s).

(** src/lib.rs:202-208, [SoundexUtils::soundex_clean]. *)
Definition soundex_clean (u : Unicode) (value : ustr) : ustr :=
  flat_map (to_upper u) (filter (is_alphabetic u) value).

(** src/lib.rs:269-274: the counting loop of [difference]. *)
Fixpoint count_same (a b : ustr) : nat :=
  match a, b with
  | x :: a', y :: b' => (if x =? y then S (count_same a' b') else count_same a' b')
  | _, _ => 0%nat
  end.

(** src/lib.rs:261-277, [SoundexCommons::difference]. *)
Definition difference (encode : encoder) (value1 value2 : ustr) : res nat :=
  v1 <- encode value1 ;;
  v2 <- encode value2 ;;
  match v1, v2 with
  | [], _ => Ok 0%nat
  | _, [] => Ok 0%nat
  | _, _ => Ok (count_same v1 v2)
  end.

(** src/lib.rs:89-100, [ParseError].  [filename]/[description] are carried as
    data; the Display text is [pe_display] in Api.v. *)
Record ParseError := {
  pe_line_number : nat;
  pe_filename : option ustr;
  pe_line_content : ustr;
  pe_description : ustr
}.

(** [remains.find('\n')] followed by [&remains[..index]]: the text before the
    first line feed. *)
Fixpoint until_lf (s : ustr) : ustr :=
  match s with
  | [] => []
  | c :: r => if c =? 10 then [] else c :: until_lf r
  end.

(** src/lib.rs:125-144, [build_error]. *)
Definition build_error (line_number : nat) (filename : option ustr) (remains description : ustr)
  : ParseError :=
  {| pe_line_number := line_number; pe_filename := filename;
     pe_line_content := until_lf remains; pe_description := description |}.
