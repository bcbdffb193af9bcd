(** * Beider-Morse: the context matcher (src/beider_morse/regex_optim.rs). *)
From Verif Require Import Base UnicodeM.
Local Open Scope N_scope.

(** The [regex] crate is an oracle: which patterns it accepts, the text of its
    error for the others, and [Regex::is_match]. *)
Record RegexEngine := {
  rx_valid : ustr -> bool;
  rx_error : ustr -> ustr;
  rx_match : ustr -> ustr -> bool   (* pattern, text *)
}.

(** src/beider_morse/regex_optim.rs:9-18 *)
Inductive OptimizedRegex :=
| AllStringsMatcher
| Equals (s : ustr)
| IsEmpty
| StartsWith (s : ustr)
| EndsWith (s : ustr)
| EqualsChar (l : ustr) (should_match : bool)
| StartsWithChar (l : ustr) (should_match : bool)
| EndsWithChar (l : ustr) (should_match : bool).

(** src/beider_morse/regex_optim.rs:54-97, [is_match]. *)
Definition opt_is_match (o : OptimizedRegex) (input : ustr) : bool :=
  match o with
  | AllStringsMatcher => true
  | IsEmpty => match input with [] => true | _ => false end
  | Equals p => seq_eqb p input
  | StartsWith p => if Nat.ltb (blen input) (blen p) then false else starts_with input p
  | EndsWith p => if Nat.ltb (blen input) (blen p) then false else ends_with input p
  | EqualsChar l b =>
      match input with
      | [] => false
      | [c] => Bool.eqb (isin c l) b
      | _ => false
      end
  | StartsWithChar l b =>
      match input with [] => false | c :: _ => Bool.eqb (isin c l) b end
  | EndsWithChar l b =>
      match rev input with [] => false | c :: _ => Bool.eqb (isin c l) b end
  end.

(** [&s[..s.len() - 1]] when the last character is one byte long (it is '$' or
    ']' wherever this is used): drop the last character. *)
Definition drop_last (s : ustr) : ustr := removelast s.

Definition ends_with_char (s : ustr) (c : N) : bool :=
  match rev s with x :: _ => x =? c | [] => false end.
Definition starts_with_char (s : ustr) (c : N) : bool :=
  match s with x :: _ => x =? c | [] => false end.

(** src/beider_morse/regex_optim.rs:100-158, [FromStr] ([None] is [Err(())]). *)
Definition optimized_from_str (regex : ustr) : option OptimizedRegex :=
  let starts_with := starts_with_char regex (# "^") in
  let ends_with := ends_with_char regex (# "$") in
  let content :=
    match starts_with, ends_with with
    | false, false => regex
    | true, false => tl regex
    | false, true => drop_last regex
    | true, true => drop_last (tl regex)
    end in
  let boxes := isin (# "[") regex in
  if negb boxes then
    if starts_with && ends_with then
      match content with [] => Some IsEmpty | _ => Some (Equals content) end
    else if (starts_with || ends_with) && (match content with [] => true | _ => false end)
    then Some AllStringsMatcher
    else if starts_with then Some (StartsWith content)
    else if ends_with then Some (EndsWith content)
    else None
  else
    if starts_with_char content (# "[") && ends_with_char content (# "]") then
      let content := drop_last (tl content) in
      if negb (isin (# "[") content) then
        let negate := starts_with_char content (# "^") in
        let content := if negate then tl content else content in
        let should_match := negb negate in
        if starts_with && ends_with then Some (EqualsChar content should_match)
        else if starts_with then Some (StartsWithChar content should_match)
        else if ends_with then Some (EndsWithChar content should_match)
        else None
      else None
    else None.

(** [Either<Regex, OptimizedRegex>] and its [IsMatch]
    (src/beider_morse/mod.rs:73-84). *)
Inductive Context := CRegex (pattern : ustr) | COptimized (o : OptimizedRegex).
Definition context_is_match (rx : RegexEngine) (c : Context) (input : ustr) : bool :=
  match c with
  | CRegex p => rx_match rx p input
  | COptimized o => opt_is_match o input
  end.
