(** * Phonex, in declarative form (uses nothing of the model). *)
From Verif Require Import Base Spec_common Spec_rewrite.
Local Open Scope N_scope.

(** ** Preprocessing of a name given by its uppercase letters *)
Definition without_trailing_S (name a : ustr) : Prop :=
  exists k, name = a ++ repeat (# "S") k /\ forall b, a <> b ++ $ "S".
Definition phonex_pairs : rewriting_table :=
  [($ "KN", $ "NN"); ($ "PH", $ "FH"); ($ "WR", $ "RR")].
Definition phonex_silent_h : rewriting_table := [($ "H", [])].
Definition phonex_initials : rewriting_table :=
  [($ "E", $ "A"); ($ "I", $ "A"); ($ "O", $ "A"); ($ "U", $ "A"); ($ "Y", $ "A");
   ($ "P", $ "B"); ($ "V", $ "F"); ($ "K", $ "C"); ($ "Q", $ "C"); ($ "J", $ "G"); ($ "Z", $ "S")].
Definition phonex_prepared (name t : ustr) : Prop :=
  exists a b c, without_trailing_S name a /\ start_rewritten phonex_pairs a b /\
    start_rewritten phonex_silent_h b c /\ start_rewritten phonex_initials c t.

(** ** Digits *)
Definition phonex_vowel (c : N) : bool := isin c $ "AEIOUY".
(** The digit of a letter followed by [rest]; [before] is the digit of the letter
    handled before it, which a silent letter takes over. *)
Definition phonex_digit (before c : N) (rest : ustr) : N :=
  let vowel_or_end := match rest with [] => true | n :: _ => phonex_vowel n end in
  if isin c $ "BPFV" then # "1"
  else if isin c $ "CSKGJQXZ" then # "2"
  else if isin c $ "DT" then (match rest with n :: _ => if n =? # "C" then before else # "3" | [] => # "3" end)
  else if c =? # "L" then (if vowel_or_end then # "4" else before)
  else if isin c $ "MN" then # "5"
  else if c =? # "R" then (if vowel_or_end then # "6" else before)
  else # "0".
(** M and N swallow a D or G that follows. *)
Definition phonex_swallows (c : N) (rest : ustr) : bool :=
  isin c $ "MN" && match rest with n :: _ => isin n $ "DG" | [] => false end.

(** The digits written for the letters after the first: those that are not 0 and
    differ from the digit [last] ([None]: nothing to differ from). *)
Inductive phonex_digits : N -> option N -> option N -> ustr -> ustr -> Prop :=
| pd_end : forall before last written, phonex_digits before last written [] []
| pd_write : forall before last written c s r d ds,
    d = phonex_digit before c s -> d <> # "0" -> last <> Some d ->
    (if phonex_swallows c s then exists n, s = n :: r else s = r) ->
    phonex_digits d (Some d) (Some d) r ds ->
    phonex_digits before last written (c :: s) (d :: ds)
| pd_silent : forall before last written c s r d ds,
    d = phonex_digit before c s -> (d = # "0" \/ last = Some d) ->
    (if phonex_swallows c s then exists n, s = n :: r else s = r) ->
    phonex_digits d written written r ds ->
    phonex_digits before last written (c :: s) ds.

(** The code without length limit: the first letter, then the digits.  The digit of
    the second letter must differ from that of the first.  An initial M or N that
    swallows a letter writes its own digit too. *)
Inductive phonex_code : ustr -> ustr -> Prop :=
| pc_empty : phonex_code [] []
| pc_name : forall f s ds, phonex_swallows f s = false ->
    phonex_digits (phonex_digit (# "0") f s) (Some (phonex_digit (# "0") f s)) None s ds ->
    phonex_code (f :: s) (f :: ds)
| pc_swallow : forall f n s ds, phonex_swallows f (n :: s) = true ->
    phonex_digits (# "5") (Some (# "5")) (Some (# "5")) s ds ->
    phonex_code (f :: n :: s) (f :: # "5" :: ds).

(** ** Length
    The code of a name [t] cut or padded to [max] bytes.  The first letter is kept
    whole, even when it takes more bytes than [max]; then, and when the limit is one
    byte and the name starts with M or N swallowing its second letter, the limit is
    never met exactly and nothing is cut. *)
Definition phonex_fitted (max : nat) (t code : ustr) : ustr :=
  match max with
  | O => []
  | _ =>
      match code with
      | [] => repeat (# "0") max
      | f :: ds =>
          if (utf8_len f <? max)%nat
             || ((utf8_len f =? max)%nat && negb (match t with c :: r => phonex_swallows c r | [] => false end))
          then f :: pad_to (max - utf8_len f) (# "0") ds
          else code
      end
  end.
