(** * The comparisons of the public types (the derived [Ord], [PartialOrd], [Eq], [PartialEq]). *)
From Verif Require Import Base UnicodeM Lib Helper Soundex BmLanguages Api.
Local Open Scope N_scope.

(** Derived [cmp] of a struct: the fields in order of declaration; the first that differs decides. *)
Definition then_cmp (a b : comparison) : comparison := match a with Eq => b | c => c end.
(** [bool]: [false < true]. *)
Definition bool_cmp (a b : bool) : comparison :=
  match a, b with false, true => Lt | true, false => Gt | _, _ => Eq end.
(** [Option]: [None] first. *)
Definition option_cmp {A} (c : A -> A -> comparison) (a b : option A) : comparison :=
  match a, b with None, None => Eq | None, Some _ => Lt | Some _, None => Gt | Some x, Some y => c x y end.
(** Lists (sets are compared by their elements in order): element by element. *)
Fixpoint list_cmp {A} (c : A -> A -> comparison) (a b : list A) : comparison :=
  match a, b with
  | [], [] => Eq
  | [], _ => Lt
  | _, [] => Gt
  | x :: a', y :: b' => then_cmp (c x y) (list_cmp c a' b')
  end.

(** src/soundex.rs:74-78; arrays of characters compare as texts. *)
Definition soundex_cmp (a b : soundex) : comparison :=
  then_cmp (str_cmp (sx_mapping a) (sx_mapping b)) (bool_cmp (sx_special_case_h_w a) (sx_special_case_h_w b)).
(** src/refined_soundex.rs:40-43 *)
Definition refined_cmp (a b : ustr) : comparison := str_cmp a b.
(** src/nysiis.rs:65-68 *)
Definition nysiis_cmp (a b : NysiisE) : comparison := bool_cmp (ny_strict a) (ny_strict b).
(** src/phonex.rs:34-37 *)
Definition phonex_cmp (a b : PhonexE) : comparison := Nat.compare (px_max_code_length a) (px_max_code_length b).
(** src/metaphone.rs:38-41 *)
Definition metaphone_cmp (a b : MetaphoneE) : comparison := option_cmp Nat.compare (mt_max_code_length a) (mt_max_code_length b).
(** src/double_metaphone.rs:160-163 *)
Definition dmetaphone_cmp (a b : DoubleMetaphoneE) : comparison := option_cmp Nat.compare (dm_max_code_length a) (dm_max_code_length b).
(** src/double_metaphone.rs:35-40 *)
Definition dmresult_cmp (a b : DMResult) : comparison :=
  then_cmp (str_cmp (dmr_primary a) (dmr_primary b))
  (then_cmp (str_cmp (dmr_alternate a) (dmr_alternate b))
            (option_cmp Nat.compare (dmr_max_length a) (dmr_max_length b))).
(** src/lib.rs:89-100 *)
Definition parse_error_cmp (a b : ParseError) : comparison :=
  then_cmp (Nat.compare (pe_line_number a) (pe_line_number b))
  (then_cmp (option_cmp str_cmp (pe_filename a) (pe_filename b))
  (then_cmp (str_cmp (pe_line_content a) (pe_line_content b))
            (str_cmp (pe_description a) (pe_description b)))).
(** src/helper.rs:83-87 *)
Definition char_sequence_cmp (a b : CharSequence) : comparison :=
  then_cmp (str_cmp (cs_inner a) (cs_inner b)) (N.compare (cs_len a) (cs_len b)).
(** Derived [cmp] of an enum: the variants in order of declaration, then the data.
    src/beider_morse/mod.rs:89-102 *)
Definition nt_index (n : NameType) : nat := match n with Ashkenazi => 0 | Generic => 1 | Sephardic => 2 end.
Definition name_type_cmp (a b : NameType) : comparison := Nat.compare (nt_index a) (nt_index b).
(** src/beider_morse/rule.rs:27-33 *)
Definition rt_index (r : RuleType) : nat := match r with RtApprox => 0 | RtExact => 1 end.
Definition rule_type_cmp (a b : RuleType) : comparison := Nat.compare (rt_index a) (rt_index b).
(** src/beider_morse/languages.rs:12-20 *)
Definition ls_index (s : LanguageSet) : nat := match s with LAny => 0 | NoLanguages => 1 | SomeLanguages _ => 2 end.
Definition language_set_cmp (a b : LanguageSet) : comparison :=
  match a, b with
  | SomeLanguages x, SomeLanguages y => list_cmp str_cmp x y
  | _, _ => Nat.compare (ls_index a) (ls_index b)
  end.
