(** * UnicodeM: the part of the Unicode tables of the Rust standard library that
    rphonetic relies on.

    Code points below 256 (ASCII and Latin-1) are given concretely, so that the
    model computes on them.  Everything above is an oracle, the record
    [Unicode]: the theorems quantify over it, i.e. they hold for every Unicode
    version.  [UnicodeOK] collects the few facts about the real tables that some
    theorems need; DESIGN.md lists them in the trusted base. *)
From Verif Require Import Base.
Local Open Scope N_scope.

(** The tables above Latin-1 (code points >= 256). *)
Record Unicode := {
  hi_alphabetic : N -> bool;      (* char::is_alphabetic *)
  hi_numeric : N -> bool;         (* char::is_numeric *)
  hi_lowercase : N -> bool;       (* char::is_lowercase *)
  hi_whitespace : N -> bool;      (* char::is_whitespace *)
  hi_cased : N -> bool;           (* Cased, used by str::to_lowercase *)
  hi_case_ignorable : N -> bool;  (* Case_Ignorable, used by str::to_lowercase *)
  hi_upper : N -> ustr;           (* char::to_uppercase *)
  hi_lower : N -> ustr            (* char::to_lowercase *)
}.

(** Facts used about the real tables: a case mapping never yields the empty
    string.  (UnicodeReal.v shows that real tables satisfy them.) *)
Record UnicodeOK (u : Unicode) : Prop := {
  hi_upper_nonempty : forall c, hi_upper u c <> [];
  hi_lower_nonempty : forall c, hi_lower u c <> [];
}.

Section Chars.
Variable u : Unicode.

Definition latin1_alphabetic (c : N) : bool :=
  is_ascii_alpha c || (c =? 170) || (c =? 181) || (c =? 186)
  || ((192 <=? c) && negb (c =? 215) && negb (c =? 247)).
(** [char::is_alphabetic] *)
Definition is_alphabetic (c : N) : bool :=
  if c <? 256 then latin1_alphabetic c else hi_alphabetic u c.

(** [char::is_numeric], [char::is_alphanumeric] *)
Definition is_numeric (c : N) : bool :=
  if c <? 256 then is_ascii_digit c || isin c [178; 179; 185; 188; 189; 190]
  else hi_numeric u c.
Definition is_alphanumeric (c : N) : bool := is_alphabetic c || is_numeric c.

(** [char::is_lowercase] *)
Definition is_lowercase (c : N) : bool :=
  if c <? 256 then
    is_ascii_lower c || (c =? 170) || (c =? 181) || (c =? 186)
    || ((223 <=? c) && negb (c =? 247))
  else hi_lowercase u c.

(** [char::is_whitespace] *)
Definition is_whitespace (c : N) : bool :=
  if c <? 256 then ((9 <=? c) && (c <=? 13)) || (c =? 32) || (c =? 133) || (c =? 160)
  else hi_whitespace u c.

(** [char::to_uppercase] *)
Definition to_upper (c : N) : ustr :=
  if c <? 256 then
    if is_ascii_lower c then [c - 32]
    else if c =? 181 then [924]
    else if c =? 223 then [83; 83]
    else if c =? 255 then [376]
    else if (224 <=? c) && negb (c =? 247) then [c - 32]
    else [c]
  else hi_upper u c.

(** [char::to_lowercase] *)
Definition to_lower (c : N) : ustr :=
  if c <? 256 then
    if is_ascii_upper c then [c + 32]
    else if (192 <=? c) && (c <=? 222) && negb (c =? 215) then [c + 32]
    else [c]
  else hi_lower u c.

Definition cased (c : N) : bool :=
  if c <? 256 then latin1_alphabetic c else hi_cased u c.
Definition case_ignorable (c : N) : bool :=
  if c <? 256 then isin c [39; 46; 58; 94; 96; 168; 173; 175; 180; 183; 184]
  else hi_case_ignorable u c.

(** [str::to_uppercase]: character by character. *)
Definition str_upper (s : ustr) : ustr := flat_map to_upper s.

(** [str::to_lowercase]: character by character, except that a capital sigma
    (U+03A3) becomes a final sigma (U+03C2) when the text before it, skipping
    case-ignorable characters, ends with a cased character and the text after
    it, skipping case-ignorable characters, does not start with one. *)
Fixpoint case_ignorable_then_cased (s : ustr) : bool :=
  match s with
  | [] => false
  | c :: r => if case_ignorable c then case_ignorable_then_cased r else cased c
  end.
Fixpoint str_lower_aux (before_rev s : ustr) : ustr :=
  match s with
  | [] => []
  | c :: r =>
      (if c =? 931 then
         if case_ignorable_then_cased before_rev && negb (case_ignorable_then_cased r)
         then [962] else [963]
       else to_lower c)
      ++ str_lower_aux (c :: before_rev) r
  end.
Definition str_lower (s : ustr) : ustr := str_lower_aux [] s.

(** [str::trim_start], [str::trim] *)
Fixpoint trim_start (s : ustr) : ustr :=
  match s with
  | [] => []
  | c :: r => if is_whitespace c then trim_start r else s
  end.
Definition trim (s : ustr) : ustr := rev (trim_start (rev (trim_start s))).

(** [str::split_whitespace] *)
Fixpoint split_ws_aux (cur : ustr) (s : ustr) : list ustr :=
  match s with
  | [] => match cur with [] => [] | _ => [rev cur] end
  | c :: r =>
      if is_whitespace c then
        match cur with
        | [] => split_ws_aux [] r
        | _ => rev cur :: split_ws_aux [] r
        end
      else split_ws_aux (c :: cur) r
  end.
Definition split_whitespace (s : ustr) : list ustr := split_ws_aux [] s.

End Chars.

(** A concrete instance: above Latin-1 nothing is a letter, digit or space and
    case mappings are the identity.  Used for computation on Latin-1 data. *)
Definition latin1_only : Unicode := {|
  hi_alphabetic := fun _ => false;
  hi_numeric := fun _ => false;
  hi_lowercase := fun _ => false;
  hi_whitespace := fun _ => false;
  hi_cased := fun _ => false;
  hi_case_ignorable := fun _ => false;
  hi_upper := fun c => [c];
  hi_lower := fun c => [c]
|}.

Lemma latin1_only_ok : UnicodeOK latin1_only.
Proof. split; intros c; discriminate. Qed.
