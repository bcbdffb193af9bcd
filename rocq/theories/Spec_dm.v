(** * Daitch-Mokotoff coding (specification).

    A rule table gives, for each character, the rules whose pattern starts with
    it, in file order. *)
From Verif Require Import Base Spec_common DaitchMokotoff.
Local Open Scope N_scope.

Definition table := N -> list Rule.

(** [r] is the rule to apply to the text [s]: the longest pattern that is a
    prefix of [s], the first in file order among the longest. *)
Definition best_rule (rules : list Rule) (s : ustr) (r : Rule) : Prop :=
  exists l1 l2, rules = l1 ++ r :: l2
    /\ (exists rest, s = r_pattern r ++ rest)
    /\ (forall x, In x l1 -> (exists rest, s = r_pattern x ++ rest) ->
          (length (r_pattern x) < length (r_pattern r))%nat)
    /\ (forall x, In x l2 -> (exists rest, s = r_pattern x ++ rest) ->
          (length (r_pattern x) <= length (r_pattern r))%nat).
Definition no_rule (rules : list Rule) (s : ustr) : Prop :=
  forall x rest, In x rules -> s <> r_pattern x ++ rest.

Definition starts_with_vowel (s : ustr) : bool :=
  match s with c :: _ => isin c $ "aeiou" | [] => false end.

(** Which of the three replacement lists applies: at the start of the word,
    before a vowel, elsewhere. *)
Definition choose_replacements (r : Rule) (at_start : bool) (rest : ustr) : list ustr :=
  if at_start then r_at_start r
  else if starts_with_vowel rest then r_before_vowel r else r_default r.

(** The scan of a text: the replacement lists met, in order, each with a flag
    saying that m and n meet (then the code is kept even if repeated).
    [prev] is the last character that had rules, 0 at the beginning. *)
Inductive dm_scan (tbl : table) : N -> ustr -> list (list ustr * bool) -> Prop :=
| scan_end : forall prev, dm_scan tbl prev [] []
| scan_unknown : forall prev c s ev,
    tbl c = [] -> dm_scan tbl prev s ev -> dm_scan tbl prev (c :: s) ev
| scan_nomatch : forall prev c s ev,
    tbl c <> [] -> no_rule (tbl c) (c :: s) -> dm_scan tbl c s ev -> dm_scan tbl prev (c :: s) ev
| scan_rule : forall prev c s r rest ev,
    best_rule (tbl c) (c :: s) r -> c :: s = r_pattern r ++ rest -> dm_scan tbl c rest ev ->
    dm_scan tbl prev (c :: s)
      ((choose_replacements r (prev =? 0) rest,
        ((prev =? # "m") && (c =? # "n")) || ((prev =? # "n") && (c =? # "m"))) :: ev).

(** The scan of any text.  The encoder goes on after as many characters as the
    pattern has bytes: just after the pattern if it is ASCII, further otherwise;
    it looks for the vowel there, too. *)
Inductive dm_scan_any (tbl : table) : N -> ustr -> list (list ustr * bool) -> Prop :=
| any_end : forall prev, dm_scan_any tbl prev [] []
| any_unknown : forall prev c s ev,
    tbl c = [] -> dm_scan_any tbl prev s ev -> dm_scan_any tbl prev (c :: s) ev
| any_nomatch : forall prev c s ev,
    tbl c <> [] -> no_rule (tbl c) (c :: s) -> dm_scan_any tbl c s ev -> dm_scan_any tbl prev (c :: s) ev
| any_rule : forall prev c s r rest ev,
    best_rule (tbl c) (c :: s) r -> rest = skipn (blen (r_pattern r)) (c :: s) -> dm_scan_any tbl c rest ev ->
    dm_scan_any tbl prev (c :: s)
      ((choose_replacements r (prev =? 0) rest,
        ((prev =? # "m") && (c =? # "n")) || ((prev =? # "n") && (c =? # "m"))) :: ev).

(** A selection of one replacement per step. *)
Definition selection (ev : list (list ustr * bool)) (sel : list (ustr * bool)) : Prop :=
  Forall2 (fun e x => In (fst x) (fst e) /\ snd x = snd e) ev sel.
Definition first_selection (ev : list (list ustr * bool)) : list (ustr * bool) :=
  map (fun e => (hd [] (fst e), snd e)) ev.

(** A replacement is dropped when the previous one ends with it, unless m and n
    meet; what is kept is cut or filled with 0 to six characters. *)
Fixpoint kept (prev : option ustr) (sel : list (ustr * bool)) : ustr :=
  match sel with
  | [] => []
  | (r, mn) :: sel' =>
      (if match prev with None => true | Some p => negb (ends_with p r) end || mn then r else [])
      ++ kept (Some r) sel'
  end.
Definition dm_code (sel : list (ustr * bool)) : ustr := pad_to 6 (# "0") (kept None sel).

(** All the selections, in the order of the replacements: the first step varies
    slowest. *)
Fixpoint selections (ev : list (list ustr * bool)) : list (list (ustr * bool)) :=
  match ev with
  | [] => [[]]
  | (rs, mn) :: ev' => flat_map (fun r => map (cons (r, mn)) (selections ev')) rs
  end.
(** Two selections the encoder does not tell apart: the same text kept (cut to six
    characters), the same last replacement. *)
Definition indistinct (a b : list (ustr * bool)) : Prop :=
  firstn 6 (kept None a) = firstn 6 (kept None b)
  /\ hd_error (rev (map fst a)) = hd_error (rev (map fst b)).
(** [k] is [l] without the elements related to an earlier one. *)
Inductive first_of_each {A} (R : A -> A -> Prop) : list A -> list A -> Prop :=
| fe_nil : first_of_each R [] []
| fe_keep : forall l k a, first_of_each R l k -> (forall x, In x k -> ~ R x a) -> first_of_each R (l ++ [a]) (k ++ [a])
| fe_drop : forall l k a x, first_of_each R l k -> In x k -> R x a -> first_of_each R (l ++ [a]) k.

(** Replacements are ASCII and never empty lists. *)
Definition replacements_ok (l : list ustr) : Prop := l <> [] /\ forall r, In r l -> ascii_str r.
Definition table_ok (tbl : table) : Prop :=
  forall c r, In r (tbl c) ->
    (exists p, r_pattern r = c :: p)
    /\ replacements_ok (r_at_start r) /\ replacements_ok (r_before_vowel r) /\ replacements_ok (r_default r).

(** The encoder's table holds the rules of [tbl]. *)
Definition holds_table (d : DMS) (tbl : table) : Prop :=
  forall c, assoc c (dms_rules d) = match tbl c with [] => None | _ => Some (sort_rules (tbl c)) end.
