(** * Daitch-Mokotoff rule files (specification).

    A file is read line by line.  Each line is, in this order of preference, a
    rule, a folding, an empty (or commented) line, a comment over several lines;
    reading stops where no reading applies. *)
From Verif Require Import Base Spec_common Spec_rules DaitchMokotoff Spec_dm.
Local Open Scope N_scope.

Inductive dm_item :=
| DmRule (pattern at_start before_vowel default : ustr)
| DmFold (x y : N)
| DmBlank
| DmComment (lines : nat).

Inductive dm_line : ustr -> dm_item -> ustr -> Prop :=
| dm_line_rule : forall s a b c d rest,
    quad_line s (a, b, c, d) rest -> dm_line s (DmRule a b c d) rest
| dm_line_fold : forall s x y rest,
    (forall q r, ~ quad_line s q r) ->
    fold_line s (x, y) rest -> dm_line s (DmFold x y) rest
| dm_line_blank : forall s rest,
    s <> [] -> (forall q r, ~ quad_line s q r) -> (forall q r, ~ fold_line s q r) ->
    line_end s rest -> dm_line s DmBlank rest
| dm_line_comment : forall s n rest,
    (forall q r, ~ quad_line s q r) -> (forall q r, ~ fold_line s q r) ->
    (forall r, ~ line_end s r) ->
    comment_line s n rest -> dm_line s (DmComment n) rest.

(** [dm_file s items rem]: reading [s] gives [items], and [rem] cannot be read. *)
Inductive dm_file : ustr -> list dm_item -> ustr -> Prop :=
| dm_file_end : dm_file [] [] []
| dm_file_stuck : forall s, s <> [] -> (forall i r, ~ dm_line s i r) -> dm_file s [] s
| dm_file_item : forall s i r items rem, dm_line s i r -> dm_file r items rem -> dm_file s (i :: items) rem.

(** The alternatives of a part are separated by a bar. *)
Inductive alternatives : ustr -> list ustr -> Prop :=
| one_alternative : forall s, ~ In (# "|") s -> alternatives s [s]
| more_alternatives : forall s t l, ~ In (# "|") s -> alternatives t l -> alternatives (s ++ # "|" :: t) (s :: l).

(** The rules whose pattern starts with [c], in file order. *)
Definition item_rule (i : dm_item) : option Rule :=
  match i with DmRule a b c d => Some (rule_of_parts (a, b, c, d)) | _ => None end.
Fixpoint table_of (items : list dm_item) (c : N) : list Rule :=
  match items with
  | [] => []
  | DmRule (x :: a) b c' d :: r =>
      if x =? c then rule_of_parts (x :: a, b, c', d) :: table_of r c else table_of r c
  | _ :: r => table_of r c
  end.
(** The folding of [c]: the last one given. *)
Fixpoint folding_of (items : list dm_item) (c : N) : option N :=
  match items with
  | [] => None
  | DmFold x y :: r =>
      match folding_of r c with Some z => Some z | None => if x =? c then Some y else None end
  | _ :: r => folding_of r c
  end.
(** Lines reported: one per item, plus the lines of each multi-line comment. *)
Definition reported_lines (items : list dm_item) : nat :=
  list_sum (map (fun i => match i with DmComment n => S n | _ => 1%nat end) items).
(** Lines actually read (when quoted parts and foldings contain no line feed). *)
Definition lines_read (items : list dm_item) : nat :=
  list_sum (map (fun i => match i with DmComment n => n | _ => 1%nat end) items).

Definition empty_pattern (i : dm_item) : Prop := exists b c d, i = DmRule [] b c d.
Definition ascii_item (i : dm_item) : Prop :=
  forall a b c d, i = DmRule a b c d -> ascii_str b /\ ascii_str c /\ ascii_str d.
