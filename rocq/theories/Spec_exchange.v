(** * Letters that may be exchanged (uses nothing of the model). *)
From Verif Require Import Base Spec_doubled.
Local Open Scope N_scope.

(** Writing [y] instead of [x] gives the same outcome, wherever it stands, whatever text of one kind
    stands before it and whatever text of another kind after it. *)
Definition exchangeable {A : Type} (outcome : ustr -> A) (before after : ustr -> Prop) (x y : N) : Prop :=
  forall a b, before a -> after b -> outcome (a ++ x :: b) = outcome (a ++ y :: b).

(** Letters in the same of some groups. *)
Definition together (groups : list ustr) (x y : N) : Prop :=
  x = y \/ exists g, In g groups /\ In x g /\ In y g.

(** Kinds of texts (besides any, ASCII and Latin-1 ones, see Spec_doubled.v): with an ASCII letter;
    with two; ASCII and starting with three letters; ASCII and with something that is neither white nor one of -&'., *)
Definition is_letter (c : N) : Prop := # "A" <= c <= # "Z" \/ # "a" <= c <= # "z".
Definition with_letter (s : ustr) : Prop := exists a c b, s = a ++ c :: b /\ is_letter c.
Definition with_two_letters (s : ustr) : Prop := exists a c b d e, s = a ++ c :: b ++ d :: e /\ is_letter c /\ is_letter d.
Definition with_three_letters (s : ustr) : Prop :=
  ascii_text s /\ exists a b c r, s = a :: b :: c :: r /\ is_letter a /\ is_letter b /\ is_letter c.
Definition with_substance (s : ustr) : Prop :=
  ascii_text s /\ exists a c b, s = a ++ c :: b /\ ~ In c $ " -&'.," /\ ~ (9 <= c <= 13).
