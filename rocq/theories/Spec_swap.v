(** * Neighbouring letters that may be swapped (uses nothing of the model). *)
From Verif Require Import Base Spec_exchange.
Local Open Scope N_scope.

(** Two neighbouring characters may be written in either order: wherever they stand, whatever text of one
    kind stands before them and whatever text of another kind after them, the outcome is the same. *)
Definition swappable {A : Type} (outcome : ustr -> A) (before after : ustr -> Prop) (x y : N) : Prop :=
  forall a b, before a -> after b -> outcome (a ++ x :: y :: b) = outcome (a ++ y :: x :: b).

(** Two characters of the same group, or one of which is among some that commute with all others. *)
Definition spared (groups : list ustr) (free : ustr) (x y : N) : Prop := together groups x y \/ In x free \/ In y free.
