(** * How many there are (uses nothing of the model). *)
From Verif Require Import Base.

(** Exactly [k] things have the property: they are the members of a list of [k] different things. *)
Definition how_many {A : Type} (P : A -> Prop) (k : N) : Prop :=
  exists l, NoDup l /\ N.of_nat (length l) = k /\ forall x, In x l <-> P x.
