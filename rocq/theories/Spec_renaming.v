(** * Tables that tell the same letters apart (uses nothing of the model). *)
From Verif Require Import Base.
Local Open Scope N_scope.

(** Two tables for the letters A to Z give two letters the same code or not alike. *)
Definition same_groups (m m' : ustr) : Prop :=
  length m = 26%nat /\ length m' = 26%nat
  /\ forall i j, (i < 26)%nat -> (j < 26)%nat -> (nth i m 0 = nth j m 0 <-> nth i m' 0 = nth j m' 0).
(** They have a code in the same places. *)
Definition same_places (code : N) (m m' : ustr) : Prop := forall i, (i < 26)%nat -> (nth i m 0 = code <-> nth i m' 0 = code).
(** [f] takes different codes (of a table, say) to different ones. *)
Definition faithful (f : N -> N) (codes : ustr) : Prop := forall a b, In a codes -> In b codes -> f a = f b -> a = b.
(** The same text with the characters after the first renamed. *)
Definition renamed (f : N -> N) (code : ustr) : ustr :=
  match code with [] => [] | initial :: digits => initial :: map f digits end.
