(** * Characters that may be left out (uses nothing of the model). *)
From Verif Require Import Base Spec_doubled.
Local Open Scope N_scope.

(** With the character [c] and without it the outcome is the same, wherever in a text of some kind it is
    put, as long as what stands before it is of another kind. *)
Definition may_be_left_out {A : Type} (outcome : ustr -> A) (before texts : ustr -> Prop) (c : N) : Prop :=
  forall a b, before a -> texts (a ++ b) -> outcome (a ++ c :: b) = outcome (a ++ b).

(** ASCII characters that are no letters; the letters. *)
Definition ascii_sign (c : N) : Prop := c < 128 /\ ~ (# "A" <= c <= # "Z") /\ ~ (# "a" <= c <= # "z").
Definition white_signs : ustr := [9; 10; 11; 12; 13; # " "].
(** Texts without a Greek capital sigma, whose lower case depends on its neighbours. *)
Definition without_sigma (s : ustr) : Prop := ~ In (# "Σ") s.
