(** * What is settled while a name is typed (uses nothing of the model). *)
From Verif Require Import Base.
Local Open Scope N_scope.

(** The text [a] goes on with [b]: all but the last [n] characters of the outcome for [a] are kept,
    the code of the longer text begins with them. *)
Definition settled (outcome : ustr -> res ustr) (texts : ustr -> Prop) (n : nat) : Prop :=
  forall a b, texts (a ++ b) -> exists kept given_up added,
    outcome a = Ok (kept ++ given_up) /\ outcome (a ++ b) = Ok (kept ++ added) /\ (length given_up <= n)%nat.

(** The same for codes that are filled up with [filler]: what fills up does not count. *)
Definition settled_filled (filler : N) (outcome : ustr -> res ustr) (texts : ustr -> Prop) (n : nat) : Prop :=
  forall a b, texts (a ++ b) -> exists kept given_up added k,
    outcome a = Ok (kept ++ given_up ++ repeat filler k) /\ outcome (a ++ b) = Ok (kept ++ added)
    /\ (length given_up <= n)%nat.

(** A text that ends in [c] keeps its whole code. *)
Definition settled_after (outcome : ustr -> res ustr) (texts : ustr -> Prop) (c : N) : Prop :=
  forall a b, texts (a ++ c :: b) -> exists code added,
    outcome (a ++ [c]) = Ok code /\ outcome (a ++ c :: b) = Ok (code ++ added).
