(** * Latin-1 letters with accents and the like (uses nothing of the model). *)
From Verif Require Import Base Spec_doubled Spec_exchange.
Local Open Scope N_scope.

(** The letters of Latin-1 beyond ASCII, capital and small: À to ÿ without the signs × and ÷. *)
Definition accented (c : N) : Prop := # "À" <= c <= # "ÿ" /\ c <> # "×" /\ c <> # "÷".

(** One of these letters and one of these capitals. *)
Definition written_as (pairs : list (ustr * ustr)) (x y : N) : Prop := exists ls cs, In (ls, cs) pairs /\ In x ls /\ In y cs.

(** Text with something in it that is not white space. *)
Definition not_blank (white : N -> bool) (s : ustr) : Prop := exists c, In c s /\ white c = false.
