(** * Spelling mistakes (uses nothing of the model). *)
From Verif Require Import Base.
Local Open Scope N_scope.

(** One mistake in a text: a character too many, one missing, or one character for another.  The
    characters written in or left out are among the [ok] ones; the others may be any. *)
Inductive mistake (ok : N -> Prop) : ustr -> ustr -> Prop :=
| too_many : forall a c b, ok c -> mistake ok (a ++ b) (a ++ c :: b)
| missing : forall a c b, ok c -> mistake ok (a ++ c :: b) (a ++ b)
| mistaken : forall a c d b, ok c -> ok d -> mistake ok (a ++ c :: b) (a ++ d :: b).

(** At most [n] mistakes, one after the other: the edit distance is at most [n]. *)
Inductive mistakes (ok : N -> Prop) : nat -> ustr -> ustr -> Prop :=
| no_mistake : forall n s, mistakes ok n s s
| one_more : forall n s t w, mistake ok s t -> mistakes ok n t w -> mistakes ok (S n) s w.

Definition any_character (c : N) : Prop := True.

(** An outcome that moves by at most [k] mistakes for each mistake in the name. *)
Definition follows (ok : N -> Prop) (code : ustr -> ustr -> Prop) (k : nat) : Prop :=
  forall n s t p q, mistakes ok n s t -> code s p -> code t q -> mistakes any_character (k * n) p q.
