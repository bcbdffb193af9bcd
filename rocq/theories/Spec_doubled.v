(** * Doubled letters (uses nothing of the model). *)
From Verif Require Import Base.
Local Open Scope N_scope.

(** The capital letters. *)
Definition AZ : ustr := $ "ABCDEFGHIJKLMNOPQRSTUVWXYZ".

(** Writing the character [c] twice where the text has it once gives the same outcome, wherever it
    stands, in all texts of some kind. *)
Definition harmless {A : Type} (outcome : ustr -> A) (texts : ustr -> Prop) (c : N) : Prop :=
  forall a b, texts (a ++ c :: b) -> outcome (a ++ c :: c :: b) = outcome (a ++ c :: b).

(** All texts; texts of ASCII characters, of Latin-1 characters; at least two ASCII characters. *)
Definition any_text (_ : ustr) : Prop := True.
Definition ascii_text (s : ustr) : Prop := forall c, In c s -> c < 128.
Definition latin1_text (s : ustr) : Prop := forall c, In c s -> c < 256.
Definition longer_ascii_text (s : ustr) : Prop := ascii_text s /\ (2 <= length s)%nat.
(** At least two characters that are not white. *)
Definition several (white : N -> bool) (s : ustr) : Prop := (2 <= length (filter (fun c => negb (white c)) s))%nat.
