(** * Rewriting a text with a table of (pattern, replacement) pairs
    (independent of the model's helpers). *)
From Verif Require Import Base Spec_common.
Local Open Scope N_scope.

Definition rewriting_table := list (ustr * ustr).

(** [(p, q)] is the first entry of the table whose pattern begins the text. *)
Definition first_entry (t : rewriting_table) (s p q rest : ustr) : Prop :=
  exists t1 t2, t = t1 ++ (p, q) :: t2 /\ s = p ++ rest /\
    forall p' q' r', In (p', q') t1 -> s <> p' ++ r'.
Definition no_entry (t : rewriting_table) (s : ustr) : Prop :=
  forall p q r, In (p, q) t -> s <> p ++ r.

(** The beginning of the text is rewritten by the first entry that applies, if any. *)
Definition start_rewritten (t : rewriting_table) (s s' : ustr) : Prop :=
  (exists p q r, first_entry t s p q r /\ s' = q ++ r) \/ (no_entry t s /\ s' = s).

(** The end of the text is rewritten by the first entry that applies, if any. *)
Definition end_rewritten (t : rewriting_table) (s s' : ustr) : Prop :=
  (exists p q r t1 t2, t = t1 ++ (p, q) :: t2 /\ s = r ++ p /\ s' = r ++ q /\
     forall p' q' r', In (p', q') t1 -> s <> r' ++ p')
  \/ ((forall p q r, In (p, q) t -> s <> r ++ p) /\ s' = s).

(** Every occurrence of the pattern is replaced, reading from left to right. *)
Inductive all_replaced (p q : ustr) : ustr -> ustr -> Prop :=
| ar_end : all_replaced p q [] []
| ar_hit : forall r r', all_replaced p q r r' -> all_replaced p q (p ++ r) (q ++ r')
| ar_skip : forall c r r', (forall x, c :: r <> p ++ x) -> all_replaced p q r r' ->
    all_replaced p q (c :: r) (c :: r').
