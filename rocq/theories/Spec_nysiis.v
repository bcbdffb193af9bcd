(** * NYSIIS, as published (and as kept by Commons Codec), in declarative form.
    Written from the description of the algorithm; uses nothing of the model. *)
From Verif Require Import Base Spec_common Spec_rewrite.
Local Open Scope N_scope.

Definition upper_vowel (c : N) : Prop := In c $ "AEIOU".

(** First letters of the name. *)
Definition nysiis_start : rewriting_table :=
  [($ "MAC", $ "MCC"); ($ "KN", $ "NN"); ($ "K", $ "C");
   ($ "PH", $ "FF"); ($ "PF", $ "FF"); ($ "SCH", $ "SSS")].

(** Last letters of the name. *)
Definition nysiis_end : rewriting_table :=
  [($ "EE", $ "Y"); ($ "IE", $ "Y");
   ($ "DT", $ "D"); ($ "RT", $ "D"); ($ "RD", $ "D"); ($ "NT", $ "D"); ($ "ND", $ "D")].

(** Letters after the first. *)
Definition nysiis_letters : rewriting_table :=
  [($ "EV", $ "AF");
   ($ "A", $ "A"); ($ "E", $ "A"); ($ "I", $ "A"); ($ "O", $ "A"); ($ "U", $ "A");
   ($ "Q", $ "G"); ($ "Z", $ "S"); ($ "M", $ "N");
   ($ "KN", $ "NN"); ($ "K", $ "C"); ($ "SCH", $ "SSS"); ($ "PH", $ "FF")].

(** The text at the current position, preceded by the (already rewritten) letter
    [previous], is rewritten: by the table; else H next to a letter that is not a
    vowel (or at the end) and W after a vowel repeat the previous letter; else it is
    left alone. *)
Inductive nysiis_rewritten (previous : N) : ustr -> ustr -> Prop :=
| nr_table : forall s p q r, first_entry nysiis_letters s p q r ->
    nysiis_rewritten previous s (q ++ r)
| nr_h : forall r, (~ upper_vowel previous \/ ~ exists n r', r = n :: r' /\ upper_vowel n) ->
    nysiis_rewritten previous (# "H" :: r) (previous :: r)
| nr_w : forall r, upper_vowel previous ->
    nysiis_rewritten previous (# "W" :: r) (previous :: r)
| nr_other : forall c r, no_entry nysiis_letters (c :: r) ->
    ~ (c = # "H" /\ (~ upper_vowel previous \/ ~ exists n r', r = n :: r' /\ upper_vowel n)) ->
    ~ (c = # "W" /\ upper_vowel previous) ->
    nysiis_rewritten previous (c :: r) (c :: r).

(** The letters after the first are rewritten one position at a time, each step
    seeing what the earlier steps wrote. *)
Inductive nysiis_translated : N -> ustr -> ustr -> Prop :=
| nt_end : forall previous, nysiis_translated previous [] []
| nt_step : forall previous s c r out, nysiis_rewritten previous s (c :: r) ->
    s <> [] -> nysiis_translated c r out -> nysiis_translated previous s (c :: out).

(** The end of the key. *)
Definition final_dropped (x k k' : ustr) : Prop :=
  k = k' ++ x \/ (k' = k /\ forall a, k <> a ++ x).
Definition final_AY (k k' : ustr) : Prop :=
  (exists a, k = a ++ $ "AY" /\ a <> [] /\ k' = a ++ $ "Y")
  \/ (k' = k /\ forall a, k = a ++ $ "AY" -> a = []).
Definition nysiis_ended (k k' : ustr) : Prop :=
  ((length k <= 1)%nat /\ k' = k)
  \/ ((1 < length k)%nat /\ exists k1 k2, final_dropped $ "S" k k1 /\ final_AY k1 k2 /\ final_dropped $ "A" k2 k').

(** The key of a name given by its uppercase letters. *)
Inductive nysiis_key : ustr -> ustr -> Prop :=
| nk_empty : nysiis_key [] []
| nk_name : forall name a c r out key,
    name <> [] -> start_rewritten nysiis_start name a -> end_rewritten nysiis_end a (c :: r) ->
    nysiis_translated c r out -> nysiis_ended (collapse (c :: out)) key ->
    nysiis_key name key.
