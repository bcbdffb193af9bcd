(** * Beider-Morse: the limit on the number of phonemes, and the size of codes (specification). *)
From Verif Require Import Base UnicodeM DaitchMokotoff BmLanguages BmRegex BmRule BmEngine Spec_bm Spec_bm_engine.

(** How fast a table of rules can multiply and lengthen what it rewrites: a rule for [n] characters
    has at most [choices ^ n] alternatives, each of at most [growth * n] characters. *)
Record rates := { choices : nat; growth : nat }.
Definition rules_within (x : rates) (rules : RuleMap) : Prop :=
  1 <= choices x /\ 1 <= growth x /\ forall c rs r, In (c, rs) rules -> In r rs ->
    length (bm_phoneme r) <= choices x ^ length (bm_pattern r)
    /\ forall p, In p (bm_phoneme r) -> length (ph_text p) <= growth x * length (bm_pattern r).
(** The main rules, the common final rules and the final rules of each language of an engine. *)
Definition engine_within (main common final : rates) (e : PhoneticEngine) : Prop :=
  (forall l rules, rules_get (pe_rules e) (pe_name_type e, Rules_, l) = Some rules -> rules_within main rules)
  /\ (forall rules, rules_get (pe_rules e) (pe_name_type e, pe_rule_type e, $ "common") = Some rules -> rules_within common rules)
  /\ (forall l m rules, rules_get (pe_rules e) (pe_name_type e, Rules_, l) = Some m ->
        rules_get (pe_rules e) (pe_name_type e, pe_rule_type e, l) = Some rules -> rules_within final rules).

(** A text of [n] characters cannot have more than [limit] phonemes at any time. *)
Definition enough (main common final : rates) (n limit : nat) : Prop :=
  choices main ^ n <= limit
  /\ choices common ^ (growth main * n) <= limit
  /\ choices final ^ (growth common * (growth main * n)) <= limit.

(** The same engine with another limit. *)
Definition with_limit (e : PhoneticEngine) (limit : nat) : PhoneticEngine :=
  {| pe_rules := pe_rules e; pe_lang := pe_lang e; pe_name_type := pe_name_type e; pe_rule_type := pe_rule_type e;
     pe_concat := pe_concat e; pe_max_phonemes := limit |}.

(** Every part of a code between two separators has at most [n] characters. *)
Definition parts_within (n : nat) (code : ustr) : Prop :=
  forall a w b, code = a ++ w ++ b -> (forall x, In x w -> ~ In x $ "|()-") -> length w <= n.
