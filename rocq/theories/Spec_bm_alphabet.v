(** * Beider-Morse: which characters remain in a code (specification). *)
From Verif Require Import Base UnicodeM DaitchMokotoff BmLanguages BmRegex BmRule BmEngine Spec_bm Spec_bm_engine.
Local Open Scope N_scope.

(** The rules write the character [c]. *)
Definition writes (rules : RuleMap) (c : N) : Prop :=
  exists k l r p, In (k, l) rules /\ In r l /\ In p (bm_phoneme r) /\ In c (ph_text p).
(** The rules rewrite the character [c] wherever it stands: one of them has the pattern [c] and contexts
    that every text satisfies. *)
Definition always_rewrites (rx : RegexEngine) (rules : RuleMap) (c : N) : Prop :=
  exists l r, assoc c rules = Some l /\ In r l /\ bm_pattern r = [c]
    /\ (forall s, context_is_match rx (bm_left r) s = true) /\ (forall s, context_is_match rx (bm_right r) s = true).
(** [c] is written by the last rules, or written before and not always rewritten since. *)
Definition remains (rx : RegexEngine) (main final1 final2 : RuleMap) (c : N) : Prop :=
  writes final2 c
  \/ (~ always_rewrites rx final2 c
      /\ (writes final1 c \/ (~ always_rewrites rx final1 c /\ writes main c))).

(** The sounds of the rules in the crate. *)
Definition sounds (n : NameType) (t : RuleType) : ustr :=
  match n, t with
  | Generic, RtApprox => $ "DQSYabdefgijklmnoprstuvwxz"
  | Generic, RtExact => $ "QSYZabdefghijklmnoprstuvwxz"
  | Ashkenazi, RtApprox => $ "DQSYabdfgijklmnoprstuvxz"
  | Ashkenazi, RtExact => $ "QSYZabdefghijklmnoprstuvxz"
  | Sephardic, RtApprox => $ "DSabdfghiklmnprstuvz"
  | Sephardic, RtExact => $ "SZabdefgijklmnoprstuvxz"
  end.
(** What may stand between them. *)
Definition separators (n : NameType) (concat : bool) : ustr :=
  $ "|" ++ match n with Generic => $ "()-" | _ => [] end ++ if concat then [] else $ "-".
