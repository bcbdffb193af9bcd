(** * Beider-Morse: the code of a name (specification).

    How a value is cut into the pieces whose codes are assembled, as relations
    over the text. *)
From Verif Require Import Base UnicodeM DaitchMokotoff BmLanguages BmRegex BmRule BmEngine Spec_bm Spec_bm_engine.
Local Open Scope N_scope.

Section Name.
Variable u : Unicode.
Variable rx : RegexEngine.

(** The text that is looked at: lowercase, with spaces for hyphens. *)
Definition looked_at (value : ustr) : ustr :=
  map (fun c => if c =? # "-" then # " " else c) (str_lower u value).

(** The words of a text: its maximal non-empty runs without white space. *)
Inductive words_of : ustr -> list ustr -> Prop :=
| wo_end : forall s, (forall c, In c s -> is_whitespace u c = true) -> words_of s []
| wo_word : forall sp w rest ws,
    (forall c, In c sp -> is_whitespace u c = true) ->
    w <> [] -> (forall c, In c w -> is_whitespace u c = false) ->
    (rest = [] \/ exists c r, rest = c :: r /\ is_whitespace u c = true) ->
    words_of rest ws -> words_of (sp ++ w ++ rest) (w :: ws).

(** The particles of generic names that are followed by a space (the crate also
    lists "de la", which can never be the one found: see [C58]). *)
Definition particles : list ustr :=
  [$ "da"; $ "dal"; $ "de"; $ "del"; $ "dela"; $ "della"; $ "des"; $ "di"; $ "do";
   $ "dos"; $ "du"; $ "van"; $ "von"].

(** A generic name with a particle: what is encoded in its place, the
    combination and the remainder. *)
Inductive prefixed : NameType -> ustr -> ustr -> ustr -> Prop :=
| px_d : forall r, prefixed Generic ($ "d'" ++ r) ($ "d" ++ r) r
| px_particle : forall p r, In p particles -> prefixed Generic (p ++ $ " " ++ r) (p ++ r) r.

(** What follows the last apostrophe. *)
Definition after_quote (w s : ustr) : Prop :=
  ~ In (# "'") s /\ (w = s \/ exists p, w = p ++ $ "'" ++ s).

(** The particles dropped from Ashkenazi and Sephardic names. *)
Definition dropped (n : NameType) (w : ustr) : Prop :=
  match n with
  | Generic => False
  | Ashkenazi => In w [$ "bar"; $ "ben"; $ "da"; $ "de"; $ "van"; $ "von"]
  | Sephardic => In w (particles ++ [$ "al"; $ "el"])
  end.

(** The words that are concatenated. *)
Definition kept_as (n : NameType) (w s : ustr) : Prop :=
  match n with Sephardic => after_quote w s | _ => w = s end.
Inductive kept (n : NameType) : list ustr -> list ustr -> Prop :=
| kp_nil : kept n [] []
| kp_keep : forall w s ws ks, kept_as n w s -> ~ dropped n s -> kept n ws ks -> kept n (w :: ws) (s :: ks)
| kp_drop : forall w s ws ks, kept_as n w s -> dropped n s -> kept n ws ks -> kept n (w :: ws) ks.

(** The three tables used for a language set: the main rules, the common final
    rules, the final rules of the language; the language is the only one of the
    set, or "any". *)
Definition language_used (languages : LanguageSet) (l : ustr) : Prop :=
  languages = SomeLanguages [l]
  \/ (l = $ "any" /\ forall x, languages <> SomeLanguages [x]).
Definition tables (e : PhoneticEngine) (languages : LanguageSet) (rules final1 final2 : RuleMap) : Prop :=
  exists l, language_used languages l
    /\ rules_get (pe_rules e) (pe_name_type e, Rules_, l) = Some rules
    /\ rules_get (pe_rules e) (pe_name_type e, pe_rule_type e, $ "common") = Some final1
    /\ rules_get (pe_rules e) (pe_name_type e, pe_rule_type e, l) = Some final2.

(** The code of a text: the texts of its phonemes, separated by '|'. *)
Definition text_code (e : PhoneticEngine) (languages : LanguageSet) (text code : ustr) : Prop :=
  exists rules final1 final2 b, tables e languages rules final1 final2
    /\ word_phonemes rx rules final1 final2 (pe_max_phonemes e) languages text b
    /\ code = join $ "|" (map ph_text b).

(** The code of a value, for given languages. *)
Inductive name_code (e : PhoneticEngine) : LanguageSet -> ustr -> ustr -> Prop :=
| nc_prefixed : forall languages v c r cc rc,
    (exists a b d, tables e languages a b d) ->
    prefixed (pe_name_type e) (looked_at v) c r ->
    name_code e (guess_languages u rx (pe_lang e) c) c cc ->
    name_code e (guess_languages u rx (pe_lang e) r) r rc ->
    name_code e languages v ($ "(" ++ rc ++ $ ")-(" ++ cc ++ $ ")")
| nc_words : forall languages v ws codes,
    (exists a b d, tables e languages a b d) ->
    (forall c r, ~ prefixed (pe_name_type e) (looked_at v) c r) ->
    pe_concat e = false -> words_of (looked_at v) ws -> length ws <> 1%nat ->
    Forall2 (fun w c => name_code e (guess_languages u rx (pe_lang e) w) w c) ws codes ->
    name_code e languages v (join $ "-" codes)
| nc_one_word : forall languages v w code,
    (forall c r, ~ prefixed (pe_name_type e) (looked_at v) c r) ->
    pe_concat e = false -> words_of (looked_at v) [w] ->
    text_code e languages w code ->
    name_code e languages v code
| nc_concat : forall languages v ws ks code,
    (forall c r, ~ prefixed (pe_name_type e) (looked_at v) c r) ->
    pe_concat e = true -> words_of (looked_at v) ws -> kept (pe_name_type e) ws ks ->
    text_code e languages (join $ " " ks) code ->
    name_code e languages v code.

End Name.
