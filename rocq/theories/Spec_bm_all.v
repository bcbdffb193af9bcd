(** * Beider-Morse from the files to the code (specification).

    Which files of the configuration directory are used for which settings, and
    the code they give: no engine, builder or configuration object. *)
From Verif Require Import Base UnicodeM DaitchMokotoff BmLanguages BmRegex BmRule BmEngine BmDefault
  Spec_bm Spec_bm_file Spec_bm_engine Spec_bm_name.
Local Open Scope N_scope.

(** What the builder is told. *)
Record settings := {
  s_name_type : NameType;
  s_rule_type : RuleType;
  s_concat : bool;
  s_max_phonemes : nat
}.
(** The settings of a builder that is told nothing. *)
Definition default_settings : settings :=
  {| s_name_type := Generic; s_rule_type := RtApprox; s_concat := true; s_max_phonemes := 20 |}.

(** The names of the files (without the extension, for rules). *)
Definition family (n : NameType) : ustr :=
  match n with Ashkenazi => $ "ash" | Generic => $ "gen" | Sephardic => $ "sep" end.
Definition list_file (n : NameType) : ustr := family n ++ $ "_languages.txt".
Definition lang_file (n : NameType) : ustr := family n ++ $ "_lang.txt".
Definition main_file (n : NameType) (l : ustr) : ustr := family n ++ $ "_rules_" ++ l.
Definition final_file (n : NameType) (t : RuleType) (l : ustr) : ustr :=
  family n ++ match t with RtApprox => $ "_approx_" | RtExact => $ "_exact_" end ++ l.

(** The content of a file of the directory. *)
Definition file_content (d : directory) (name content : ustr) : Prop :=
  dir_file d name = ROk content.

(** Where the rules come from: the rule files, the languages that have rules, those
    that can be guessed and the rules that guess them, for each name type. *)
Record sources := {
  src_files : Resolver;
  src_declared : NameType -> ustr -> Prop;
  src_guessable : NameType -> ustr -> Prop;
  src_guessing : NameType -> list LangRule -> Prop
}.

Section All.
Variable u : Unicode.
Variable rx : RegexEngine.

(** A directory: the lists declare the languages. *)
Definition listed (d : directory) (n : NameType) (l : ustr) : Prop :=
  exists text set, file_content d (list_file n) text /\ declares text set /\ In l set.
Definition directory_sources (d : directory) : sources := {|
  src_files := rule_source d;
  src_declared := listed d;
  src_guessable := listed d;
  src_guessing := fun n rules => exists content, file_content d (lang_file n) content
    /\ language_rules rx (dir_path d (lang_file n)) content rules
|}.
(** The rules in the crate: only "any" has rules, no language is guessed. *)
Definition embedded_sources : sources := {|
  src_files := embedded_resolver;
  src_declared := fun _ l => l = $ "any";
  src_guessable := fun _ _ => False;
  src_guessing := fun _ rules => rules = []
|}.

Variable src : sources.

(** The rules of a file (and of those it includes), by first character. *)
Definition rules_in (name : ustr) (m : RuleMap) : Prop :=
  exists t, file_outcome u rx (src_files src) name (Loaded t)
    /\ forall c, assoc c m = match t c with [] => None | l => Some l end.

(** The rules used for a language set: of its only language or of "any", which
    must be declared. *)
Definition rules_for (s : settings) (languages : LanguageSet) (main common final : RuleMap) : Prop :=
  exists l, language_used languages l /\ src_declared src (s_name_type s) l
    /\ rules_in (main_file (s_name_type s) l) main
    /\ rules_in (final_file (s_name_type s) (s_rule_type s) $ "common") common
    /\ rules_in (final_file (s_name_type s) (s_rule_type s) l) final.

(** The languages guessed for a text: those with which every rule that matches
    agrees, all of them if there is none. *)
Definition guessed (n : NameType) (text : ustr) (languages : LanguageSet) : Prop :=
  exists rules, src_guessing src n rules
    /\ ((languages = LAny /\ forall l, src_guessable src n l -> ~ survives u rx rules text l)
        \/ exists set, languages = SomeLanguages set /\ set <> [] /\ increasing set
             /\ forall l, In l set <-> src_guessable src n l /\ survives u rx rules text l).

(** The code of a text. *)
Definition word_code (s : settings) (languages : LanguageSet) (text code : ustr) : Prop :=
  exists main common final b, rules_for s languages main common final
    /\ word_phonemes rx main common final (s_max_phonemes s) languages text b
    /\ code = join $ "|" (map ph_text b).

(** The code of a value, for given languages. *)
Inductive value_code (s : settings) : LanguageSet -> ustr -> ustr -> Prop :=
| vc_prefixed : forall languages v c r lc lr cc rc,
    (exists m f1 f2, rules_for s languages m f1 f2) ->
    prefixed (s_name_type s) (looked_at u v) c r ->
    guessed (s_name_type s) c lc -> value_code s lc c cc ->
    guessed (s_name_type s) r lr -> value_code s lr r rc ->
    value_code s languages v ($ "(" ++ rc ++ $ ")-(" ++ cc ++ $ ")")
| vc_words : forall languages v ws codes,
    (exists m f1 f2, rules_for s languages m f1 f2) ->
    (forall c r, ~ prefixed (s_name_type s) (looked_at u v) c r) ->
    s_concat s = false -> words_of u (looked_at u v) ws -> length ws <> 1%nat ->
    Forall2 (fun w c => exists lw, guessed (s_name_type s) w lw /\ value_code s lw w c) ws codes ->
    value_code s languages v (join $ "-" codes)
| vc_one_word : forall languages v w code,
    (forall c r, ~ prefixed (s_name_type s) (looked_at u v) c r) ->
    s_concat s = false -> words_of u (looked_at u v) [w] ->
    word_code s languages w code ->
    value_code s languages v code
| vc_concat : forall languages v ws ks code,
    (forall c r, ~ prefixed (s_name_type s) (looked_at u v) c r) ->
    s_concat s = true -> words_of u (looked_at u v) ws -> kept (s_name_type s) ws ks ->
    word_code s languages (join $ " " ks) code ->
    value_code s languages v code.
End All.
