(** * Beider-Morse: the default configuration (feature embedded_bm). *)
From Verif Require Import Base UnicodeM Lib RulesParser BmLanguages BmRegex BmRule BmEngine BmEmbedded.
Local Open Scope N_scope.

(** src/beider_morse/rule.rs:342-348 and 466-485: the embedded files by name. *)
Definition embedded_resolver : Resolver :=
  {| rs_lookup := fun name => find_file bm_embedded_files (name ++ $ ".txt");
     rs_not_found := fun name => $ "Missing embedded rule " ++ name |}.

(** src/beider_morse/rule.rs:488-493, [Rules::default]: the [unwrap] panics on an
    error. *)
Definition rules_default (u : Unicode) (rx : RegexEngine) (depth : nat) : res Rules :=
  r <- build_rules u rx embedded_resolver depth languages_default ;;
  match r with ROk rules => Ok rules | RErr _ => Panic end.

(** src/beider_morse/mod.rs:160-165, the derived [ConfigFiles::default]. *)
Definition config_default (u : Unicode) (rx : RegexEngine) (depth : nat) : res ConfigFiles :=
  rules <- rules_default u rx depth ;;
  Ok {| cf_langs := langs_default; cf_rules := rules |}.
