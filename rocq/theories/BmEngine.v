(** * Beider-Morse: language guessing and the phonetic engine
    (src/beider_morse/lang.rs, src/beider_morse/engine.rs, src/beider_morse/mod.rs). *)
From Verif Require Import Base UnicodeM Lib Helper RulesParser DaitchMokotoff
  BmLanguages BmRegex BmRule.
Local Open Scope N_scope.

(** ** Language guessing *)

(** src/beider_morse/lang.rs:12-18 *)
Record LangRule := {
  lr_line_number : nat;
  lr_accept_on_match : bool;
  lr_languages : list ustr;
  lr_pattern : ustr
}.
(** src/beider_morse/lang.rs:36-41 *)
Record Lang := { lang_languages : list ustr; lang_rules : list LangRule }.

Section Engine.
Variable u : Unicode.
Variable rx : RegexEngine.

(** src/beider_morse/lang.rs:48-56: one rule of the loop. *)
Definition apply_lang_rule (input : ustr) (langs : list ustr) (r : LangRule) : list ustr :=
  if rx_match rx (lr_pattern r) input then
    if lr_accept_on_match r then sset_inter langs (lr_languages r)
    else sset_diff langs (lr_languages r)
  else langs.

(** src/beider_morse/lang.rs:44-63, [guess_languages]. *)
Definition guess_languages (l : Lang) (input : ustr) : LanguageSet :=
  let input := str_lower u input in
  let langs := fold_left (apply_lang_rule input) (lang_rules l) (lang_languages l) in
  match ls_of_set langs with
  | NoLanguages => LAny
  | r => r
  end.

(** src/beider_morse/lang.rs:93-151, [parse_lang]. *)
Fixpoint parse_lang (filename : option ustr) (languages : list ustr) (fuel : nat)
         (rules : list LangRule) (line_number : nat) (remains : ustr)
  : res (result Lang PhoneticError) :=
  match remains with
  | [] => Ok (ROk {| lang_languages := languages; lang_rules := rules |})
  | _ =>
      match fuel with
      | O => NoFuel
      | S fuel' =>
          let line_number := S line_number in
          match end_of_line remains with
          | Some (_, rm) => parse_lang filename languages fuel' rules line_number rm
          | None =>
          match multiline_comment remains with
          | Some (ln, rm) => parse_lang filename languages fuel' rules (line_number + (ln - 1)) rm
          | None =>
          match lang remains with
          | Some ((pattern, langs, accept), rm) =>
              if rx_valid rx pattern then
                parse_lang filename languages fuel'
                  (rules ++ [{| lr_line_number := line_number; lr_accept_on_match := accept;
                                lr_languages := sset_of_list (split_on (# "+") langs);
                                lr_pattern := pattern |}]) line_number rm
              else Ok (RErr (ParseRuleError
                              (build_error line_number filename rm (rx_error rx pattern))))
          | None =>
              Ok (RErr (ParseRuleError
                    (build_error line_number None remains $ "Can't parse line for language detection")))
          end end end
      end
  end.

(** src/beider_morse/lang.rs:66-91, [Langs]. *)
Definition Langs := list (NameType * Lang).
(** src/beider_morse/lang.rs:71-81, [Default]: no language, no rule. *)
Definition langs_default : Langs :=
  map (fun n => (n, {| lang_languages := []; lang_rules := [] |})) all_name_types.

(** src/beider_morse/lang.rs:153-167, [build_langs]: the [unwrap] of line 159
    panics when a name type has no declared languages. *)
Fixpoint build_langs_for (d : directory) (languages : Languages) (nts : list NameType) (acc : Langs)
  : res (result Langs PhoneticError) :=
  match nts with
  | [] => Ok (ROk acc)
  | n :: r =>
      ls <- unwrap (nt_assoc n languages) ;;
      let filename := nt_display n ++ $ "_lang.txt" in
      match dir_file d filename with
      | RErr text => Ok (RErr (BMErr (ParseConfiguration text)))
      | ROk content =>
          p <- parse_lang (dir_path d filename) ls (length content) [] 0 content ;;
          match p with
          | RErr e => Ok (RErr e)
          | ROk l => build_langs_for d languages r (nt_insert n l acc)
          end
      end
  end.
Definition build_langs (d : directory) (languages : Languages) : res (result Langs PhoneticError) :=
  build_langs_for d languages all_name_types [].

(** src/beider_morse/mod.rs:160-184, [ConfigFiles]. *)
Record ConfigFiles := { cf_langs : Langs; cf_rules : Rules }.

(** src/beider_morse/mod.rs:177-183, [ConfigFiles::new]. *)
Definition config_new (d : directory) (depth : nat) : res (result ConfigFiles PhoneticError) :=
  l <- languages_try_from d ;;
  match l with
  | RErr e => Ok (RErr e)
  | ROk languages =>
      ls <- build_langs d languages ;;
      match ls with
      | RErr e => Ok (RErr e)
      | ROk langs =>
          rs <- build_rules u rx (dir_resolver d) depth languages ;;
          match rs with
          | RErr e => Ok (RErr e)
          | ROk rules => Ok (ROk {| cf_langs := langs; cf_rules := rules |})
          end
      end
  end.

(** ** Phoneme builder: a set of phonemes (src/beider_morse/engine.rs:34-37). *)
Definition PhonemeBuilder := list Phoneme.

(** src/beider_morse/engine.rs:40-43 *)
Definition pb_empty (languages : LanguageSet) : PhonemeBuilder :=
  [{| ph_text := []; ph_languages := languages |}].

(** [collect::<BTreeSet<_>>()] *)
Definition pset_of_list (l : list Phoneme) : list Phoneme :=
  fold_left (fun s x => pset_insert x s) l [].

(** src/beider_morse/engine.rs:45-52 *)
Definition pb_append (b : PhonemeBuilder) (text : ustr) : PhonemeBuilder :=
  pset_of_list (map (fun v => ph_append v text) b).

(** src/beider_morse/engine.rs:54-60 *)
Definition pb_make_string (b : PhonemeBuilder) : ustr := join $ "|" (map ph_text b).

(** src/beider_morse/engine.rs:62-80, [apply].  The pairs (left, right) are
    visited in order; the boolean tells that ['outer] was left. *)
Fixpoint pb_apply_inner (left_ : Phoneme) (rights : PhonemeList) (max : nat) (acc : list Phoneme)
  : list Phoneme * bool :=
  match rights with
  | [] => (acc, false)
  | right_ :: rs =>
      let languages := restrict_to (ph_languages left_) (ph_languages right_) in
      if negb (ls_is_empty languages) then
        let phoneme := ph_join left_ right_ languages in
        let acc := if Nat.ltb (length acc) max then pset_insert phoneme acc else acc in
        if Nat.leb max (length acc) then (acc, true)
        else pb_apply_inner left_ rs max acc
      else pb_apply_inner left_ rs max acc
  end.
Fixpoint pb_apply_outer (lefts : list Phoneme) (rights : PhonemeList) (max : nat)
         (acc : list Phoneme) : list Phoneme :=
  match lefts with
  | [] => acc
  | l :: ls =>
      let '(acc, stop) := pb_apply_inner l rights max acc in
      if stop then acc else pb_apply_outer ls rights max acc
  end.
Definition pb_apply (b : PhonemeBuilder) (expr : PhonemeList) (max : nat) : PhonemeBuilder :=
  pb_apply_outer b expr max [].

(** ** Rules application (src/beider_morse/engine.rs:83-121) *)

(** src/beider_morse/engine.rs:103-112: the first rule that matches. *)
Fixpoint first_match (rules : list BmRule) (input : CharSequence) (i : nat) : res (option BmRule) :=
  match rules with
  | [] => Ok None
  | r :: rs =>
      b <- pattern_and_context_matches rx r input i ;;
      if b then Ok (Some r) else first_match rs input i
  end.

(** src/beider_morse/engine.rs:98-120, [invoke]: the new builder, the new
    position, and [found]. *)
Definition invoke (rules : RuleMap) (input : CharSequence) (b : PhonemeBuilder) (i max : nat)
  : res (PhonemeBuilder * nat * bool) :=
  t <- cs_range_from input (N.of_nat i) ;;
  key <- unwrap (hd_error t) ;;
  m <- match assoc key rules with
       | Some rs => first_match rs input i
       | None => Ok None
       end ;;
  Ok (match m with
      | Some r => (pb_apply b (bm_phoneme r) max, (i + bm_pattern_length_char r)%nat, true)
      | None => (b, (i + 1)%nat, false)
      end).

(** src/beider_morse/engine.rs:284-299: the main loop. *)
Fixpoint main_loop (fuel : nat) (rules : RuleMap) (input : CharSequence) (b : PhonemeBuilder)
         (i max : nat) : res PhonemeBuilder :=
  if N.of_nat i <? cs_len input then
    match fuel with
    | O => NoFuel
    | S fuel' =>
        '(b', i', _) <- invoke rules input b i max ;;
        main_loop fuel' rules input b' i' max
    end
  else Ok b.

(** src/beider_morse/engine.rs:149-169: the loop over one phoneme text. *)
Fixpoint final_loop (fuel : nat) (rules : RuleMap) (input : CharSequence) (b : PhonemeBuilder)
         (i max : nat) : res PhonemeBuilder :=
  if N.of_nat i <? cs_len input then
    match fuel with
    | O => NoFuel
    | S fuel' =>
        '(b', i', found) <- invoke rules input b i max ;;
        b'' <- (if found then Ok b'
                else txt <- cs_range input (N.of_nat i) (N.of_nat (i + 1)) ;;
                     Ok (pb_append b' txt)) ;;
        final_loop fuel' rules input b'' i' max
    end
  else Ok b.

(** src/beider_morse/engine.rs:171-179: merging the phonemes of one sub-builder
    into the result. *)
Definition merge_phonemes (languages : LanguageSet) (news acc : list Phoneme) : list Phoneme :=
  fold_left (fun acc n =>
    match pset_get n acc with
    | Some old => pset_replace (ph_merge_with_language old languages) acc
    | None => pset_insert n acc
    end) news acc.

(** src/beider_morse/engine.rs:134-183, [apply_final_rule]. *)
Fixpoint apply_final_phonemes (rules : RuleMap) (max : nat) (phonemes acc : list Phoneme)
  : res (list Phoneme) :=
  match phonemes with
  | [] => Ok acc
  | p :: ps =>
      let input := cs_from (ph_text p) in
      sub <- final_loop (length (ph_text p)) rules input (pb_empty (ph_languages p)) 0 max ;;
      apply_final_phonemes rules max ps (merge_phonemes (ph_languages p) sub acc)
  end.
Definition apply_final_rule (rules : RuleMap) (max : nat) (b : PhonemeBuilder) : res PhonemeBuilder :=
  match rules with
  | [] => Ok b
  | _ => apply_final_phonemes rules max b []
  end.

(** ** The engine *)

(** src/beider_morse/engine.rs:12-31: the prefixes, in [BTreeSet] order. *)
Definition name_prefixes (n : NameType) : list ustr :=
  match n with
  | Ashkenazi => [$ "bar"; $ "ben"; $ "da"; $ "de"; $ "van"; $ "von"]
  | Generic =>
      [$ "da"; $ "dal"; $ "de"; $ "de la"; $ "del"; $ "dela"; $ "della"; $ "des"; $ "di"; $ "do";
       $ "dos"; $ "du"; $ "van"; $ "von"]
  | Sephardic =>
      [$ "al"; $ "da"; $ "dal"; $ "de"; $ "de la"; $ "del"; $ "dela"; $ "della"; $ "des"; $ "di";
       $ "do"; $ "dos"; $ "du"; $ "el"; $ "van"; $ "von"]
  end.

(** src/beider_morse/engine.rs:123-131 *)
Record PhoneticEngine := {
  pe_rules : Rules;
  pe_lang : Lang;
  pe_name_type : NameType;
  pe_rule_type : PrivateRuleType;
  pe_concat : bool;
  pe_max_phonemes : nat
}.

(** src/beider_morse/engine.rs:228-246: the first prefix, in order, such that
    the text starts with it and a space; with the remainder. *)
Fixpoint find_prefix (prefixes : list ustr) (input : ustr) : option (ustr * ustr) :=
  match prefixes with
  | [] => None
  | p :: r =>
      match strip_prefix (p ++ $ " ") input with
      | Some remainder => Some (p, remainder)
      | None => find_prefix r input
      end
  end.

(** src/beider_morse/engine.rs:213-227 and 228-246: what is encoded for a
    prefixed generic name: (combined, remainder). *)
Definition generic_prefix (n : NameType) (input : ustr) : option (ustr * ustr) :=
  match n with
  | Generic =>
      match strip_prefix $ "d'" input with
      | Some remainder => Some ($ "d" ++ remainder, remainder)
      | None =>
          match find_prefix (name_prefixes Generic) input with
          | Some (p, remainder) => Some (p ++ remainder, remainder)
          | None => None
          end
      end
  | _ => None
  end.

(** src/beider_morse/engine.rs:260-281: [words2]. *)
Definition words2 (n : NameType) (words : list ustr) : list ustr :=
  filter (fun v => match n with
                   | Generic => true
                   | _ => negb (sset_mem v (name_prefixes n))
                   end)
    (map (fun v => match n with
                   | Sephardic => last (split_on (# "'") v) []
                   | _ => v
                   end) words).

(** [iter().map(encode).collect()] with a possible panic. *)
Fixpoint map_res {A B} (f : A -> res B) (l : list A) : res (list B) :=
  match l with
  | [] => Ok []
  | x :: r => y <- f x ;; ys <- map_res f r ;; Ok (y :: ys)
  end.

(** src/beider_morse/engine.rs:191-200: the language whose rules are used. *)
Definition rules_language (languages : LanguageSet) : ustr :=
  if ls_is_singleton languages
  then match ls_any languages with Some l => l | None => $ "any" end
  else $ "any".

(** src/beider_morse/engine.rs:283-306: the encoding of one (already joined)
    text with the three rule maps. *)
Definition encode_text (e : PhoneticEngine) (rules final1 final2 : RuleMap)
           (languages : LanguageSet) (text : ustr) : res ustr :=
  b <- main_loop (length text) rules (cs_from text) (pb_empty languages) 0 (pe_max_phonemes e) ;;
  b <- apply_final_rule final1 (pe_max_phonemes e) b ;;
  b <- apply_final_rule final2 (pe_max_phonemes e) b ;;
  Ok (pb_make_string b).

(** src/beider_morse/engine.rs:190-307, [encode_with_language_set]; the recursive
    calls go through [encode] (190-193) and therefore guess the languages again. *)
Fixpoint encode_with_language_set (fuel : nat) (e : PhoneticEngine) (input : ustr)
         (languages : LanguageSet) : res ustr :=
  match fuel with
  | O => NoFuel
  | S fuel' =>
      let encode s := encode_with_language_set fuel' e s (guess_languages (pe_lang e) s) in
      let l := rules_language languages in
      rules <- unwrap (rules_get (pe_rules e) (pe_name_type e, Rules_, l)) ;;
      final1 <- unwrap (rules_get (pe_rules e) (pe_name_type e, pe_rule_type e, $ "common")) ;;
      final2 <- unwrap (rules_get (pe_rules e) (pe_name_type e, pe_rule_type e, l)) ;;
      let input := replace $ "-" $ " " (str_lower u input) in
      match generic_prefix (pe_name_type e) input with
      | Some (combined, remainder) =>
          c <- encode combined ;;
          r <- encode remainder ;;
          Ok ($ "(" ++ r ++ $ ")-(" ++ c ++ $ ")")
      | None =>
          let words := split_whitespace u input in
          if negb (pe_concat e) && negb (Nat.eqb (length words) 1) then
            codes <- map_res encode words ;;
            Ok (join $ "-" codes)
          else
            text <- (if pe_concat e then Ok (join $ " " (words2 (pe_name_type e) words))
                     else unwrap (hd_error words)) ;;
            encode_text e rules final1 final2 languages text
      end
  end.

(** The recursion shortens the lowercased text at each level. *)
Definition engine_fuel (input : ustr) : nat := S (length (str_lower u input)).

(** src/beider_morse/mod.rs:260-262, [encode_with_languages]. *)
Definition bm_encode_with_languages (e : PhoneticEngine) (value : ustr) (languages : LanguageSet)
  : res ustr :=
  encode_with_language_set (engine_fuel value) e value languages.
(** src/beider_morse/engine.rs:185-188 and mod.rs:251-255, [encode]. *)
Definition bm_encode (e : PhoneticEngine) : encoder := fun value =>
  bm_encode_with_languages e value (guess_languages (pe_lang e) value).

(** ** The builder: src/beider_morse/mod.rs:275-339. *)
Record BeiderMorseBuilder := {
  bb_config : ConfigFiles;
  bb_name_type : NameType;
  bb_rule_type : RuleType;
  bb_concat : bool;
  bb_max_phonemes : nat
}.
Definition DEFAULT_MAX_PHONEMES : nat := 20.
Definition builder_new (c : ConfigFiles) : BeiderMorseBuilder :=
  {| bb_config := c; bb_name_type := Generic; bb_rule_type := RtApprox; bb_concat := true;
     bb_max_phonemes := DEFAULT_MAX_PHONEMES |}.
(** mod.rs:300-325: the setters. *)
Definition builder_name_type (b : BeiderMorseBuilder) (n : NameType) : BeiderMorseBuilder :=
  {| bb_config := bb_config b; bb_name_type := n; bb_rule_type := bb_rule_type b; bb_concat := bb_concat b;
     bb_max_phonemes := bb_max_phonemes b |}.
Definition builder_rule_type (b : BeiderMorseBuilder) (t : RuleType) : BeiderMorseBuilder :=
  {| bb_config := bb_config b; bb_name_type := bb_name_type b; bb_rule_type := t; bb_concat := bb_concat b;
     bb_max_phonemes := bb_max_phonemes b |}.
Definition builder_concat (b : BeiderMorseBuilder) (x : bool) : BeiderMorseBuilder :=
  {| bb_config := bb_config b; bb_name_type := bb_name_type b; bb_rule_type := bb_rule_type b; bb_concat := x;
     bb_max_phonemes := bb_max_phonemes b |}.
Definition builder_max_phonemes (b : BeiderMorseBuilder) (k : nat) : BeiderMorseBuilder :=
  {| bb_config := bb_config b; bb_name_type := bb_name_type b; bb_rule_type := bb_rule_type b; bb_concat := bb_concat b;
     bb_max_phonemes := k |}.
(** mod.rs:326-340, [build]. *)
Definition builder_build (b : BeiderMorseBuilder) : res PhoneticEngine :=
  lang <- unwrap (nt_assoc (bb_name_type b) (cf_langs (bb_config b))) ;;
  Ok {| pe_rules := cf_rules (bb_config b); pe_lang := lang; pe_name_type := bb_name_type b;
        pe_rule_type := rt_private (bb_rule_type b); pe_concat := bb_concat b;
        pe_max_phonemes := bb_max_phonemes b |}.

End Engine.
