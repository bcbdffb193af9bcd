(** * Beider-Morse: phonemes, rules and rule files (src/beider_morse/rule.rs). *)
From Verif Require Import Base UnicodeM Lib Helper RulesParser DaitchMokotoff BmLanguages BmRegex.
Local Open Scope N_scope.

(** src/beider_morse/rule.rs:80-83 *)
Record Phoneme := { ph_text : ustr; ph_languages : LanguageSet }.

(** src/beider_morse/rule.rs:91-105, [Ord::cmp]: first differing character of
    the zipped texts, then the byte lengths. *)
Fixpoint zip_cmp (a b : ustr) : comparison :=
  match a, b with
  | x :: a', y :: b' => if x =? y then zip_cmp a' b' else N.compare x y
  | _, _ => Eq
  end.
Definition ph_cmp (a b : Phoneme) : comparison :=
  match zip_cmp (ph_text a) (ph_text b) with
  | Eq => Nat.compare (blen (ph_text a)) (blen (ph_text b))
  | c => c
  end.

(** src/beider_morse/rule.rs:121-135, [join] and [append]. *)
Definition ph_join (a b : Phoneme) (languages : LanguageSet) : Phoneme :=
  {| ph_text := ph_text a ++ ph_text b; ph_languages := languages |}.
Definition ph_append (a : Phoneme) (s : ustr) : Phoneme :=
  {| ph_text := ph_text a ++ s; ph_languages := ph_languages a |}.
(** src/beider_morse/rule.rs:141-146 *)
Definition ph_merge_with_language (a : Phoneme) (l : LanguageSet) : Phoneme :=
  {| ph_text := ph_text a; ph_languages := ls_merge (ph_languages a) l |}.

(** [BTreeSet<Phoneme>]: lists in increasing order.  [insert] keeps an equal
    element already present; [replace] overwrites it; [get] finds it. *)
Fixpoint pset_insert (x : Phoneme) (l : list Phoneme) : list Phoneme :=
  match l with
  | [] => [x]
  | y :: r => match ph_cmp x y with
              | Lt => x :: l
              | Eq => l
              | Gt => y :: pset_insert x r
              end
  end.
Fixpoint pset_replace (x : Phoneme) (l : list Phoneme) : list Phoneme :=
  match l with
  | [] => [x]
  | y :: r => match ph_cmp x y with
              | Lt => x :: l
              | Eq => x :: r
              | Gt => y :: pset_replace x r
              end
  end.
Fixpoint pset_get (x : Phoneme) (l : list Phoneme) : option Phoneme :=
  match l with
  | [] => None
  | y :: r => match ph_cmp x y with Eq => Some y | _ => pset_get x r end
  end.

(** src/beider_morse/rule.rs:154-162: a [PhonemeList] is a list of phonemes. *)
Definition PhonemeList := list Phoneme.

(** The text before the first '[' and the text after it. *)
Fixpoint split_bracket (s : ustr) : option (ustr * ustr) :=
  match s with
  | [] => None
  | c :: r => if c =? # "[" then Some ([], r)
              else match split_bracket r with Some (a, b) => Some (c :: a, b) | None => None end
  end.

(** src/beider_morse/rule.rs:164-185, [parse_phoneme].  When the text ends with
    ']', that bracket lies after the '[', so the slice [index+1 .. len-1] is the
    text after '[' without its last character. *)
Definition parse_phoneme (p : ustr) : result Phoneme BMError :=
  match split_bracket p with
  | Some (before, after) =>
      if negb (ends_with_char p (# "]")) then
        RErr (WrongPhoneme ($ "Phoneme expression " ++ p ++ $ " has a '[' but doesn't ends with an ']'"))
      else ROk {| ph_text := before; ph_languages := ls_of_vec (split_on (# "+") (drop_last after)) |}
  | None => ROk {| ph_text := p; ph_languages := LAny |}
  end.

Fixpoint parse_phonemes (l : list ustr) : result (list Phoneme) BMError :=
  match l with
  | [] => ROk []
  | p :: r => match parse_phoneme p with
              | RErr e => RErr e
              | ROk x => match parse_phonemes r with RErr e => RErr e | ROk xs => ROk (x :: xs) end
              end
  end.

(** src/beider_morse/rule.rs:187-212, [parse_phoneme_expr]. *)
Definition parse_phoneme_expr (s : ustr) : result PhonemeList BMError :=
  if starts_with_char s (# "(") then
    if negb (ends_with_char s (# ")")) then RErr (WrongPhoneme ($ "Wrong phoneme rule " ++ s))
    else
      let s := drop_last (tl s) in
      match parse_phonemes (split_on (# "|") s) with
      | RErr e => RErr e
      | ROk phs =>
          ROk (if starts_with_char s (# "|") || ends_with_char s (# "|")
               then phs ++ [{| ph_text := []; ph_languages := LAny |}] else phs)
      end
  else match parse_phoneme s with RErr e => RErr e | ROk p => ROk [p] end.

(** src/beider_morse/rule.rs:358-366, [Rule]. *)
Record BmRule := {
  bm_location : ustr;
  bm_line : nat;
  bm_left : Context;
  bm_pattern : ustr;
  bm_pattern_length_char : nat;
  bm_right : Context;
  bm_phoneme : PhonemeList
}.

(** [BTreeMap<char, Vec<Rule>>] *)
Definition RuleMap := list (N * list BmRule).
Fixpoint rm_push (k : N) (x : BmRule) (l : RuleMap) : RuleMap :=
  match l with
  | [] => [(k, [x])]
  | (k', v) :: r => if k' =? k then (k', v ++ [x]) :: r else (k', v) :: rm_push k x r
  end.
(** [BTreeMap::extend]: each entry of the other map replaces the entry of the
    same key. *)
Definition rm_extend (l other : RuleMap) : RuleMap :=
  fold_left (fun m kv => assoc_insert (fst kv) (snd kv) m) other l.

Section WithRegex.
Variable u : Unicode.
Variable rx : RegexEngine.

(** src/beider_morse/rule.rs:233-244: optimised matcher first, then [Regex::new]. *)
Definition parse_context (s : ustr) : result Context PhoneticError :=
  match optimized_from_str s with
  | Some o => ROk (COptimized o)
  | None => if rx_valid rx s then ROk (CRegex s) else RErr (BMErr (BadContextRegex (rx_error rx s)))
  end.

(** src/beider_morse/rule.rs:228-258: one quadruplet line. *)
Definition make_rule (filename : ustr) (line_number : nat) (q : ustr * ustr * ustr * ustr)
  : res (result (N * BmRule) PhoneticError) :=
  let '(pattern, left_context, right_context, phoneme_expr) := q in
  match parse_context (left_context ++ $ "$") with
  | RErr e => Ok (RErr e)
  | ROk lc =>
      match parse_context ($ "^" ++ right_context) with
      | RErr e => Ok (RErr e)
      | ROk rc =>
          match parse_phoneme_expr phoneme_expr with
          | RErr e => Ok (RErr (BMErr e))
          | ROk phoneme =>
              ch <- unwrap (hd_error pattern) ;;
              Ok (ROk (ch, {| bm_location := filename; bm_line := line_number; bm_left := lc;
                              bm_pattern := pattern; bm_pattern_length_char := length pattern;
                              bm_right := rc; bm_phoneme := phoneme |}))
          end
      end
  end.

(** [Resolver] (src/beider_morse/rule.rs:329-355): a lookup of the file content;
    [not_found] builds the message of the error. *)
Record Resolver := { rs_lookup : ustr -> option ustr; rs_not_found : ustr -> ustr }.
Definition resolve (r : Resolver) (filename : ustr) : result ustr BMError :=
  match rs_lookup r filename with
  | Some c => ROk c
  | None => RErr (WrongFilename (rs_not_found r filename))
  end.

(** src/beider_morse/rule.rs:269-280: the error of an included file, rewritten
    when it is a [BMError]. *)
Definition include_error (line_number : nat) (filename remains : ustr) (e : PhoneticError)
  : PhoneticError :=
  match e with
  | BMErr b => ParseRuleError (build_error line_number (Some filename) remains (bm_error_text b))
  | other => other
  end.

(** src/beider_morse/rule.rs:223-302: the loop of [parse_rule] over the text of
    one file; [inc] parses an included file. *)
Fixpoint parse_rule_text (inc : ustr -> res (result RuleMap PhoneticError)) (filename : ustr)
         (fuel : nat) (result_ : RuleMap) (line_number : nat) (remains : ustr)
  : res (result RuleMap PhoneticError) :=
  match remains with
  | [] => Ok (ROk result_)
  | _ =>
      match fuel with
      | O => NoFuel
      | S fuel' =>
          let line_number := S line_number in
          match quadruplet remains with
          | Some (q, rm) =>
              r <- make_rule filename line_number q ;;
              match r with
              | RErr e => Ok (RErr e)
              | ROk (ch, rule) =>
                  parse_rule_text inc filename fuel' (rm_push ch rule result_) line_number rm
              end
          | None =>
          match end_of_line remains with
          | Some (_, rm) => parse_rule_text inc filename fuel' result_ line_number rm
          | None =>
          match include u remains with
          | Some (name, rm) =>
              r <- inc name ;;
              match r with
              | RErr e => Ok (RErr (include_error line_number filename rm e))
              | ROk rules =>
                  parse_rule_text inc filename fuel' (rm_extend result_ rules) line_number rm
              end
          | None =>
          match multiline_comment remains with
          | Some (ln, rm) =>
              parse_rule_text inc filename fuel' result_ (line_number + (ln - 1)) rm
          | None =>
              Ok (RErr (ParseRuleError
                    (build_error line_number (Some filename) remains $ "Can't parse line")))
          end end end end
      end
  end.

(** src/beider_morse/rule.rs:214-302, [parse_rule].  [depth] bounds the nesting
    of includes (the code has no such bound: a cyclic include overflows the
    stack); [NoFuel] when it is exhausted. *)
Fixpoint parse_rule (rs : Resolver) (depth : nat) (filename : ustr)
  : res (result RuleMap PhoneticError) :=
  match depth with
  | O => NoFuel
  | S depth' =>
      match resolve rs filename with
      | RErr e => Ok (RErr (BMErr e))
      | ROk content =>
          parse_rule_text (parse_rule rs depth') filename (length content) [] 0 content
      end
  end.

(** src/beider_morse/rule.rs:410-412, [Rules]: keyed by name type, rule type and
    language. *)
Definition RuleKey := (NameType * PrivateRuleType * ustr)%type.
Definition rk_eqb (a b : RuleKey) : bool :=
  let '(n1, t1, l1) := a in let '(n2, t2, l2) := b in
  nt_eqb n1 n2 && rt_eqb t1 t2 && seq_eqb l1 l2.
Definition Rules := list (RuleKey * RuleMap).
Fixpoint rules_get (rules : Rules) (k : RuleKey) : option RuleMap :=
  match rules with
  | [] => None
  | (k', v) :: r => if rk_eqb k' k then Some v else rules_get r k
  end.
(** [BTreeMap::insert] for lookups: the latest entry shadows. *)
Definition rules_insert (k : RuleKey) (v : RuleMap) (rules : Rules) : Rules := (k, v) :: rules.

(** src/beider_morse/rule.rs:314, 319: [format!("{name_type}_{rule_type}_{language}")]. *)
Definition rule_filename (n : NameType) (t : PrivateRuleType) (l : ustr) : ustr :=
  nt_display n ++ $ "_" ++ rt_display t ++ $ "_" ++ l.

(** src/beider_morse/rule.rs:308-324: the files read, in order. *)
Definition files_for (n : NameType) (l : list ustr) : list RuleKey :=
  flat_map (fun t =>
    map (fun language => (n, t, language)) l
    ++ (if rt_eqb t Rules_ then [] else [(n, t, $ "common")])) all_rule_types.
Fixpoint load_files (rs : Resolver) (depth : nat) (keys : list RuleKey) (acc : Rules)
  : res (result Rules PhoneticError) :=
  match keys with
  | [] => Ok (ROk acc)
  | (n, t, l) :: r =>
      p <- parse_rule rs depth (rule_filename n t l) ;;
      match p with
      | RErr e => Ok (RErr e)
      | ROk m => load_files rs depth r (rules_insert (n, t, l) m acc)
      end
  end.

(** src/beider_morse/rule.rs:304-327, [build_rules]. *)
Fixpoint build_rules_for (rs : Resolver) (depth : nat) (languages : Languages)
         (nts : list NameType) (acc : Rules) : res (result Rules PhoneticError) :=
  match nts with
  | [] => Ok (ROk acc)
  | n :: r =>
      match nt_assoc n languages with
      | None => Ok (RErr (BMErr (UnknownNameType (language_filename n))))
      | Some l =>
          p <- load_files rs depth (files_for n l) acc ;;
          match p with
          | RErr e => Ok (RErr e)
          | ROk acc => build_rules_for rs depth languages r acc
          end
      end
  end.
Definition build_rules (rs : Resolver) (depth : nat) (languages : Languages)
  : res (result Rules PhoneticError) :=
  build_rules_for rs depth languages all_name_types [].

(** src/beider_morse/rule.rs:336-341: files of a directory. *)
Definition dir_resolver (d : directory) : Resolver :=
  {| rs_lookup := fun name => dir_read d (name ++ $ ".txt");
     rs_not_found := fun name => $ "Can't find file for " ++ name ++ $ " rules" |}.

(** src/beider_morse/rule.rs:369-383, [pattern_and_context_matches]. *)
Definition pattern_and_context_matches (r : BmRule) (input : CharSequence) (index : nat) : res bool :=
  let ipl := (index + bm_pattern_length_char r)%nat in
  if (cs_len input <? N.of_nat ipl) then Ok false
  else
    p <- cs_range input (N.of_nat index) (N.of_nat ipl) ;;
    if negb (seq_eqb p (bm_pattern r)) then Ok false
    else
      rest <- cs_range_from input (N.of_nat ipl) ;;
      if negb (context_is_match rx (bm_right r) rest) then Ok false
      else
        before <- cs_range_to input (N.of_nat index) ;;
        Ok (context_is_match rx (bm_left r) before).

End WithRegex.
