(** * Beider-Morse files (specification).

    The three kinds of files, as sequences of lines ([Spec_rules] gives the
    lines), and what reading them gives: which languages are declared, which
    language rules and phonetic rules are loaded, in which order, and which
    error is reported.  No parser is mentioned. *)
From Verif Require Import Base UnicodeM Lib RulesParser BmLanguages BmRegex BmRule BmEngine Spec_common Spec_rules Spec_dm_file Spec_bm.
Local Open Scope N_scope.

(** ** Reading line by line *)
Section Reading.
Context {item : Type}.
Variable line : ustr -> item -> ustr -> Prop.
(** [reading s items rem]: [s] is read as [items] (each with the text that
    follows it), and [rem] cannot be read. *)
Inductive reading : ustr -> list (item * ustr) -> ustr -> Prop :=
| reading_end : reading [] [] []
| reading_stuck : forall s, s <> [] -> (forall i r, ~ line s i r) -> reading s [] s
| reading_item : forall s i r items rem, s <> [] -> line s i r -> reading r items rem ->
    reading s ((i, r) :: items) rem.
End Reading.

(** ** Declared languages (ash_languages.txt ...) *)
Inductive list_item := LiBlank | LiComment (lines : nat) | LiName (l : ustr).
Inductive list_line : ustr -> list_item -> ustr -> Prop :=
| ll_blank : forall s r, line_end s r -> list_line s LiBlank r
| ll_comment : forall s n r, comment_line s n r -> list_line s (LiComment n) r
| ll_name : forall s l r, language_line s l r -> list_line s (LiName l) r.
Definition list_lines (i : list_item) : nat := match i with LiComment n => n | _ => 1%nat end.
Definition declared (items : list (list_item * ustr)) (l : ustr) : Prop := exists r, In (LiName l, r) items.

(** ** Language rules (ash_lang.txt ...) *)
Inductive lang_item := LgBlank | LgComment (lines : nat) | LgRule (pattern languages : ustr) (accept : bool).
Inductive lang_file_line : ustr -> lang_item -> ustr -> Prop :=
| lg_blank : forall s r, line_end s r -> lang_file_line s LgBlank r
| lg_comment : forall s n r, (forall r, ~ line_end s r) -> comment_line s n r -> lang_file_line s (LgComment n) r
| lg_rule : forall s a b v r, (forall r, ~ line_end s r) -> (forall n r, ~ comment_line s n r) ->
    lang_line s (a, b, v) r -> lang_file_line s (LgRule a b v) r.
Definition lang_lines (i : lang_item) : nat := match i with LgComment n => n | _ => 1%nat end.

(** ** Phonetic rules (ash_rules_any.txt ...) *)
Inductive bm_item :=
| BmQuad (pattern left_context right_context phonemes : ustr)
| BmBlank
| BmInclude (name : ustr)
| BmComment (lines : nat).
Inductive bm_file_line (name_char : N -> bool) : ustr -> bm_item -> ustr -> Prop :=
| bl_quad : forall s a b c d r, quad_line s (a, b, c, d) r -> bm_file_line name_char s (BmQuad a b c d) r
| bl_blank : forall s r, line_end s r -> bm_file_line name_char s BmBlank r
| bl_include : forall s n r, include_line name_char s n r -> bm_file_line name_char s (BmInclude n) r
| bl_comment : forall s n r, comment_line s n r -> bm_file_line name_char s (BmComment n) r.

(** ** Phonemes of a rule: "a", "a[german+french]", "(a|b[german])". *)
Inductive separated (sep : N) : ustr -> list ustr -> Prop :=
| separated_one : forall s, ~ In sep s -> separated sep s [s]
| separated_more : forall s t l, ~ In sep s -> separated sep t l -> separated sep (s ++ sep :: t) (s :: l).
Inductive phoneme_reads : ustr -> Phoneme -> Prop :=
| pr_plain : forall p, ~ In (# "[") p -> phoneme_reads p {| ph_text := p; ph_languages := LAny |}
| pr_languages : forall t l ls set, ~ In (# "[") t -> separated (# "+") l ls ->
    increasing set -> (forall x, In x set <-> In x ls) ->
    phoneme_reads (t ++ $ "[" ++ l ++ $ "]") {| ph_text := t; ph_languages := SomeLanguages set |}.
Definition no_phoneme : Phoneme := {| ph_text := []; ph_languages := LAny |}.
Inductive expr_reads : ustr -> PhonemeList -> Prop :=
| er_single : forall s p, (forall r, s <> # "(" :: r) -> phoneme_reads s p -> expr_reads s [p]
| er_several : forall s l ps, separated (# "|") s l -> Forall2 phoneme_reads l ps ->
    (forall r, s <> # "|" :: r) -> (forall r, s <> r ++ $ "|") ->
    expr_reads ($ "(" ++ s ++ $ ")") ps
| er_optional : forall s l ps, separated (# "|") s l -> Forall2 phoneme_reads l ps ->
    ((exists r, s = # "|" :: r) \/ (exists r, s = r ++ $ "|")) ->
    expr_reads ($ "(" ++ s ++ $ ")") (ps ++ [no_phoneme]).

(** Why a text is no phoneme expression, and what is reported. *)
Inductive phoneme_error : ustr -> ustr -> Prop :=
| pe_bracket : forall p, In (# "[") p -> (forall r, p <> r ++ $ "]") ->
    phoneme_error p ($ "Phoneme expression " ++ p ++ $ " has a '[' but doesn't ends with an ']'").
Inductive expr_error : ustr -> ustr -> Prop :=
| ee_single : forall s m, (forall r, s <> # "(" :: r) -> phoneme_error s m -> expr_error s m
| ee_open : forall s r, s = # "(" :: r -> (forall r, s <> r ++ $ ")") -> expr_error s ($ "Wrong phoneme rule " ++ s)
| ee_several : forall s l1 p l2 ps m, separated (# "|") s (l1 ++ p :: l2) -> Forall2 phoneme_reads l1 ps ->
    phoneme_error p m -> expr_error ($ "(" ++ s ++ $ ")") m.

(** ** Loading *)
Section Load.
Variable u : Unicode.
Variable rx : RegexEngine.
Variable rs : Resolver.

(** The rule of a line. *)
Definition rule_of_line (filename : ustr) (line : nat) (a b c d : ustr) (r : BmRule) : Prop :=
  exists ps, bm_location r = filename /\ bm_line r = line
    /\ parse_context rx (b ++ $ "$") = ROk (bm_left r)
    /\ bm_pattern r = a /\ bm_pattern_length_char r = length a
    /\ parse_context rx ($ "^" ++ c) = ROk (bm_right r)
    /\ expr_reads d ps /\ bm_phoneme r = ps.
(** Why a line gives no rule. *)
Inductive line_error (b c d : ustr) : PhoneticError -> Prop :=
| le_left : optimized_from_str (b ++ $ "$") = None -> rx_valid rx (b ++ $ "$") = false ->
    line_error b c d (BMErr (BadContextRegex (rx_error rx (b ++ $ "$"))))
| le_right : forall lc, parse_context rx (b ++ $ "$") = ROk lc ->
    optimized_from_str ($ "^" ++ c) = None -> rx_valid rx ($ "^" ++ c) = false ->
    line_error b c d (BMErr (BadContextRegex (rx_error rx ($ "^" ++ c))))
| le_phoneme : forall lc rc text, parse_context rx (b ++ $ "$") = ROk lc -> parse_context rx ($ "^" ++ c) = ROk rc ->
    expr_error d text -> line_error b c d (BMErr (WrongPhoneme text)).

(** Language rules, in file order; the number is that of the next line. *)
Inductive lang_outcome (filename : option ustr)
  : nat -> list (lang_item * ustr) -> ustr -> result (list LangRule) PhoneticError -> Prop :=
| lo_done : forall n, lang_outcome filename n [] [] (ROk [])
| lo_stuck : forall n rem, rem <> [] -> lang_outcome filename n [] rem
    (RErr (ParseRuleError (build_error n None rem $ "Can't parse line for language detection")))
| lo_blank : forall n r items rem o, lang_outcome filename (n + 1) items rem o ->
    lang_outcome filename n ((LgBlank, r) :: items) rem o
| lo_comment : forall n k r items rem o, lang_outcome filename (n + k) items rem o ->
    lang_outcome filename n ((LgComment k, r) :: items) rem o
| lo_rule : forall n p l v ls set r items rem rules, rx_valid rx p = true ->
    separated (# "+") l ls -> increasing set -> (forall x, In x set <-> In x ls) ->
    lang_outcome filename (n + 1) items rem (ROk rules) ->
    lang_outcome filename n ((LgRule p l v, r) :: items) rem
      (ROk ({| lr_line_number := n; lr_accept_on_match := v; lr_languages := set; lr_pattern := p |} :: rules))
| lo_rule_then_error : forall n p l v r items rem e, rx_valid rx p = true ->
    lang_outcome filename (n + 1) items rem (RErr e) ->
    lang_outcome filename n ((LgRule p l v, r) :: items) rem (RErr e)
| lo_bad_regex : forall n p l v r items rem, rx_valid rx p = false ->
    lang_outcome filename n ((LgRule p l v, r) :: items) rem
      (RErr (ParseRuleError (build_error n filename r (rx_error rx p)))).

(** Tables by first character, in file order. *)
Definition bm_table := N -> list BmRule.
Definition no_rules : bm_table := fun _ => [].
Definition add_rule (r : BmRule) (t : bm_table) : bm_table := fun c =>
  match bm_pattern r with
  | x :: _ => if x =? c then t c ++ [r] else t c
  | [] => t c
  end.
(** An included file replaces the rules of the first characters it has rules for. *)
Definition override (t included : bm_table) : bm_table := fun c =>
  match included c with [] => t c | l => l end.

Inductive outcome := Loaded (t : bm_table) | Failed (e : PhoneticError) | Panicked.
Inductive file_outcome : ustr -> outcome -> Prop :=
| fo_missing : forall name, rs_lookup rs name = None ->
    file_outcome name (Failed (BMErr (WrongFilename (rs_not_found rs name))))
| fo_found : forall name content items rem o, rs_lookup rs name = Some content ->
    reading (bm_file_line (file_name_char (is_alphanumeric u))) content items rem ->
    items_outcome name 1 items rem no_rules o -> file_outcome name o
(** The number is that of the next line. *)
with items_outcome : ustr -> nat -> list (bm_item * ustr) -> ustr -> bm_table -> outcome -> Prop :=
| io_done : forall f n t, items_outcome f n [] [] t (Loaded t)
| io_stuck : forall f n rem t, rem <> [] ->
    items_outcome f n [] rem t (Failed (ParseRuleError (build_error n (Some f) rem $ "Can't parse line")))
| io_blank : forall f n r items rem t o, items_outcome f (n + 1) items rem t o ->
    items_outcome f n ((BmBlank, r) :: items) rem t o
| io_comment : forall f n k r items rem t o, items_outcome f (n + k) items rem t o ->
    items_outcome f n ((BmComment k, r) :: items) rem t o
| io_rule : forall f n a b c d rule r items rem t o, rule_of_line f n a b c d rule -> a <> [] ->
    items_outcome f (n + 1) items rem (add_rule rule t) o ->
    items_outcome f n ((BmQuad a b c d, r) :: items) rem t o
| io_empty_pattern : forall f n b c d rule r items rem t, rule_of_line f n [] b c d rule ->
    items_outcome f n ((BmQuad [] b c d, r) :: items) rem t Panicked
| io_rule_error : forall f n a b c d e r items rem t, line_error b c d e ->
    items_outcome f n ((BmQuad a b c d, r) :: items) rem t (Failed e)
| io_include : forall f n name t' r items rem t o, file_outcome name (Loaded t') ->
    items_outcome f (n + 1) items rem (override t t') o ->
    items_outcome f n ((BmInclude name, r) :: items) rem t o
| io_include_failed : forall f n name e r items rem t, file_outcome name (Failed e) ->
    items_outcome f n ((BmInclude name, r) :: items) rem t (Failed (include_error n f r e))
| io_include_panicked : forall f n name r items rem t, file_outcome name Panicked ->
    items_outcome f n ((BmInclude name, r) :: items) rem t Panicked.
Scheme file_outcome_mind := Induction for file_outcome Sort Prop
  with items_outcome_mind := Induction for items_outcome Sort Prop.
End Load.

(** The languages a list declares, the rules a file of language rules gives. *)
Definition declares (text : ustr) (set : list ustr) : Prop :=
  exists items, reading list_line text items [] /\ increasing set /\ forall l, In l set <-> declared items l.
Definition language_rules (rx : RegexEngine) (filename : option ustr) (text : ustr) (rules : list LangRule) : Prop :=
  exists items rem, reading lang_file_line text items rem /\ lang_outcome rx filename 1 items rem (ROk rules).

(** Rule files are looked for in the directory, with ".txt" added; whatever the reason why one cannot be read,
    the error says that it cannot be found. *)
Definition rule_source (d : directory) : Resolver :=
  {| rs_lookup := fun name => match dir_file d (name ++ $ ".txt") with ROk text => Some text | RErr _ => None end;
     rs_not_found := fun name => $ "Can't find file for " ++ name ++ $ " rules" |}.
