(** * What goes wrong when a configuration is read (specification).

    Positions are those a user sees: lines are counted from 1, and the text
    quoted is a whole line. *)
From Coq Require Import Relations.
From Verif Require Import Base UnicodeM Lib RulesParser BmLanguages BmRegex BmRule BmEngine Spec_common Spec_rules Spec_dm_file
  Spec_bm Spec_bm_file.
Local Open Scope N_scope.

(** [rest], the end of [text], starts on line [n]: [n - 1] line feeds precede it. *)
Definition at_line (text rest : ustr) (n : nat) : Prop :=
  exists before, text = before ++ rest /\ n = (1 + count_occ N.eq_dec before LF)%nat.

(** The error [p] says: in the file [filename], on the line where [rest] starts, ... *)
Record error_at (text rest quoted : ustr) (filename : option ustr) (description : ustr) (p : ParseError) : Prop := {
  ea_line : at_line text rest (pe_line_number p);
  ea_content : first_line quoted (pe_line_content p);
  ea_filename : pe_filename p = filename;
  ea_description : pe_description p = description
}.

(** Values without line feeds. *)
Definition one_line_lang (i : lang_item) : Prop :=
  match i with LgRule p l _ => ~ In LF p /\ ~ In LF l | _ => True end.
Definition one_line_rule (i : bm_item) : Prop :=
  match i with BmQuad a b c d => ~ In LF a /\ ~ In LF b /\ ~ In LF c /\ ~ In LF d | _ => True end.

(** [items] are read off [text], and [rest] follows. *)
Section After.
Context {item : Type}.
Variable line : ustr -> item -> ustr -> Prop.
Inductive after : ustr -> list item -> ustr -> Prop :=
| after_nothing : forall s, after s [] s
| after_item : forall s i r items rest, s <> [] -> line s i r -> after r items rest -> after s (i :: items) rest.
(** ... which is not the end, and no line. *)
Definition stuck_after (text : ustr) (items : list item) (rest : ustr) : Prop :=
  after text items rest /\ rest <> [] /\ forall i r, ~ line rest i r.
End After.

Section Errors.
Variable u : Unicode.
Variable rx : RegexEngine.
Variable rs : Resolver.

(** The error of a list of languages. *)
Definition list_error (text : ustr) (p : ParseError) : Prop :=
  exists items rest, stuck_after list_line text items rest
    /\ error_at text rest rest None $ "Can't parse line for languages" p.

(** The error of a file of language rules. *)
Definition valid_patterns (items : list lang_item) : Prop :=
  forall a l v, In (LgRule a l v) items -> rx_valid rx a = true.
Inductive lang_error (filename : option ustr) (text : ustr) : ParseError -> Prop :=
(** A line that cannot be read: no file name is given. *)
| lerr_unreadable : forall items rest p,
    stuck_after lang_file_line text items rest -> valid_patterns items ->
    error_at text rest rest None $ "Can't parse line for language detection" p ->
    lang_error filename text p
(** A line whose pattern is no regular expression: the number is that of the
    line, the content is that of the line after it. *)
| lerr_pattern : forall items s pattern l v r p,
    after lang_file_line text items s -> valid_patterns items ->
    lang_file_line s (LgRule pattern l v) r -> rx_valid rx pattern = false ->
    error_at text s r filename (rx_error rx pattern) p ->
    lang_error filename text p.

(** The error of a file of phonetic rules, when it says where ... *)
Notation rule_line := (bm_file_line (file_name_char (is_alphanumeric u))).
Inductive unplaced_error : ustr -> BMError -> Prop :=
| uerr_missing : forall name, rs_lookup rs name = None -> unplaced_error name (WrongFilename (rs_not_found rs name))
| uerr_line : forall name text items s a b c d r m, rs_lookup rs name = Some text ->
    after rule_line text items s -> rule_line s (BmQuad a b c d) r -> line_error rx b c d (BMErr m) ->
    unplaced_error name m.
Inductive placed_error : ustr -> ParseError -> Prop :=
(** a line that cannot be read; *)
| perr_unreadable : forall name text items rest p, rs_lookup rs name = Some text ->
    stuck_after rule_line text items rest ->
    error_at text rest rest (Some name) $ "Can't parse line" p -> placed_error name p
(** an included file whose error does not say where: the number is that of the
    include, the content is that of the line after it; *)
| perr_include : forall name text items s included r m p, rs_lookup rs name = Some text ->
    after rule_line text items s -> rule_line s (BmInclude included) r ->
    unplaced_error included m ->
    error_at text s r (Some name) (bm_error_text m) p -> placed_error name p
(** an included file whose error says where. *)
| perr_nested : forall name text items s included r p, rs_lookup rs name = Some text ->
    after rule_line text items s -> rule_line s (BmInclude included) r ->
    placed_error included p -> placed_error name p.

(** In no file does a quoted part extend over several lines. *)
Definition rules_on_one_line : Prop :=
  forall name text items rest i, rs_lookup rs name = Some text -> after rule_line text items rest -> In i items -> one_line_rule i.
End Errors.

(** ** The first problem of a directory *)
Definition prefix_of (n : NameType) : ustr :=
  match n with Ashkenazi => $ "ash" | Generic => $ "gen" | Sephardic => $ "sep" end.
Definition kind_of (t : PrivateRuleType) : ustr :=
  match t with Approx => $ "approx" | Exact => $ "exact" | Rules_ => $ "rules" end.
Definition list_file (n : NameType) : ustr := prefix_of n ++ $ "_languages.txt".
Definition lang_file (n : NameType) : ustr := prefix_of n ++ $ "_lang.txt".
Definition rule_file (n : NameType) (t : PrivateRuleType) (l : ustr) : ustr := prefix_of n ++ $ "_" ++ kind_of t ++ $ "_" ++ l.
(** The rule files of a name type, in the order they are read. *)
Definition rule_files (n : NameType) (languages : list ustr) : list ustr :=
  map (rule_file n Approx) languages ++ [rule_file n Approx $ "common"]
  ++ map (rule_file n Exact) languages ++ [rule_file n Exact $ "common"]
  ++ map (rule_file n Rules_) languages.

Inductive verdict := Fine | Wrong (e : PhoneticError) | Crash.
Section Config.
Variable u : Unicode.
Variable rx : RegexEngine.
Variable d : directory.
(** The error of the operating system, with its text. *)
Definition os_error (text : ustr) : verdict := Wrong (BMErr (ParseConfiguration text)).
(** An entry of the directory: it matters if it cannot be listed or if it is a list of languages. *)
Inductive entry_verdict : result ustr ustr -> verdict -> Prop :=
| ev_failure : forall text, entry_verdict (RErr text) (os_error text)
| ev_unreadable : forall n text, dir_file d (list_file n) = RErr text -> entry_verdict (ROk (list_file n)) (os_error text)
| ev_wrong : forall n text p, dir_file d (list_file n) = ROk text -> list_error text p ->
    entry_verdict (ROk (list_file n)) (Wrong (ParseRuleError p))
| ev_fine : forall n text set, dir_file d (list_file n) = ROk text -> declares text set -> entry_verdict (ROk (list_file n)) Fine
| ev_other : forall name, (forall n, name <> list_file n) -> entry_verdict (ROk name) Fine.
Definition listed_file (name : ustr) : Prop := exists entries, dir_listing d = ROk entries /\ In (ROk name) entries.
(** The language rules of a name type: without a list of languages, a panic. *)
Inductive lang_verdict (n : NameType) : verdict -> Prop :=
| gv_no_list : ~ listed_file (list_file n) -> lang_verdict n Crash
| gv_missing : forall text, listed_file (list_file n) -> dir_file d (lang_file n) = RErr text -> lang_verdict n (os_error text)
| gv_outcome : forall text items rem e, listed_file (list_file n) -> dir_file d (lang_file n) = ROk text ->
    reading lang_file_line text items rem -> lang_outcome rx (dir_path d (lang_file n)) 1 items rem (RErr e) ->
    lang_verdict n (Wrong e)
| gv_fine : forall text rules, listed_file (list_file n) -> dir_file d (lang_file n) = ROk text ->
    language_rules rx (dir_path d (lang_file n)) text rules -> lang_verdict n Fine.
Inductive rule_verdict (f : ustr) : verdict -> Prop :=
| rv_fine : forall t, file_outcome u rx (rule_source d) f (Loaded t) -> rule_verdict f Fine
| rv_wrong : forall e, file_outcome u rx (rule_source d) f (Failed e) -> rule_verdict f (Wrong e)
| rv_crash : file_outcome u rx (rule_source d) f Panicked -> rule_verdict f Crash.

Inductive config_problem : verdict -> Prop :=
(** The directory cannot be listed; *)
| cp_directory : forall text, dir_listing d = RErr text -> config_problem (os_error text)
(** else the first entry that is not fine, in the order of the listing; *)
| cp_entry : forall pre e post v, dir_listing d = ROk (pre ++ e :: post) -> (forall x, In x pre -> entry_verdict x Fine) ->
    entry_verdict e v -> v <> Fine -> config_problem v
(** else the first file of language rules that is not: ash, gen, sep; *)
| cp_lang : forall entries pre n post v, dir_listing d = ROk entries -> (forall x, In x entries -> entry_verdict x Fine) -> [Ashkenazi; Generic; Sephardic] = pre ++ n :: post ->
    (forall m, In m pre -> lang_verdict m Fine) -> lang_verdict n v -> v <> Fine -> config_problem v
(** else the first file of phonetic rules that is not. *)
| cp_rule : forall entries languages pre f post v,
    dir_listing d = ROk entries -> (forall x, In x entries -> entry_verdict x Fine) ->
    (forall n, exists text, dir_file d (list_file n) = ROk text /\ declares text (languages n)) ->
    (forall n, lang_verdict n Fine) ->
    rule_files Ashkenazi (languages Ashkenazi) ++ rule_files Generic (languages Generic)
      ++ rule_files Sephardic (languages Sephardic) = pre ++ f :: post ->
    (forall g, In g pre -> rule_verdict g Fine) -> rule_verdict f v -> v <> Fine -> config_problem v.
End Config.
