(** * Beider-Morse: names, languages, language sets
    (src/beider_morse/mod.rs, src/beider_morse/languages.rs). *)
From Verif Require Import Base UnicodeM Lib RulesParser.
Local Open Scope N_scope.

(** ** Errors *)

(** src/beider_morse/mod.rs:34-65, [BMError].  [BadContextRegex] carries the
    text of the regular-expression error. *)
Inductive BMError :=
| UnknownNameType (s : ustr)
| UnknownRuleType (s : ustr)
| ParseConfiguration (s : ustr)
| WrongFilename (s : ustr)
| WrongPhoneme (s : ustr)
| BadContextRegex (s : ustr)
| NotABoolean (s : ustr)
| BadRule (s : ustr).

(** The Display texts of mod.rs:34-65. *)
Definition bm_error_text (e : BMError) : ustr :=
  match e with
  | UnknownNameType s => $ "Unknown NameType " ++ s
  | UnknownRuleType s => $ "Unknown RuleType " ++ s
  | ParseConfiguration s => $ "Error reading files " ++ s
  | WrongFilename s => $ "Wrong file name : " ++ s
  | WrongPhoneme s => $ "Wrong phoneme : " ++ s
  | BadContextRegex s => s
  | NotABoolean s => s ++ $ " is not a boolean"
  | BadRule s => $ "Ill formated rule : " ++ s
  end.

(** src/lib.rs:102-110, [PhoneticError]. *)
Inductive PhoneticError :=
| ParseRuleError (e : ParseError)
| BMErr (e : BMError).

(** Rust [Result]. *)
Inductive result (A E : Type) := ROk (a : A) | RErr (e : E).
Arguments ROk {A E} a.
Arguments RErr {A E} e.

(** ** Name types *)

(** src/beider_morse/mod.rs:89-102 *)
Inductive NameType := Ashkenazi | Generic | Sephardic.
(** [enum_iterator::all::<NameType>()]: declaration order. *)
Definition all_name_types : list NameType := [Ashkenazi; Generic; Sephardic].
Definition nt_eqb (a b : NameType) : bool :=
  match a, b with
  | Ashkenazi, Ashkenazi | Generic, Generic | Sephardic, Sephardic => true
  | _, _ => false
  end.

(** src/beider_morse/mod.rs:110-119, [Display]. *)
Definition nt_display (n : NameType) : ustr :=
  match n with Ashkenazi => $ "ash" | Generic => $ "gen" | Sephardic => $ "sep" end.
(** src/beider_morse/mod.rs:105-107. *)
Definition language_filename (n : NameType) : ustr := nt_display n ++ $ "_languages.txt".
(** src/beider_morse/mod.rs:121-132, [FromStr]. *)
Definition nt_from_str (s : ustr) : result NameType BMError :=
  if seq_eqb s $ "ash" then ROk Ashkenazi
  else if seq_eqb s $ "gen" then ROk Generic
  else if seq_eqb s $ "sep" then ROk Sephardic
  else RErr (UnknownNameType s).
(** src/beider_morse/mod.rs:134-150, [TryFrom<OsString>]. *)
Definition nt_try_from_filename (s : ustr) : result NameType BMError :=
  if seq_eqb s (language_filename Ashkenazi) then ROk Ashkenazi
  else if seq_eqb s (language_filename Generic) then ROk Generic
  else if seq_eqb s (language_filename Sephardic) then ROk Sephardic
  else RErr (UnknownNameType s).

(** ** Rule types *)

(** src/beider_morse/rule.rs:27-33 and 37-44. *)
Inductive RuleType := RtApprox | RtExact.
Inductive PrivateRuleType := Approx | Exact | Rules_.
Definition all_rule_types : list PrivateRuleType := [Approx; Exact; Rules_].
Definition rt_eqb (a b : PrivateRuleType) : bool :=
  match a, b with
  | Approx, Approx | Exact, Exact | Rules_, Rules_ => true
  | _, _ => false
  end.
(** src/beider_morse/rule.rs:46-53 *)
Definition rt_private (r : RuleType) : PrivateRuleType :=
  match r with RtApprox => Approx | RtExact => Exact end.
(** src/beider_morse/rule.rs:55-64 *)
Definition rt_display (r : PrivateRuleType) : ustr :=
  match r with Approx => $ "approx" | Exact => $ "exact" | Rules_ => $ "rules" end.
(** src/beider_morse/rule.rs:66-77 *)
Definition rt_from_str (s : ustr) : result PrivateRuleType BMError :=
  if seq_eqb s $ "approx" then ROk Approx
  else if seq_eqb s $ "exact" then ROk Exact
  else if seq_eqb s $ "rules" then ROk Rules_
  else RErr (UnknownRuleType s).

(** ** [BTreeSet<String>]: strictly increasing lists.  [String]'s order is the
    order of the UTF-8 bytes, which is the lexicographic order of code points. *)
Fixpoint str_cmp (a b : ustr) : comparison :=
  match a, b with
  | [], [] => Eq
  | [], _ :: _ => Lt
  | _ :: _, [] => Gt
  | x :: a', y :: b' => match N.compare x y with Eq => str_cmp a' b' | c => c end
  end.
Fixpoint sset_insert (x : ustr) (l : list ustr) : list ustr :=
  match l with
  | [] => [x]
  | y :: r => match str_cmp x y with
              | Lt => x :: l
              | Eq => l
              | Gt => y :: sset_insert x r
              end
  end.
Definition sset_of_list (l : list ustr) : list ustr := fold_left (fun s x => sset_insert x s) l [].
Definition sset_mem (x : ustr) (l : list ustr) : bool := existsb (seq_eqb x) l.
Definition sset_inter (a b : list ustr) : list ustr := filter (fun x => sset_mem x b) a.
Definition sset_diff (a b : list ustr) : list ustr := filter (fun x => negb (sset_mem x b)) a.
Definition sset_union (a b : list ustr) : list ustr := fold_left (fun s x => sset_insert x s) b a.

(** ** Language sets *)

(** src/beider_morse/languages.rs:13-20 *)
Inductive LanguageSet := LAny | NoLanguages | SomeLanguages (l : list ustr).

(** src/beider_morse/languages.rs:24-30 *)
Definition ls_is_empty (s : LanguageSet) : bool :=
  match s with LAny => false | NoLanguages => true | SomeLanguages l => match l with [] => true | _ => false end end.
(** src/beider_morse/languages.rs:33-39 *)
Definition ls_is_singleton (s : LanguageSet) : bool :=
  match s with LAny => false | NoLanguages => false | SomeLanguages l => Nat.eqb (length l) 1 end.
(** src/beider_morse/languages.rs:42-56 *)
Definition restrict_to (a b : LanguageSet) : LanguageSet :=
  match a, b with
  | _, LAny => a
  | _, NoLanguages => b
  | SomeLanguages l1, SomeLanguages l2 => SomeLanguages (sset_inter l1 l2)
  | LAny, _ => b
  | NoLanguages, _ => a
  end.
(** src/beider_morse/languages.rs:59-73 *)
Definition ls_merge (a b : LanguageSet) : LanguageSet :=
  match a, b with
  | _, LAny => b
  | _, NoLanguages => a
  | SomeLanguages l1, SomeLanguages l2 => SomeLanguages (sset_union l1 l2)
  | LAny, _ => a
  | NoLanguages, _ => b
  end.
(** src/beider_morse/languages.rs:77-83 *)
Definition ls_any (s : LanguageSet) : option ustr :=
  match s with LAny => None | NoLanguages => None | SomeLanguages l => hd_error l end.
(** src/beider_morse/languages.rs:86-94, [From<BTreeSet<String>>]. *)
Definition ls_of_set (l : list ustr) : LanguageSet :=
  match l with [] => NoLanguages | _ => SomeLanguages l end.
(** src/beider_morse/languages.rs:96-100, [From<Vec<&str>>]. *)
Definition ls_of_vec (l : list ustr) : LanguageSet := SomeLanguages (sset_of_list l).

(** ** Language declarations *)

(** A directory as the program sees it while it runs: the entries that [std::fs::read_dir] lists, in
    its order (or the text of its error; listing can also fail at an entry), the result of
    [std::fs::read_to_string] for each file name (the content, or the text of the error), and the path
    of each file as text ([directory.join(name).to_str()]; [None] when it is not Unicode).  Nothing
    relates the listing to the files, so a file may be listed and not readable or the reverse; the
    answers do not change while the program runs.  A name that is not Unicode is represented by any text that is not
    the name of a list of languages. *)
Record directory := {
  dir_listing : result (list (result ustr ustr)) ustr;
  dir_file : ustr -> result ustr ustr;
  dir_path : ustr -> option ustr
}.
Definition dir_read (d : directory) (name : ustr) : option ustr :=
  match dir_file d name with ROk content => Some content | RErr _ => None end.

(** A set of files given by names and contents (the embedded files, examples). *)
Definition file_list := list (ustr * option ustr).
Fixpoint find_file (l : file_list) (name : ustr) : option ustr :=
  match l with
  | [] => None
  | (n, c) :: r => if seq_eqb n name then c else find_file r name
  end.
Definition folder_of (l : file_list) : directory :=
  {| dir_listing := ROk (map (fun x => ROk (fst x)) l);
     dir_file := fun name => match find_file l name with
                             | Some content => ROk content
                             | None => RErr $ "No such file or directory (os error 2)" end;
     dir_path := fun name => Some ($ "rules/" ++ name) |}.

(** src/beider_morse/languages.rs:119-127, [Languages]: name type -> set. *)
Definition Languages := list (NameType * list ustr).
Fixpoint nt_assoc {A} (k : NameType) (l : list (NameType * A)) : option A :=
  match l with
  | [] => None
  | (k', v) :: r => if nt_eqb k' k then Some v else nt_assoc k r
  end.
Fixpoint nt_insert {A} (k : NameType) (v : A) (l : list (NameType * A)) : list (NameType * A) :=
  match l with
  | [] => [(k, v)]
  | (k', v') :: r => if nt_eqb k' k then (k, v) :: r else (k', v') :: nt_insert k v r
  end.

(** src/beider_morse/languages.rs:130-142, [Default]. *)
Definition languages_default : Languages :=
  [(Ashkenazi, [$ "any"]); (Generic, [$ "any"]); (Sephardic, [$ "any"])].

(** src/beider_morse/languages.rs:164-205, [parse_liste]. *)
Fixpoint parse_liste (fuel : nat) (acc : list ustr) (line_number : nat) (remains : ustr)
  : res (result (list ustr) PhoneticError) :=
  match remains with
  | [] => Ok (ROk acc)
  | _ =>
      match fuel with
      | O => NoFuel
      | S fuel' =>
          let line_number := S line_number in
          match end_of_line remains with
          | Some (_, rm) => parse_liste fuel' acc line_number rm
          | None =>
          match multiline_comment remains with
          | Some (ln, rm) => parse_liste fuel' acc (line_number + (ln - 1)) rm
          | None =>
          match language remains with
          | Some (l, rm) => parse_liste fuel' (sset_insert l acc) line_number rm
          | None =>
              Ok (RErr (ParseRuleError
                    (build_error line_number None remains $ "Can't parse line for languages")))
          end end end
      end
  end.

(** src/beider_morse/languages.rs:151-160: the loop over the entries of the directory. *)
Fixpoint languages_from_entries (d : directory) (entries : list (result ustr ustr)) (acc : Languages)
  : res (result Languages PhoneticError) :=
  match entries with
  | [] => Ok (ROk acc)
  | RErr text :: _ => Ok (RErr (BMErr (ParseConfiguration text)))
  | ROk name :: r =>
      match nt_try_from_filename name with
      | RErr _ => languages_from_entries d r acc
      | ROk nt =>
          match dir_file d name with
          | RErr text => Ok (RErr (BMErr (ParseConfiguration text)))
          | ROk text =>
              p <- parse_liste (length text) [] 0 text ;;
              match p with
              | RErr e => Ok (RErr e)
              | ROk langs => languages_from_entries d r (nt_insert nt langs acc)
              end
          end
      end
  end.
(** src/beider_morse/languages.rs:144-162, [TryFrom<&PathBuf>]. *)
Definition languages_try_from (d : directory) : res (result Languages PhoneticError) :=
  match dir_listing d with
  | RErr text => Ok (RErr (BMErr (ParseConfiguration text)))
  | ROk entries => languages_from_entries d entries []
  end.
