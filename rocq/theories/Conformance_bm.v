(** * Conformance tests (not proofs) for the Beider-Morse model: the tests of
    src/beider_morse, with the rule directory test_assets/cc-rules and the small
    regular-expression matcher of MiniRegex.v.  Generated by tools/gen_bm.py. *)
From Verif Require Import Base UnicodeM Lib RulesParser DaitchMokotoff BmLanguages BmRegex BmRule BmEngine
  MiniRegex BmCcRules BmEmbedded BmDefault.
Local Open Scope N_scope.

(** Lowercase of the few letters above Latin-1 used in the tests. *)
Definition test_unicode : Unicode := {|
  hi_alphabetic := fun _ => true; hi_numeric := fun _ => false; hi_lowercase := fun _ => false;
  hi_whitespace := fun c => (c =? 8203) && false; hi_cased := fun _ => true; hi_case_ignorable := fun _ => false;
  hi_upper := fun c => [c];
  hi_lower := fun c => if (913 <=? c) && (c <=? 937) then [c + 32] else if (1040 <=? c) && (c <=? 1071) then [c + 32]
                       else if c =? 268 then [269] else [c] |}.

Definition cc_config : ConfigFiles := Eval vm_compute in
  match config_new test_unicode mini_engine (folder_of cc_rules) 3 with Ok (ROk c) => c | _ => {| cf_langs := []; cf_rules := [] |} end.
Example cc_config_built : (match config_new test_unicode mini_engine (folder_of cc_rules) 3 with Ok (ROk _) => true | _ => false end) = true.
Proof. vm_compute. reflexivity. Qed.

Definition mk (n : NameType) (t : PrivateRuleType) (concat : bool) (max : nat) : PhoneticEngine :=
  {| pe_rules := cf_rules cc_config;
     pe_lang := match nt_assoc n (cf_langs cc_config) with Some l => l | None => {| lang_languages := []; lang_rules := [] |} end;
     pe_name_type := n; pe_rule_type := t; pe_concat := concat; pe_max_phonemes := max |}.
Definition run (e : PhoneticEngine) (langs : option LanguageSet) (s : ustr) : res ustr :=
  match langs with None => bm_encode test_unicode mini_engine e s | Some l => bm_encode_with_languages test_unicode mini_engine e s l end.
Definition ok (r : res ustr) (x : ustr) : bool := match r with Ok y => seq_eqb y x | _ => false end.

(* 72 vectors *)
Example conf_bm : forallb (fun b : bool => b) [
  ok (run (mk Generic Approx true 10) None (str "Renault")) (str "rinD|rinDlt|rina|rinalt|rino|rinolt|rinu|rinult");
  ok (run (mk Ashkenazi Approx true 10) None (str "Renault")) (str "rYnDlt|rYnalt|rYnult|rinDlt|rinalt|rinolt|rinult");
  ok (run (mk Ashkenazi Approx true 1) None (str "Renault")) (str "rinDlt");
  ok (run (mk Sephardic Approx true 10) None (str "Renault")) (str "rinDlt");
  ok (run (mk Generic Exact true 10) None (str "SntJohn-Smith")) (str "sntjonsmit");
  ok (run (mk Generic Exact true 10) None (str "d'ortley")) (str "(ortlaj|ortlej)-(dortlaj|dortlej)");
  ok (run (mk Generic Exact false 10) None (str "van helsing")) (str "(elSink|elsink|helSink|helsink|helzink|xelsink)-(banhelsink|fanhelsink|fanhelzink|vanhelsink|vanhelzink|vanjelsink)");
  ok (run (mk Generic Approx true 10) None (str "Judenburg")) (str "iudnbYrk|iudnbirk|iudnburk|xudnbirk|xudnburk|zudnbirk|zudnburk");
  ok (run (mk Generic Approx true 20) None (str "Angelo")) (str "YngYlo|Yngilo|agilo|angYlo|angilo|aniilo|anilo|anxilo|anzilo|ogilo|ongYlo|ongilo|oniilo|onilo|onxilo|onzilo");
  ok (run (mk Generic Exact true 20) None (str "Angelo")) (str "anZelo|andZelo|angelo|anhelo|anjelo|anxelo");
  ok (run (mk Generic Exact true 20) None (str "D'Angelo")) (str "(anZelo|andZelo|angelo|anhelo|anjelo|anxelo)-(danZelo|dandZelo|dangelo|danhelo|danjelo|danxelo)");
  ok (run (mk Generic Exact true 20) (Some (ls_of_vec [str "italian"; str "greek"; str "spanish"])) (str "Angelo")) (str "andZelo|angelo|anxelo");
  ok (run (mk Generic Exact true 20) (Some (ls_of_vec [str "italian"; str "greek"; str "spanish"])) (str "1234")) (str "");
  ok (run (mk Generic Approx false 20) None (str "Angelo")) (str "YngYlo|Yngilo|agilo|angYlo|angilo|aniilo|anilo|anxilo|anzilo|ogilo|ongYlo|ongilo|oniilo|onilo|onxilo|onzilo");
  ok (run (mk Generic Exact false 20) None (str "Angelo")) (str "anZelo|andZelo|angelo|anhelo|anjelo|anxelo");
  ok (run (mk Generic Exact false 20) None (str "D'Angelo")) (str "(anZelo|andZelo|angelo|anhelo|anjelo|anxelo)-(danZelo|dandZelo|dangelo|danhelo|danjelo|danxelo)");
  ok (run (mk Generic Exact false 20) (Some (ls_of_vec [str "italian"; str "greek"; str "spanish"])) (str "Angelo")) (str "andZelo|angelo|anxelo");
  ok (run (mk Generic Exact false 20) (Some (ls_of_vec [str "italian"; str "greek"; str "spanish"])) (str "1234")) (str "");
  ok (run (mk Generic Approx true 20) None (str "Angelo")) (str "YngYlo|Yngilo|agilo|angYlo|angilo|aniilo|anilo|anxilo|anzilo|ogilo|ongYlo|ongilo|oniilo|onilo|onxilo|onzilo");
  ok (run (mk Generic Approx true 20) None (str "Angelo")) (str "YngYlo|Yngilo|agilo|angYlo|angilo|aniilo|anilo|anxilo|anzilo|ogilo|ongYlo|ongilo|oniilo|onilo|onxilo|onzilo");
  ok (run (mk Generic Approx true 20) None (str "D'Angelo")) (str "(YngYlo|Yngilo|agilo|angYlo|angilo|aniilo|anilo|anxilo|anzilo|ogilo|ongYlo|ongilo|oniilo|onilo|onxilo|onzilo)-(dYngYlo|dYngilo|dagilo|dangYlo|dangilo|daniilo|danilo|danxilo|danzilo|dogilo|dongYlo|dongilo|doniilo|donilo|donxilo|donzilo)");
  ok (run (mk Generic Approx true 20) (Some (ls_of_vec [str "italian"; str "greek"; str "spanish"])) (str "Angelo")) (str "angilo|anxilo|anzilo|ongilo|onxilo|onzilo");
  ok (run (mk Generic Approx true 20) (Some (ls_of_vec [str "italian"; str "greek"; str "spanish"])) (str "1234")) (str "");
  ok (run (mk Generic Approx false 20) None (str "Angelo")) (str "YngYlo|Yngilo|agilo|angYlo|angilo|aniilo|anilo|anxilo|anzilo|ogilo|ongYlo|ongilo|oniilo|onilo|onxilo|onzilo");
  ok (run (mk Generic Approx false 20) None (str "Angelo")) (str "YngYlo|Yngilo|agilo|angYlo|angilo|aniilo|anilo|anxilo|anzilo|ogilo|ongYlo|ongilo|oniilo|onilo|onxilo|onzilo");
  ok (run (mk Generic Approx false 20) None (str "D'Angelo")) (str "(YngYlo|Yngilo|agilo|angYlo|angilo|aniilo|anilo|anxilo|anzilo|ogilo|ongYlo|ongilo|oniilo|onilo|onxilo|onzilo)-(dYngYlo|dYngilo|dagilo|dangYlo|dangilo|daniilo|danilo|danxilo|danzilo|dogilo|dongYlo|dongilo|doniilo|donilo|donxilo|donzilo)");
  ok (run (mk Generic Approx false 20) (Some (ls_of_vec [str "italian"; str "greek"; str "spanish"])) (str "Angelo")) (str "angilo|anxilo|anzilo|ongilo|onxilo|onzilo");
  ok (run (mk Generic Approx false 20) (Some (ls_of_vec [str "italian"; str "greek"; str "spanish"])) (str "1234")) (str "");
  ok (run (mk Ashkenazi Approx true 20) None (str "Angelo")) (str "YngYlo|Yngilo|angYlo|angilo|anilo|anxilo|anzilo|ongYlo|ongilo|onilo|onxilo|onzilo");
  ok (run (mk Ashkenazi Exact true 20) None (str "Angelo")) (str "andZelo|angelo|anhelo|anxelo");
  ok (run (mk Ashkenazi Exact true 20) None (str "D'Angelo")) (str "dandZelo|dangelo|danhelo|danxelo");
  ok (run (mk Ashkenazi Exact true 20) (Some (ls_of_vec [str "italian"; str "greek"; str "spanish"])) (str "Angelo")) (str "angelo|anxelo");
  ok (run (mk Ashkenazi Exact true 20) (Some (ls_of_vec [str "italian"; str "greek"; str "spanish"])) (str "1234")) (str "");
  ok (run (mk Ashkenazi Approx false 20) None (str "Angelo")) (str "YngYlo|Yngilo|angYlo|angilo|anilo|anxilo|anzilo|ongYlo|ongilo|onilo|onxilo|onzilo");
  ok (run (mk Ashkenazi Exact false 20) None (str "Angelo")) (str "andZelo|angelo|anhelo|anxelo");
  ok (run (mk Ashkenazi Exact false 20) None (str "D'Angelo")) (str "dandZelo|dangelo|danhelo|danxelo");
  ok (run (mk Ashkenazi Exact false 20) (Some (ls_of_vec [str "italian"; str "greek"; str "spanish"])) (str "Angelo")) (str "angelo|anxelo");
  ok (run (mk Ashkenazi Exact false 20) (Some (ls_of_vec [str "italian"; str "greek"; str "spanish"])) (str "1234")) (str "");
  ok (run (mk Ashkenazi Approx true 20) None (str "Angelo")) (str "YngYlo|Yngilo|angYlo|angilo|anilo|anxilo|anzilo|ongYlo|ongilo|onilo|onxilo|onzilo");
  ok (run (mk Ashkenazi Approx true 20) None (str "Angelo")) (str "YngYlo|Yngilo|angYlo|angilo|anilo|anxilo|anzilo|ongYlo|ongilo|onilo|onxilo|onzilo");
  ok (run (mk Ashkenazi Approx true 20) None (str "D'Angelo")) (str "dYngYlo|dYngilo|dangYlo|dangilo|danilo|danxilo|danzilo|dongYlo|dongilo|donilo|donxilo|donzilo");
  ok (run (mk Ashkenazi Approx true 20) (Some (ls_of_vec [str "italian"; str "greek"; str "spanish"])) (str "Angelo")) (str "angilo|anxilo|ongilo|onxilo");
  ok (run (mk Ashkenazi Approx true 20) (Some (ls_of_vec [str "italian"; str "greek"; str "spanish"])) (str "1234")) (str "");
  ok (run (mk Ashkenazi Approx false 20) None (str "Angelo")) (str "YngYlo|Yngilo|angYlo|angilo|anilo|anxilo|anzilo|ongYlo|ongilo|onilo|onxilo|onzilo");
  ok (run (mk Ashkenazi Approx false 20) None (str "Angelo")) (str "YngYlo|Yngilo|angYlo|angilo|anilo|anxilo|anzilo|ongYlo|ongilo|onilo|onxilo|onzilo");
  ok (run (mk Ashkenazi Approx false 20) None (str "D'Angelo")) (str "dYngYlo|dYngilo|dangYlo|dangilo|danilo|danxilo|danzilo|dongYlo|dongilo|donilo|donxilo|donzilo");
  ok (run (mk Ashkenazi Approx false 20) (Some (ls_of_vec [str "italian"; str "greek"; str "spanish"])) (str "Angelo")) (str "angilo|anxilo|ongilo|onxilo");
  ok (run (mk Ashkenazi Approx false 20) (Some (ls_of_vec [str "italian"; str "greek"; str "spanish"])) (str "1234")) (str "");
  ok (run (mk Sephardic Approx true 20) None (str "Angelo")) (str "anhila|anhilu|anzila|anzilu|nhila|nhilu|nzila|nzilu");
  ok (run (mk Sephardic Exact true 20) None (str "Angelo")) (str "anZelo|andZelo|anxelo");
  ok (run (mk Sephardic Exact true 20) None (str "D'Angelo")) (str "anZelo|andZelo|anxelo");
  ok (run (mk Sephardic Exact true 20) (Some (ls_of_vec [str "italian"; str "greek"; str "spanish"])) (str "Angelo")) (str "andZelo|anxelo");
  ok (run (mk Sephardic Exact true 20) (Some (ls_of_vec [str "italian"; str "greek"; str "spanish"])) (str "1234")) (str "");
  ok (run (mk Sephardic Approx false 20) None (str "Angelo")) (str "anhila|anhilu|anzila|anzilu|nhila|nhilu|nzila|nzilu");
  ok (run (mk Sephardic Exact false 20) None (str "Angelo")) (str "anZelo|andZelo|anxelo");
  ok (run (mk Sephardic Exact false 20) None (str "D'Angelo")) (str "danZelo|dandZelo|danxelo");
  ok (run (mk Sephardic Exact false 20) (Some (ls_of_vec [str "italian"; str "greek"; str "spanish"])) (str "Angelo")) (str "andZelo|anxelo");
  ok (run (mk Sephardic Exact false 20) (Some (ls_of_vec [str "italian"; str "greek"; str "spanish"])) (str "1234")) (str "");
  ok (run (mk Sephardic Approx true 20) None (str "Angelo")) (str "anhila|anhilu|anzila|anzilu|nhila|nhilu|nzila|nzilu");
  ok (run (mk Sephardic Approx true 20) None (str "Angelo")) (str "anhila|anhilu|anzila|anzilu|nhila|nhilu|nzila|nzilu");
  ok (run (mk Sephardic Approx true 20) None (str "D'Angelo")) (str "anhila|anhilu|anzila|anzilu|nhila|nhilu|nzila|nzilu");
  ok (run (mk Sephardic Approx true 20) (Some (ls_of_vec [str "italian"; str "greek"; str "spanish"])) (str "Angelo")) (str "anhila|anhilu|anzila|anzilu|nhila|nhilu|nzila|nzilu");
  ok (run (mk Sephardic Approx true 20) (Some (ls_of_vec [str "italian"; str "greek"; str "spanish"])) (str "1234")) (str "");
  ok (run (mk Sephardic Approx false 20) None (str "Angelo")) (str "anhila|anhilu|anzila|anzilu|nhila|nhilu|nzila|nzilu");
  ok (run (mk Sephardic Approx false 20) None (str "Angelo")) (str "anhila|anhilu|anzila|anzilu|nhila|nhilu|nzila|nzilu");
  ok (run (mk Sephardic Approx false 20) None (str "D'Angelo")) (str "danhila|danhilu|danzila|danzilu|nhila|nhilu|nzila|nzilu");
  ok (run (mk Sephardic Approx false 20) (Some (ls_of_vec [str "italian"; str "greek"; str "spanish"])) (str "Angelo")) (str "anhila|anhilu|anzila|anzilu|nhila|nhilu|nzila|nzilu");
  ok (run (mk Sephardic Approx false 20) (Some (ls_of_vec [str "italian"; str "greek"; str "spanish"])) (str "1234")) (str "");
  ok (run (mk Generic Approx false 20) None (str "abram")) (str "Ybram|Ybrom|abram|abran|abrom|abron|avram|avrom|obram|obran|obrom|obron|ovram|ovrom");
  ok (run (mk Generic Approx false 20) None (str "Bendzin")) (str "bndzn|bntsn|bnzn|vndzn|vntsn");
  ok (run (mk Ashkenazi Approx false 20) None (str "abram")) (str "Ybram|Ybrom|abram|abrom|avram|avrom|imbram|imbrom|obram|obrom|ombram|ombrom|ovram|ovrom");
  ok (run (mk Ashkenazi Approx false 20) None (str "Halpern")) (str "YlpYrn|Ylpirn|alpYrn|alpirn|olpYrn|olpirn|xalpirn|xolpirn")
] = true.
Proof. vm_compute. reflexivity. Qed.

Definition ls_eqb (a b : LanguageSet) : bool := match a, b with LAny, LAny => true | NoLanguages, NoLanguages => true | SomeLanguages x, SomeLanguages y => Nat.eqb (length x) (length y) && forallb (fun xy => seq_eqb (fst xy) (snd xy)) (combine x y) | _, _ => false end.
(* lang.rs: 18 vectors *)
Example conf_guess : forallb (fun b : bool => b) [
  ls_eqb (guess_languages test_unicode mini_engine (pe_lang (mk Generic Approx true 20)) (str "Renault")) (ls_of_vec [str "french"]);
  ls_eqb (guess_languages test_unicode mini_engine (pe_lang (mk Generic Approx true 20)) (str "Mickiewicz")) (ls_of_vec [str "polish"]);
  ls_eqb (guess_languages test_unicode mini_engine (pe_lang (mk Generic Approx true 20)) (str "Thompson")) (ls_of_vec [str "greeklatin"; str "english"]);
  ls_eqb (guess_languages test_unicode mini_engine (pe_lang (mk Generic Approx true 20)) (str "Nuñez")) (ls_of_vec [str "spanish"]);
  ls_eqb (guess_languages test_unicode mini_engine (pe_lang (mk Generic Approx true 20)) (str "Carvalho")) (ls_of_vec [str "portuguese"]);
  ls_eqb (guess_languages test_unicode mini_engine (pe_lang (mk Generic Approx true 20)) (str "Čapek")) (ls_of_vec [str "czech"]);
  ls_eqb (guess_languages test_unicode mini_engine (pe_lang (mk Generic Approx true 20)) (str "Sjneijder")) (ls_of_vec [str "dutch"]);
  ls_eqb (guess_languages test_unicode mini_engine (pe_lang (mk Generic Approx true 20)) (str "Klausewitz")) (ls_of_vec [str "german"]);
  ls_eqb (guess_languages test_unicode mini_engine (pe_lang (mk Generic Approx true 20)) (str "Küçük")) (ls_of_vec [str "turkish"]);
  ls_eqb (guess_languages test_unicode mini_engine (pe_lang (mk Generic Approx true 20)) (str "Giacometti")) (ls_of_vec [str "italian"]);
  ls_eqb (guess_languages test_unicode mini_engine (pe_lang (mk Generic Approx true 20)) (str "Nagy")) (ls_of_vec [str "hungarian"]);
  ls_eqb (guess_languages test_unicode mini_engine (pe_lang (mk Generic Approx true 20)) (str "Ceauşescu")) (ls_of_vec [str "romanian"]);
  ls_eqb (guess_languages test_unicode mini_engine (pe_lang (mk Generic Approx true 20)) (str "Angelopoulos")) (ls_of_vec [str "greeklatin"]);
  ls_eqb (guess_languages test_unicode mini_engine (pe_lang (mk Generic Approx true 20)) (str "Αγγελόπουλος")) (ls_of_vec [str "greek"]);
  ls_eqb (guess_languages test_unicode mini_engine (pe_lang (mk Generic Approx true 20)) (str "Пушкин")) (ls_of_vec [str "cyrillic"]);
  ls_eqb (guess_languages test_unicode mini_engine (pe_lang (mk Generic Approx true 20)) (str "כהן")) (ls_of_vec [str "hebrew"]);
  ls_eqb (guess_languages test_unicode mini_engine (pe_lang (mk Generic Approx true 20)) (str "ácz")) LAny;
  ls_eqb (guess_languages test_unicode mini_engine (pe_lang (mk Generic Approx true 20)) (str "átz")) LAny
] = true.
Proof. vm_compute. reflexivity. Qed.

(** rules/bm through the embedded resolver (src/beider_morse/rule.rs:342-348), mod.rs test_config_file_default. *)
Example conf_embedded : (match build_rules test_unicode mini_engine embedded_resolver 3 languages_default with
  | Ok (ROk r) => match rules_get r (Generic, Exact, $ "any"), rules_get r (Generic, Approx, $ "any") with
                  | Some a, Some b => Nat.eqb (length a) 8 && Nat.eqb (length b) 22 | _, _ => false end
  | _ => false end) = true.
Proof. vm_compute. reflexivity. Qed.

(** rule.rs test_parse_rule_include. *)
Definition include_dir : file_list := [
  (str "gen_exact_german.txt", Some (str "#include gen_exact_any
""original"" """" """" """""));
  (str "gen_exact_any.txt", Some (str """included"" """" """" """""))
].
Example conf_include : (match parse_rule test_unicode mini_engine (dir_resolver (folder_of include_dir)) 3 $ "gen_exact_german" with
  | Ok (ROk m) => let ps := flat_map (fun kv => map bm_pattern (snd kv)) m in
      Nat.eqb (length ps) 2 && sset_mem $ "included" ps && sset_mem $ "original" ps
  | _ => false end) = true.
Proof. vm_compute. reflexivity. Qed.
