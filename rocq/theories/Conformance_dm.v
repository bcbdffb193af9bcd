(** * Conformance tests (not proofs) for the Daitch-Mokotoff model and the rule
    parsers.  Generated by tools/gen_dm.py from the unit tests in /repo/src. *)
From Verif Require Import Base UnicodeM Lib RulesParser DaitchMokotoff DmRules.
Local Open Scope N_scope.

Definition lseq (a b : list ustr) : bool := Nat.eqb (length a) (length b) && forallb (fun xy => seq_eqb (fst xy) (snd xy)) (combine a b).
Definition rule_eqb (a b : Rule) : bool := seq_eqb (r_pattern a) (r_pattern b) && lseq (r_at_start a) (r_at_start b) && lseq (r_before_vowel a) (r_before_vowel b) && lseq (r_default a) (r_default b).
Definition rules_eqb (a b : list Rule) : bool := Nat.eqb (length a) (length b) && forallb (fun xy => rule_eqb (fst xy) (snd xy)) (combine a b).

(* daitch_mokotoff.rs test_default_rules *)
Definition expected_table : list (N * list Rule) := [
  (chr "ą", [{| r_pattern := (str "ą"); r_at_start := [(str "")]; r_before_vowel := [(str "")]; r_default := [(str ""); (str "6")] |}]);
  (chr "ę", [{| r_pattern := (str "ę"); r_at_start := [(str "")]; r_before_vowel := [(str "")]; r_default := [(str ""); (str "6")] |}]);
  (chr "ț", [{| r_pattern := (str "ț"); r_at_start := [(str "3"); (str "4")]; r_before_vowel := [(str "3"); (str "4")]; r_default := [(str "3"); (str "4")] |}]);
  (chr "a", [{| r_pattern := (str "ai"); r_at_start := [(str "0")]; r_before_vowel := [(str "1")]; r_default := [(str "")] |};
    {| r_pattern := (str "aj"); r_at_start := [(str "0")]; r_before_vowel := [(str "1")]; r_default := [(str "")] |};
    {| r_pattern := (str "ay"); r_at_start := [(str "0")]; r_before_vowel := [(str "1")]; r_default := [(str "")] |};
    {| r_pattern := (str "au"); r_at_start := [(str "0")]; r_before_vowel := [(str "7")]; r_default := [(str "")] |};
    {| r_pattern := (str "a"); r_at_start := [(str "0")]; r_before_vowel := [(str "")]; r_default := [(str "")] |}]);
  (chr "b", [{| r_pattern := (str "b"); r_at_start := [(str "7")]; r_before_vowel := [(str "7")]; r_default := [(str "7")] |}]);
  (chr "c", [{| r_pattern := (str "chs"); r_at_start := [(str "5")]; r_before_vowel := [(str "54")]; r_default := [(str "54")] |};
    {| r_pattern := (str "csz"); r_at_start := [(str "4")]; r_before_vowel := [(str "4")]; r_default := [(str "4")] |};
    {| r_pattern := (str "czs"); r_at_start := [(str "4")]; r_before_vowel := [(str "4")]; r_default := [(str "4")] |};
    {| r_pattern := (str "cz"); r_at_start := [(str "4")]; r_before_vowel := [(str "4")]; r_default := [(str "4")] |};
    {| r_pattern := (str "cs"); r_at_start := [(str "4")]; r_before_vowel := [(str "4")]; r_default := [(str "4")] |};
    {| r_pattern := (str "ch"); r_at_start := [(str "4"); (str "5")]; r_before_vowel := [(str "4"); (str "5")]; r_default := [(str "4"); (str "5")] |};
    {| r_pattern := (str "ck"); r_at_start := [(str "5"); (str "45")]; r_before_vowel := [(str "5"); (str "45")]; r_default := [(str "5"); (str "45")] |};
    {| r_pattern := (str "c"); r_at_start := [(str "4"); (str "5")]; r_before_vowel := [(str "4"); (str "5")]; r_default := [(str "4"); (str "5")] |}]);
  (chr "ţ", [{| r_pattern := (str "ţ"); r_at_start := [(str "3"); (str "4")]; r_before_vowel := [(str "3"); (str "4")]; r_default := [(str "3"); (str "4")] |}]);
  (chr "d", [{| r_pattern := (str "drz"); r_at_start := [(str "4")]; r_before_vowel := [(str "4")]; r_default := [(str "4")] |};
    {| r_pattern := (str "drs"); r_at_start := [(str "4")]; r_before_vowel := [(str "4")]; r_default := [(str "4")] |};
    {| r_pattern := (str "dsh"); r_at_start := [(str "4")]; r_before_vowel := [(str "4")]; r_default := [(str "4")] |};
    {| r_pattern := (str "dsz"); r_at_start := [(str "4")]; r_before_vowel := [(str "4")]; r_default := [(str "4")] |};
    {| r_pattern := (str "dzh"); r_at_start := [(str "4")]; r_before_vowel := [(str "4")]; r_default := [(str "4")] |};
    {| r_pattern := (str "dzs"); r_at_start := [(str "4")]; r_before_vowel := [(str "4")]; r_default := [(str "4")] |};
    {| r_pattern := (str "ds"); r_at_start := [(str "4")]; r_before_vowel := [(str "4")]; r_default := [(str "4")] |};
    {| r_pattern := (str "dz"); r_at_start := [(str "4")]; r_before_vowel := [(str "4")]; r_default := [(str "4")] |};
    {| r_pattern := (str "dt"); r_at_start := [(str "3")]; r_before_vowel := [(str "3")]; r_default := [(str "3")] |};
    {| r_pattern := (str "d"); r_at_start := [(str "3")]; r_before_vowel := [(str "3")]; r_default := [(str "3")] |}]);
  (chr "e", [{| r_pattern := (str "ei"); r_at_start := [(str "0")]; r_before_vowel := [(str "1")]; r_default := [(str "")] |};
    {| r_pattern := (str "ej"); r_at_start := [(str "0")]; r_before_vowel := [(str "1")]; r_default := [(str "")] |};
    {| r_pattern := (str "ey"); r_at_start := [(str "0")]; r_before_vowel := [(str "1")]; r_default := [(str "")] |};
    {| r_pattern := (str "eu"); r_at_start := [(str "1")]; r_before_vowel := [(str "1")]; r_default := [(str "")] |};
    {| r_pattern := (str "e"); r_at_start := [(str "0")]; r_before_vowel := [(str "")]; r_default := [(str "")] |}]);
  (chr "f", [{| r_pattern := (str "fb"); r_at_start := [(str "7")]; r_before_vowel := [(str "7")]; r_default := [(str "7")] |};
    {| r_pattern := (str "f"); r_at_start := [(str "7")]; r_before_vowel := [(str "7")]; r_default := [(str "7")] |}]);
  (chr "g", [{| r_pattern := (str "g"); r_at_start := [(str "5")]; r_before_vowel := [(str "5")]; r_default := [(str "5")] |}]);
  (chr "h", [{| r_pattern := (str "h"); r_at_start := [(str "5")]; r_before_vowel := [(str "5")]; r_default := [(str "")] |}]);
  (chr "i", [{| r_pattern := (str "ia"); r_at_start := [(str "1")]; r_before_vowel := [(str "")]; r_default := [(str "")] |};
    {| r_pattern := (str "ie"); r_at_start := [(str "1")]; r_before_vowel := [(str "")]; r_default := [(str "")] |};
    {| r_pattern := (str "io"); r_at_start := [(str "1")]; r_before_vowel := [(str "")]; r_default := [(str "")] |};
    {| r_pattern := (str "iu"); r_at_start := [(str "1")]; r_before_vowel := [(str "")]; r_default := [(str "")] |};
    {| r_pattern := (str "i"); r_at_start := [(str "0")]; r_before_vowel := [(str "")]; r_default := [(str "")] |}]);
  (chr "j", [{| r_pattern := (str "j"); r_at_start := [(str "1"); (str "4")]; r_before_vowel := [(str ""); (str "4")]; r_default := [(str ""); (str "4")] |}]);
  (chr "k", [{| r_pattern := (str "ks"); r_at_start := [(str "5")]; r_before_vowel := [(str "54")]; r_default := [(str "54")] |};
    {| r_pattern := (str "kh"); r_at_start := [(str "5")]; r_before_vowel := [(str "5")]; r_default := [(str "5")] |};
    {| r_pattern := (str "k"); r_at_start := [(str "5")]; r_before_vowel := [(str "5")]; r_default := [(str "5")] |}]);
  (chr "l", [{| r_pattern := (str "l"); r_at_start := [(str "8")]; r_before_vowel := [(str "8")]; r_default := [(str "8")] |}]);
  (chr "m", [{| r_pattern := (str "mn"); r_at_start := [(str "66")]; r_before_vowel := [(str "66")]; r_default := [(str "66")] |};
    {| r_pattern := (str "m"); r_at_start := [(str "6")]; r_before_vowel := [(str "6")]; r_default := [(str "6")] |}]);
  (chr "n", [{| r_pattern := (str "nm"); r_at_start := [(str "66")]; r_before_vowel := [(str "66")]; r_default := [(str "66")] |};
    {| r_pattern := (str "n"); r_at_start := [(str "6")]; r_before_vowel := [(str "6")]; r_default := [(str "6")] |}]);
  (chr "o", [{| r_pattern := (str "oi"); r_at_start := [(str "0")]; r_before_vowel := [(str "1")]; r_default := [(str "")] |};
    {| r_pattern := (str "oj"); r_at_start := [(str "0")]; r_before_vowel := [(str "1")]; r_default := [(str "")] |};
    {| r_pattern := (str "oy"); r_at_start := [(str "0")]; r_before_vowel := [(str "1")]; r_default := [(str "")] |};
    {| r_pattern := (str "o"); r_at_start := [(str "0")]; r_before_vowel := [(str "")]; r_default := [(str "")] |}]);
  (chr "p", [{| r_pattern := (str "pf"); r_at_start := [(str "7")]; r_before_vowel := [(str "7")]; r_default := [(str "7")] |};
    {| r_pattern := (str "ph"); r_at_start := [(str "7")]; r_before_vowel := [(str "7")]; r_default := [(str "7")] |};
    {| r_pattern := (str "p"); r_at_start := [(str "7")]; r_before_vowel := [(str "7")]; r_default := [(str "7")] |}]);
  (chr "q", [{| r_pattern := (str "q"); r_at_start := [(str "5")]; r_before_vowel := [(str "5")]; r_default := [(str "5")] |}]);
  (chr "r", [{| r_pattern := (str "rs"); r_at_start := [(str "4"); (str "94")]; r_before_vowel := [(str "4"); (str "94")]; r_default := [(str "4"); (str "94")] |};
    {| r_pattern := (str "rz"); r_at_start := [(str "4"); (str "94")]; r_before_vowel := [(str "4"); (str "94")]; r_default := [(str "4"); (str "94")] |};
    {| r_pattern := (str "r"); r_at_start := [(str "9")]; r_before_vowel := [(str "9")]; r_default := [(str "9")] |}]);
  (chr "s", [{| r_pattern := (str "schtsch"); r_at_start := [(str "2")]; r_before_vowel := [(str "4")]; r_default := [(str "4")] |};
    {| r_pattern := (str "schtsh"); r_at_start := [(str "2")]; r_before_vowel := [(str "4")]; r_default := [(str "4")] |};
    {| r_pattern := (str "schtch"); r_at_start := [(str "2")]; r_before_vowel := [(str "4")]; r_default := [(str "4")] |};
    {| r_pattern := (str "shtch"); r_at_start := [(str "2")]; r_before_vowel := [(str "4")]; r_default := [(str "4")] |};
    {| r_pattern := (str "shtsh"); r_at_start := [(str "2")]; r_before_vowel := [(str "4")]; r_default := [(str "4")] |};
    {| r_pattern := (str "stsch"); r_at_start := [(str "2")]; r_before_vowel := [(str "4")]; r_default := [(str "4")] |};
    {| r_pattern := (str "shch"); r_at_start := [(str "2")]; r_before_vowel := [(str "4")]; r_default := [(str "4")] |};
    {| r_pattern := (str "scht"); r_at_start := [(str "2")]; r_before_vowel := [(str "43")]; r_default := [(str "43")] |};
    {| r_pattern := (str "schd"); r_at_start := [(str "2")]; r_before_vowel := [(str "43")]; r_default := [(str "43")] |};
    {| r_pattern := (str "stch"); r_at_start := [(str "2")]; r_before_vowel := [(str "4")]; r_default := [(str "4")] |};
    {| r_pattern := (str "strz"); r_at_start := [(str "2")]; r_before_vowel := [(str "4")]; r_default := [(str "4")] |};
    {| r_pattern := (str "strs"); r_at_start := [(str "2")]; r_before_vowel := [(str "4")]; r_default := [(str "4")] |};
    {| r_pattern := (str "stsh"); r_at_start := [(str "2")]; r_before_vowel := [(str "4")]; r_default := [(str "4")] |};
    {| r_pattern := (str "szcz"); r_at_start := [(str "2")]; r_before_vowel := [(str "4")]; r_default := [(str "4")] |};
    {| r_pattern := (str "szcs"); r_at_start := [(str "2")]; r_before_vowel := [(str "4")]; r_default := [(str "4")] |};
    {| r_pattern := (str "sch"); r_at_start := [(str "4")]; r_before_vowel := [(str "4")]; r_default := [(str "4")] |};
    {| r_pattern := (str "sht"); r_at_start := [(str "2")]; r_before_vowel := [(str "43")]; r_default := [(str "43")] |};
    {| r_pattern := (str "szt"); r_at_start := [(str "2")]; r_before_vowel := [(str "43")]; r_default := [(str "43")] |};
    {| r_pattern := (str "shd"); r_at_start := [(str "2")]; r_before_vowel := [(str "43")]; r_default := [(str "43")] |};
    {| r_pattern := (str "szd"); r_at_start := [(str "2")]; r_before_vowel := [(str "43")]; r_default := [(str "43")] |};
    {| r_pattern := (str "sh"); r_at_start := [(str "4")]; r_before_vowel := [(str "4")]; r_default := [(str "4")] |};
    {| r_pattern := (str "sc"); r_at_start := [(str "2")]; r_before_vowel := [(str "4")]; r_default := [(str "4")] |};
    {| r_pattern := (str "st"); r_at_start := [(str "2")]; r_before_vowel := [(str "43")]; r_default := [(str "43")] |};
    {| r_pattern := (str "sd"); r_at_start := [(str "2")]; r_before_vowel := [(str "43")]; r_default := [(str "43")] |};
    {| r_pattern := (str "sz"); r_at_start := [(str "4")]; r_before_vowel := [(str "4")]; r_default := [(str "4")] |};
    {| r_pattern := (str "s"); r_at_start := [(str "4")]; r_before_vowel := [(str "4")]; r_default := [(str "4")] |}]);
  (chr "t", [{| r_pattern := (str "ttsch"); r_at_start := [(str "4")]; r_before_vowel := [(str "4")]; r_default := [(str "4")] |};
    {| r_pattern := (str "ttch"); r_at_start := [(str "4")]; r_before_vowel := [(str "4")]; r_default := [(str "4")] |};
    {| r_pattern := (str "tsch"); r_at_start := [(str "4")]; r_before_vowel := [(str "4")]; r_default := [(str "4")] |};
    {| r_pattern := (str "ttsz"); r_at_start := [(str "4")]; r_before_vowel := [(str "4")]; r_default := [(str "4")] |};
    {| r_pattern := (str "tch"); r_at_start := [(str "4")]; r_before_vowel := [(str "4")]; r_default := [(str "4")] |};
    {| r_pattern := (str "trz"); r_at_start := [(str "4")]; r_before_vowel := [(str "4")]; r_default := [(str "4")] |};
    {| r_pattern := (str "trs"); r_at_start := [(str "4")]; r_before_vowel := [(str "4")]; r_default := [(str "4")] |};
    {| r_pattern := (str "tsh"); r_at_start := [(str "4")]; r_before_vowel := [(str "4")]; r_default := [(str "4")] |};
    {| r_pattern := (str "tts"); r_at_start := [(str "4")]; r_before_vowel := [(str "4")]; r_default := [(str "4")] |};
    {| r_pattern := (str "ttz"); r_at_start := [(str "4")]; r_before_vowel := [(str "4")]; r_default := [(str "4")] |};
    {| r_pattern := (str "tzs"); r_at_start := [(str "4")]; r_before_vowel := [(str "4")]; r_default := [(str "4")] |};
    {| r_pattern := (str "tsz"); r_at_start := [(str "4")]; r_before_vowel := [(str "4")]; r_default := [(str "4")] |};
    {| r_pattern := (str "th"); r_at_start := [(str "3")]; r_before_vowel := [(str "3")]; r_default := [(str "3")] |};
    {| r_pattern := (str "ts"); r_at_start := [(str "4")]; r_before_vowel := [(str "4")]; r_default := [(str "4")] |};
    {| r_pattern := (str "tc"); r_at_start := [(str "4")]; r_before_vowel := [(str "4")]; r_default := [(str "4")] |};
    {| r_pattern := (str "tz"); r_at_start := [(str "4")]; r_before_vowel := [(str "4")]; r_default := [(str "4")] |};
    {| r_pattern := (str "t"); r_at_start := [(str "3")]; r_before_vowel := [(str "3")]; r_default := [(str "3")] |}]);
  (chr "u", [{| r_pattern := (str "ui"); r_at_start := [(str "0")]; r_before_vowel := [(str "1")]; r_default := [(str "")] |};
    {| r_pattern := (str "uj"); r_at_start := [(str "0")]; r_before_vowel := [(str "1")]; r_default := [(str "")] |};
    {| r_pattern := (str "uy"); r_at_start := [(str "0")]; r_before_vowel := [(str "1")]; r_default := [(str "")] |};
    {| r_pattern := (str "ue"); r_at_start := [(str "0")]; r_before_vowel := [(str "1")]; r_default := [(str "")] |};
    {| r_pattern := (str "u"); r_at_start := [(str "0")]; r_before_vowel := [(str "")]; r_default := [(str "")] |}]);
  (chr "v", [{| r_pattern := (str "v"); r_at_start := [(str "7")]; r_before_vowel := [(str "7")]; r_default := [(str "7")] |}]);
  (chr "w", [{| r_pattern := (str "w"); r_at_start := [(str "7")]; r_before_vowel := [(str "7")]; r_default := [(str "7")] |}]);
  (chr "x", [{| r_pattern := (str "x"); r_at_start := [(str "5")]; r_before_vowel := [(str "54")]; r_default := [(str "54")] |}]);
  (chr "y", [{| r_pattern := (str "y"); r_at_start := [(str "1")]; r_before_vowel := [(str "")]; r_default := [(str "")] |}]);
  (chr "z", [{| r_pattern := (str "zhdzh"); r_at_start := [(str "2")]; r_before_vowel := [(str "4")]; r_default := [(str "4")] |};
    {| r_pattern := (str "zdzh"); r_at_start := [(str "2")]; r_before_vowel := [(str "4")]; r_default := [(str "4")] |};
    {| r_pattern := (str "zsch"); r_at_start := [(str "4")]; r_before_vowel := [(str "4")]; r_default := [(str "4")] |};
    {| r_pattern := (str "zdz"); r_at_start := [(str "2")]; r_before_vowel := [(str "4")]; r_default := [(str "4")] |};
    {| r_pattern := (str "zhd"); r_at_start := [(str "2")]; r_before_vowel := [(str "43")]; r_default := [(str "43")] |};
    {| r_pattern := (str "zsh"); r_at_start := [(str "4")]; r_before_vowel := [(str "4")]; r_default := [(str "4")] |};
    {| r_pattern := (str "zd"); r_at_start := [(str "2")]; r_before_vowel := [(str "43")]; r_default := [(str "43")] |};
    {| r_pattern := (str "zh"); r_at_start := [(str "4")]; r_before_vowel := [(str "4")]; r_default := [(str "4")] |};
    {| r_pattern := (str "zs"); r_at_start := [(str "4")]; r_before_vowel := [(str "4")]; r_default := [(str "4")] |};
    {| r_pattern := (str "z"); r_at_start := [(str "4")]; r_before_vowel := [(str "4")]; r_default := [(str "4")] |}])
].
Definition expected_folding : list (N * N) := [
(chr "ß", chr "s"); (chr "à", chr "a"); (chr "á", chr "a"); (chr "â", chr "a"); (chr "ã", chr "a"); (chr "ä", chr "a"); (chr "å", chr "a"); (chr "æ", chr "a"); (chr "ç", chr "c"); (chr "è", chr "e"); (chr "é", chr "e"); (chr "ê", chr "e"); (chr "ë", chr "e"); (chr "ì", chr "i"); (chr "í", chr "i"); (chr "î", chr "i"); (chr "ï", chr "i"); (chr "ð", chr "d"); (chr "ñ", chr "n"); (chr "ò", chr "o"); (chr "ó", chr "o"); (chr "ô", chr "o"); (chr "õ", chr "o"); (chr "ö", chr "o"); (chr "ø", chr "o"); (chr "ù", chr "u"); (chr "ú", chr "u"); (chr "û", chr "u"); (chr "ý", chr "y"); (chr "ý", chr "y"); (chr "þ", chr "b"); (chr "ÿ", chr "y"); (chr "ć", chr "c"); (chr "ł", chr "l"); (chr "ś", chr "s"); (chr "ż", chr "z"); (chr "ź", chr "z")
].
Example conf_default_rules : Nat.eqb (length (dms_rules dms_default)) (length expected_table) && forallb (fun kv => match assoc (fst kv) (dms_rules dms_default) with Some l => rules_eqb l (snd kv) | None => false end) expected_table = true.
Proof. vm_compute. reflexivity. Qed.
Example conf_default_folding : forallb (fun kv => match assoc (fst kv) (dms_folding_rules dms_default) with Some l => l =? snd kv | None => false end) expected_folding = true.
Proof. vm_compute. reflexivity. Qed.

Definition chkv (e : encoder) (l : list (ustr * ustr)) : bool :=
  forallb (fun io => match e (fst io) with Ok r => seq_eqb r (snd io) | _ => false end) l.
(* 43 vectors *)
Example conf_dm_soundex : chkv (dms_soundex latin1_only dms_default) [
  ((str "Straßburg"), (str "294795"));
  ((str "Strasburg"), (str "294795"));
  ((str "Éregon"), (str "095600"));
  ((str "Eregon"), (str "095600"));
  ((str "AKSSOL"), (str "054800"));
  ((str "GERSCHFELD"), (str "547830|545783|594783|594578"));
  ((str "GOLDEN"), (str "583600"));
  ((str "Alpert"), (str "087930"));
  ((str "Breuer"), (str "791900"));
  ((str "Haber"), (str "579000"));
  ((str "Mannheim"), (str "665600"));
  ((str "Mintz"), (str "664000"));
  ((str "Topf"), (str "370000"));
  ((str "Kleinmann"), (str "586660"));
  ((str "Ben Aron"), (str "769600"));
  ((str "AUERBACH"), (str "097400|097500"));
  ((str "OHRBACH"), (str "097400|097500"));
  ((str "LIPSHITZ"), (str "874400"));
  ((str "LIPPSZYC"), (str "874400|874500"));
  ((str "LEWINSKY"), (str "876450"));
  ((str "LEVINSKI"), (str "876450"));
  ((str "SZLAMAWICZ"), (str "486740"));
  ((str "SHLAMOVITZ"), (str "486740"));
  ((str "Ceniow"), (str "467000|567000"));
  ((str "Tsenyuv"), (str "467000"));
  ((str "Holubica"), (str "587400|587500"));
  ((str "Golubitsa"), (str "587400"));
  ((str "Przemysl"), (str "746480|794648"));
  ((str "Pshemeshil"), (str "746480"));
  ((str "Rosochowaciec"), (str "944744|944745|944754|944755|945744|945745|945754|945755"));
  ((str "Rosokhovatsets"), (str "945744"));
  ((str "Peters"), (str "734000|739400"));
  ((str "Peterson"), (str "734600|739460"));
  ((str "Moskowitz"), (str "645740"));
  ((str "Moskovitz"), (str "645740"));
  ((str "Jackson"), (str "154600|145460|454600|445460"));
  ((str "Jackson-Jackson"), (str "154654|154645|154644|145465|145464|454654|454645|454644|445465|445464"));
  ((str "ţamas"), (str "364000|464000"));
  ((str "țamas"), (str "364000|464000"));
  ((str "ţamas"), (str "364000|464000"));
  ((str "țamas"), (str "364000|464000"));
  ((str "ţamas"), (str "364000|464000"));
  ((str "țamas"), (str "364000|464000"))] = true.
Proof. vm_compute. reflexivity. Qed.
(* 10 vectors *)
Example conf_dm_encode : chkv (dms_encode latin1_only dms_default) [
  ((str "AUERBACH"), (str "097400"));
  ((str "OHRBACH"), (str "097400"));
  ((str "LIPSHITZ"), (str "874400"));
  ((str "LIPPSZYC"), (str "874400"));
  ((str "LEWINSKY"), (str "876450"));
  ((str "LEVINSKI"), (str "876450"));
  ((str "SZLAMAWICZ"), (str "486740"));
  ((str "SHLAMOVITZ"), (str "486740"));
  ((str " 	
 Washington 	
 "), (str "746536"));
  ((str "Washington"), (str "746536"))] = true.
Proof. vm_compute. reflexivity. Qed.
(* rules_parser.rs: 27 tests *)
Example conf_parsers : forallb (fun b : bool => b) [
  match quadruplet (str """part1""  ""part2""	 ""part3"" ""part4""") with Some ((a,b,c,d), r) => seq_eqb r (str "") && seq_eqb a (str "part1") && seq_eqb b (str "part2") && seq_eqb c (str "part3") && seq_eqb d (str "part4") | None => false end;
  match quadruplet (str """\""""  """" """" """"") with Some ((a,b,c,d), r) => seq_eqb r (str "") && seq_eqb a (str "\""") && seq_eqb b (str "") && seq_eqb c (str "") && seq_eqb d (str "") | None => false end;
  match quadruplet (str """part1""  ""part2""	 ""part3"" ""part4|part5""
Other data") with Some ((a,b,c,d), r) => seq_eqb r (str "Other data") && seq_eqb a (str "part1") && seq_eqb b (str "part2") && seq_eqb c (str "part3") && seq_eqb d (str "part4|part5") | None => false end;
  match quadruplet (str """part1""  ""part2""	 ""part3"" ""part4"" 	// This is a comment") with Some ((a,b,c,d), r) => seq_eqb r (str "") && seq_eqb a (str "part1") && seq_eqb b (str "part2") && seq_eqb c (str "part3") && seq_eqb d (str "part4") | None => false end;
  match quadruplet (str """part1""  ""part2""	 ""part3"" 	// This is a comment
Other data") with None => true | _ => false end;
  match quadruplet (str "// This is a comment ""part1""  ""part2""	 ""part3""") with None => true | _ => false end;
  match quadruplet (str "//""part1""  ""part2""	 ""part3"" ""part4""") with None => true | _ => false end;
  match folding (str "ß=s") with Some ((a,b), r) => seq_eqb r (str "") && (a =? chr "ß") && (b =? chr "s") | None => false end;
  match folding (str "ó=o
Other data") with Some ((a,b), r) => seq_eqb r (str "Other data") && (a =? chr "ó") && (b =? chr "o") | None => false end;
  match folding (str "ó=o // This is one line comment") with Some ((a,b), r) => seq_eqb r (str "") && (a =? chr "ó") && (b =? chr "o") | None => false end;
  match folding (str "ó=") with None => true | _ => false end;
  match folding (str "Blablabla") with None => true | _ => false end;
  match folding (str "//a=b") with None => true | _ => false end;
  match end_of_line (str "") with Some (_, r) => seq_eqb r (str "") && true | None => false end;
  match end_of_line (str "
Other data") with Some (_, r) => seq_eqb r (str "Other data") && true | None => false end;
  match end_of_line (str "   // This is a comment") with Some (_, r) => seq_eqb r (str "") && true | None => false end;
  match end_of_line (str "   //This is a comment
Other data") with Some (_, r) => seq_eqb r (str "Other data") && true | None => false end;
  match end_of_line (str "//
Other data") with Some (_, r) => seq_eqb r (str "Other data") && true | None => false end;
  match end_of_line (str "//") with Some (_, r) => seq_eqb r (str "") && true | None => false end;
  match lang (str "zh polish+russian+german+english true") with Some ((a,b,c), r) => seq_eqb r (str "") && seq_eqb a (str "zh") && seq_eqb b (str "polish+russian+german+english") && c | None => false end;
  match lang (str "zh polish+russian+german+english false") with Some ((a,b,c), r) => seq_eqb r (str "") && seq_eqb a (str "zh") && seq_eqb b (str "polish+russian+german+english") && negb c | None => false end;
  match lang (str "zh polish+russian+german+english true
Other data") with Some ((a,b,c), r) => seq_eqb r (str "Other data") && seq_eqb a (str "zh") && seq_eqb b (str "polish+russian+german+english") && c | None => false end;
  match lang (str "zh polish+russian+german+english true // This is a comment
Other data") with Some ((a,b,c), r) => seq_eqb r (str "Other data") && seq_eqb a (str "zh") && seq_eqb b (str "polish+russian+german+english") && c | None => false end;
  match lang (str "zh true // This is a comment
Other data") with None => true | _ => false end;
  match lang (str "// This is a comment") with None => true | _ => false end;
  match multiline_comment (str "/* This
is
a
multiline
comment */") with Some (a, r) => seq_eqb r (str "") && Nat.eqb a 5 | None => false end;
  match multiline_comment (str "/* This
is
a
multiline
comment */ // This is a single line comment") with Some (a, r) => seq_eqb r (str "") && Nat.eqb a 5 | None => false end
] = true.
Proof. vm_compute. reflexivity. Qed.
