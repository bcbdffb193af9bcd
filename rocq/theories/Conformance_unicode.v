(** * Conformance_unicode: the Latin-1 part of [UnicodeM] against the Unicode Character Database.
    GENERATED by tools/gen_conformance_unicode.py (Python's unicodedata).  These are checks of
    literals, not properties: they guard the transcription of the standard library's tables. *)
From Verif Require Import Base UnicodeM.
Local Open Scope N_scope.
Definition latin1 : list N := map N.of_nat (seq 0 256).
Definition members (f : N -> bool) : list N := filter f latin1.
Definition changed (f : N -> ustr) : list (N * ustr) :=
  filter (fun p => negb (seq_eqb (snd p) [fst p])) (map (fun c => (c, f c)) latin1).
Example conf_alphabetic : forall u, members (is_alphabetic u) = [65; 66; 67; 68; 69; 70; 71; 72; 73; 74; 75; 76; 77; 78; 79; 80; 81; 82; 83; 84; 85; 86; 87; 88; 89; 90; 97; 98; 99; 100; 101; 102; 103; 104; 105; 106; 107; 108; 109; 110; 111; 112; 113; 114; 115; 116; 117; 118; 119; 120; 121; 122; 170; 181; 186; 192; 193; 194; 195; 196; 197; 198; 199; 200; 201; 202; 203; 204; 205; 206; 207; 208; 209; 210; 211; 212; 213; 214; 216; 217; 218; 219; 220; 221; 222; 223; 224; 225; 226; 227; 228; 229; 230; 231; 232; 233; 234; 235; 236; 237; 238; 239; 240; 241; 242; 243; 244; 245; 246; 248; 249; 250; 251; 252; 253; 254; 255].
Proof. reflexivity. Qed.
Example conf_numeric : forall u, members (is_numeric u) = [48; 49; 50; 51; 52; 53; 54; 55; 56; 57; 178; 179; 185; 188; 189; 190].
Proof. reflexivity. Qed.
Example conf_lowercase : forall u, members (is_lowercase u) = [97; 98; 99; 100; 101; 102; 103; 104; 105; 106; 107; 108; 109; 110; 111; 112; 113; 114; 115; 116; 117; 118; 119; 120; 121; 122; 170; 181; 186; 223; 224; 225; 226; 227; 228; 229; 230; 231; 232; 233; 234; 235; 236; 237; 238; 239; 240; 241; 242; 243; 244; 245; 246; 248; 249; 250; 251; 252; 253; 254; 255].
Proof. reflexivity. Qed.
Example conf_whitespace : forall u, members (is_whitespace u) = [9; 10; 11; 12; 13; 32; 133; 160].
Proof. reflexivity. Qed.
Example conf_cased : forall u, members (cased u) = [65; 66; 67; 68; 69; 70; 71; 72; 73; 74; 75; 76; 77; 78; 79; 80; 81; 82; 83; 84; 85; 86; 87; 88; 89; 90; 97; 98; 99; 100; 101; 102; 103; 104; 105; 106; 107; 108; 109; 110; 111; 112; 113; 114; 115; 116; 117; 118; 119; 120; 121; 122; 170; 181; 186; 192; 193; 194; 195; 196; 197; 198; 199; 200; 201; 202; 203; 204; 205; 206; 207; 208; 209; 210; 211; 212; 213; 214; 216; 217; 218; 219; 220; 221; 222; 223; 224; 225; 226; 227; 228; 229; 230; 231; 232; 233; 234; 235; 236; 237; 238; 239; 240; 241; 242; 243; 244; 245; 246; 248; 249; 250; 251; 252; 253; 254; 255].
Proof. reflexivity. Qed.
Example conf_case_ignorable : forall u, members (case_ignorable u) = [39; 46; 58; 94; 96; 168; 173; 175; 180; 183; 184].
Proof. reflexivity. Qed.
Example conf_upper : forall u, changed (to_upper u) = [(97, [65]); (98, [66]); (99, [67]); (100, [68]); (101, [69]); (102, [70]); (103, [71]); (104, [72]); (105, [73]); (106, [74]); (107, [75]); (108, [76]); (109, [77]); (110, [78]); (111, [79]); (112, [80]); (113, [81]); (114, [82]); (115, [83]); (116, [84]); (117, [85]); (118, [86]); (119, [87]); (120, [88]); (121, [89]); (122, [90]); (181, [924]); (223, [83; 83]); (224, [192]); (225, [193]); (226, [194]); (227, [195]); (228, [196]); (229, [197]); (230, [198]); (231, [199]); (232, [200]); (233, [201]); (234, [202]); (235, [203]); (236, [204]); (237, [205]); (238, [206]); (239, [207]); (240, [208]); (241, [209]); (242, [210]); (243, [211]); (244, [212]); (245, [213]); (246, [214]); (248, [216]); (249, [217]); (250, [218]); (251, [219]); (252, [220]); (253, [221]); (254, [222]); (255, [376])].
Proof. reflexivity. Qed.
Example conf_lower : forall u, changed (to_lower u) = [(65, [97]); (66, [98]); (67, [99]); (68, [100]); (69, [101]); (70, [102]); (71, [103]); (72, [104]); (73, [105]); (74, [106]); (75, [107]); (76, [108]); (77, [109]); (78, [110]); (79, [111]); (80, [112]); (81, [113]); (82, [114]); (83, [115]); (84, [116]); (85, [117]); (86, [118]); (87, [119]); (88, [120]); (89, [121]); (90, [122]); (192, [224]); (193, [225]); (194, [226]); (195, [227]); (196, [228]); (197, [229]); (198, [230]); (199, [231]); (200, [232]); (201, [233]); (202, [234]); (203, [235]); (204, [236]); (205, [237]); (206, [238]); (207, [239]); (208, [240]); (209, [241]); (210, [242]); (211, [243]); (212, [244]); (213, [245]); (214, [246]); (216, [248]); (217, [249]); (218, [250]); (219, [251]); (220, [252]); (221, [253]); (222, [254])].
Proof. reflexivity. Qed.
(** From U+0100 on the tables are the oracle's. *)
Example conf_high : forall u c, 256 <= c ->
  is_alphabetic u c = hi_alphabetic u c /\ is_numeric u c = hi_numeric u c /\ is_lowercase u c = hi_lowercase u c
  /\ is_whitespace u c = hi_whitespace u c /\ cased u c = hi_cased u c /\ case_ignorable u c = hi_case_ignorable u c
  /\ to_upper u c = hi_upper u c /\ to_lower u c = hi_lower u c.
Proof.
  intros u c H. assert (E : (c <? 256) = false) by (now apply N.ltb_ge).
  unfold is_alphabetic, is_numeric, is_lowercase, is_whitespace, cased, case_ignorable, to_upper, to_lower. rewrite E. now repeat split.
Qed.
