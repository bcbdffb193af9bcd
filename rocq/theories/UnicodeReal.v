(** * An instance of [Unicode] close to the real tables (generated by
    tools/gen_unicode.py from Python's unicodedata, Unicode 14.0.0).

    It is not part of the trusted base: no theorem depends on it.  It shows that
    the hypotheses [UnicodeOK] and [LowerOK] hold of real tables. *)
From Verif Require Import Base UnicodeM DaitchMokotoff BmLanguages BmRegex BmRule BmEngine Spec_bm Spec_bm_engine.
Local Open Scope N_scope.

(** A run of a case mapping: first character, number of characters, step, image
    of the first character. *)
Definition run := (N * N * N * N)%type.
Definition run_has (c : N) (r : run) : bool :=
  let '(lo, n, step, _) := r in (lo <=? c) && (c <? lo + n * step) && ((c - lo) mod step =? 0).
Definition run_map (c : N) (r : run) : N := let '(lo, _, _, t) := r in t + (c - lo).
Fixpoint in_ranges (c : N) (l : list (N * N)) : bool :=
  match l with [] => false | (a, b) :: r => if c <? a then false else (c <=? b) || in_ranges c r end.
Fixpoint special (c : N) (l : list (N * ustr)) : option ustr :=
  match l with [] => None | (k, v) :: r => if k =? c then Some v else special c r end.
Definition case_map (sp : list (N * ustr)) (runs : list run) (c : N) : ustr :=
  match special c sp with
  | Some v => v
  | None => match find (run_has c) runs with Some r => [run_map c r] | None => [c] end
  end.

Definition lower_runs : list run :=
  [(256, 24, 2, 257); (306, 3, 2, 307); (313, 8, 2, 314); (330, 23, 2, 331); (376, 1, 1, 255);
   (377, 3, 2, 378); (385, 1, 1, 595); (386, 2, 2, 387); (390, 1, 1, 596); (391, 1, 1, 392);
   (393, 2, 1, 598); (395, 1, 1, 396); (398, 1, 1, 477); (399, 1, 1, 601); (400, 1, 1, 603);
   (401, 1, 1, 402); (403, 1, 1, 608); (404, 1, 1, 611); (406, 1, 1, 617); (407, 1, 1, 616);
   (408, 1, 1, 409); (412, 1, 1, 623); (413, 1, 1, 626); (415, 1, 1, 629); (416, 3, 2, 417);
   (422, 1, 1, 640); (423, 1, 1, 424); (425, 1, 1, 643); (428, 1, 1, 429); (430, 1, 1, 648);
   (431, 1, 1, 432); (433, 2, 1, 650); (435, 2, 2, 436); (439, 1, 1, 658); (440, 1, 1, 441);
   (444, 1, 1, 445); (452, 1, 1, 454); (453, 1, 1, 454); (455, 1, 1, 457); (456, 1, 1, 457);
   (458, 1, 1, 460); (459, 9, 2, 460); (478, 9, 2, 479); (497, 1, 1, 499); (498, 2, 2, 499);
   (502, 1, 1, 405); (503, 1, 1, 447); (504, 20, 2, 505); (544, 1, 1, 414); (546, 9, 2, 547);
   (570, 1, 1, 11365); (571, 1, 1, 572); (573, 1, 1, 410); (574, 1, 1, 11366); (577, 1, 1, 578);
   (579, 1, 1, 384); (580, 1, 1, 649); (581, 1, 1, 652); (582, 5, 2, 583); (880, 2, 2, 881);
   (886, 1, 1, 887); (895, 1, 1, 1011); (902, 1, 1, 940); (904, 3, 1, 941); (908, 1, 1, 972);
   (910, 2, 1, 973); (913, 17, 1, 945); (931, 9, 1, 963); (975, 1, 1, 983); (984, 12, 2, 985);
   (1012, 1, 1, 952); (1015, 1, 1, 1016); (1017, 1, 1, 1010); (1018, 1, 1, 1019); (1021, 3, 1, 891);
   (1024, 16, 1, 1104); (1040, 32, 1, 1072); (1120, 17, 2, 1121); (1162, 27, 2, 1163); (1216, 1, 1, 1231);
   (1217, 7, 2, 1218); (1232, 48, 2, 1233); (1329, 38, 1, 1377); (4256, 38, 1, 11520); (4295, 1, 1, 11559);
   (4301, 1, 1, 11565); (5024, 80, 1, 43888); (5104, 6, 1, 5112); (7312, 43, 1, 4304); (7357, 3, 1, 4349);
   (7680, 75, 2, 7681); (7838, 1, 1, 223); (7840, 48, 2, 7841); (7944, 8, 1, 7936); (7960, 6, 1, 7952);
   (7976, 8, 1, 7968); (7992, 8, 1, 7984); (8008, 6, 1, 8000); (8025, 4, 2, 8017); (8040, 8, 1, 8032);
   (8072, 8, 1, 8064); (8088, 8, 1, 8080); (8104, 8, 1, 8096); (8120, 2, 1, 8112); (8122, 2, 1, 8048);
   (8124, 1, 1, 8115); (8136, 4, 1, 8050); (8140, 1, 1, 8131); (8152, 2, 1, 8144); (8154, 2, 1, 8054);
   (8168, 2, 1, 8160); (8170, 2, 1, 8058); (8172, 1, 1, 8165); (8184, 2, 1, 8056); (8186, 2, 1, 8060);
   (8188, 1, 1, 8179); (8486, 1, 1, 969); (8490, 1, 1, 107); (8491, 1, 1, 229); (8498, 1, 1, 8526);
   (8544, 16, 1, 8560); (8579, 1, 1, 8580); (9398, 26, 1, 9424); (11264, 48, 1, 11312); (11360, 1, 1, 11361);
   (11362, 1, 1, 619); (11363, 1, 1, 7549); (11364, 1, 1, 637); (11367, 3, 2, 11368); (11373, 1, 1, 593);
   (11374, 1, 1, 625); (11375, 1, 1, 592); (11376, 1, 1, 594); (11378, 1, 1, 11379); (11381, 1, 1, 11382);
   (11390, 2, 1, 575); (11392, 50, 2, 11393); (11499, 2, 2, 11500); (11506, 1, 1, 11507); (42560, 23, 2, 42561);
   (42624, 14, 2, 42625); (42786, 7, 2, 42787); (42802, 31, 2, 42803); (42873, 2, 2, 42874); (42877, 1, 1, 7545);
   (42878, 5, 2, 42879); (42891, 1, 1, 42892); (42893, 1, 1, 613); (42896, 2, 2, 42897); (42902, 10, 2, 42903);
   (42922, 1, 1, 614); (42923, 1, 1, 604); (42924, 1, 1, 609); (42925, 1, 1, 620); (42926, 1, 1, 618);
   (42928, 1, 1, 670); (42929, 1, 1, 647); (42930, 1, 1, 669); (42931, 1, 1, 43859); (42932, 8, 2, 42933);
   (42948, 1, 1, 42900); (42949, 1, 1, 642); (42950, 1, 1, 7566); (42951, 2, 2, 42952); (42960, 1, 1, 42961);
   (42966, 2, 2, 42967); (42997, 1, 1, 42998); (65313, 26, 1, 65345); (66560, 40, 1, 66600); (66736, 36, 1, 66776);
   (66928, 19, 2, 66967); (66929, 10, 1, 66968); (66941, 14, 1, 66980); (66957, 6, 1, 66996); (66965, 1, 1, 67004);
   (68736, 51, 1, 68800); (71840, 32, 1, 71872); (93760, 32, 1, 93792); (125184, 34, 1, 125218)].

Definition lower_special : list (N * ustr) :=
  [(304, [105; 775])].

Definition upper_runs : list run :=
  [(257, 24, 2, 256); (305, 1, 1, 73); (307, 3, 2, 306); (314, 8, 2, 313); (331, 23, 2, 330);
   (378, 3, 2, 377); (383, 1, 1, 83); (384, 1, 1, 579); (387, 2, 2, 386); (392, 1, 1, 391);
   (396, 1, 1, 395); (402, 1, 1, 401); (405, 1, 1, 502); (409, 1, 1, 408); (410, 1, 1, 573);
   (414, 1, 1, 544); (417, 3, 2, 416); (424, 1, 1, 423); (429, 1, 1, 428); (432, 1, 1, 431);
   (436, 2, 2, 435); (441, 1, 1, 440); (445, 1, 1, 444); (447, 1, 1, 503); (453, 1, 1, 452);
   (454, 1, 1, 452); (456, 1, 1, 455); (457, 1, 1, 455); (459, 1, 1, 458); (460, 1, 1, 458);
   (462, 8, 2, 461); (477, 1, 1, 398); (479, 9, 2, 478); (498, 1, 1, 497); (499, 1, 1, 497);
   (501, 1, 1, 500); (505, 20, 2, 504); (547, 9, 2, 546); (572, 1, 1, 571); (575, 2, 1, 11390);
   (578, 1, 1, 577); (583, 5, 2, 582); (592, 1, 1, 11375); (593, 1, 1, 11373); (594, 1, 1, 11376);
   (595, 1, 1, 385); (596, 1, 1, 390); (598, 2, 1, 393); (601, 1, 1, 399); (603, 1, 1, 400);
   (604, 1, 1, 42923); (608, 1, 1, 403); (609, 1, 1, 42924); (611, 1, 1, 404); (613, 1, 1, 42893);
   (614, 1, 1, 42922); (616, 1, 1, 407); (617, 1, 1, 406); (618, 1, 1, 42926); (619, 1, 1, 11362);
   (620, 1, 1, 42925); (623, 1, 1, 412); (625, 1, 1, 11374); (626, 1, 1, 413); (629, 1, 1, 415);
   (637, 1, 1, 11364); (640, 1, 1, 422); (642, 1, 1, 42949); (643, 1, 1, 425); (647, 1, 1, 42929);
   (648, 1, 1, 430); (649, 1, 1, 580); (650, 2, 1, 433); (652, 1, 1, 581); (658, 1, 1, 439);
   (669, 1, 1, 42930); (670, 1, 1, 42928); (837, 1, 1, 921); (881, 2, 2, 880); (887, 1, 1, 886);
   (891, 3, 1, 1021); (940, 1, 1, 902); (941, 3, 1, 904); (945, 17, 1, 913); (962, 1, 1, 931);
   (963, 9, 1, 931); (972, 1, 1, 908); (973, 2, 1, 910); (976, 1, 1, 914); (977, 1, 1, 920);
   (981, 1, 1, 934); (982, 1, 1, 928); (983, 1, 1, 975); (985, 12, 2, 984); (1008, 1, 1, 922);
   (1009, 1, 1, 929); (1010, 1, 1, 1017); (1011, 1, 1, 895); (1013, 1, 1, 917); (1016, 1, 1, 1015);
   (1019, 1, 1, 1018); (1072, 32, 1, 1040); (1104, 16, 1, 1024); (1121, 17, 2, 1120); (1163, 27, 2, 1162);
   (1218, 7, 2, 1217); (1231, 1, 1, 1216); (1233, 48, 2, 1232); (1377, 38, 1, 1329); (4304, 43, 1, 7312);
   (4349, 3, 1, 7357); (5112, 6, 1, 5104); (7296, 1, 1, 1042); (7297, 1, 1, 1044); (7298, 1, 1, 1054);
   (7299, 2, 1, 1057); (7301, 1, 1, 1058); (7302, 1, 1, 1066); (7303, 1, 1, 1122); (7304, 1, 1, 42570);
   (7545, 1, 1, 42877); (7549, 1, 1, 11363); (7566, 1, 1, 42950); (7681, 75, 2, 7680); (7835, 1, 1, 7776);
   (7841, 48, 2, 7840); (7936, 8, 1, 7944); (7952, 6, 1, 7960); (7968, 8, 1, 7976); (7984, 8, 1, 7992);
   (8000, 6, 1, 8008); (8017, 4, 2, 8025); (8032, 8, 1, 8040); (8048, 2, 1, 8122); (8050, 4, 1, 8136);
   (8054, 2, 1, 8154); (8056, 2, 1, 8184); (8058, 2, 1, 8170); (8060, 2, 1, 8186); (8112, 2, 1, 8120);
   (8126, 1, 1, 921); (8144, 2, 1, 8152); (8160, 2, 1, 8168); (8165, 1, 1, 8172); (8526, 1, 1, 8498);
   (8560, 16, 1, 8544); (8580, 1, 1, 8579); (9424, 26, 1, 9398); (11312, 48, 1, 11264); (11361, 1, 1, 11360);
   (11365, 1, 1, 570); (11366, 1, 1, 574); (11368, 3, 2, 11367); (11379, 1, 1, 11378); (11382, 1, 1, 11381);
   (11393, 50, 2, 11392); (11500, 2, 2, 11499); (11507, 1, 1, 11506); (11520, 38, 1, 4256); (11559, 1, 1, 4295);
   (11565, 1, 1, 4301); (42561, 23, 2, 42560); (42625, 14, 2, 42624); (42787, 7, 2, 42786); (42803, 31, 2, 42802);
   (42874, 2, 2, 42873); (42879, 5, 2, 42878); (42892, 1, 1, 42891); (42897, 2, 2, 42896); (42900, 1, 1, 42948);
   (42903, 10, 2, 42902); (42933, 8, 2, 42932); (42952, 2, 2, 42951); (42961, 1, 1, 42960); (42967, 2, 2, 42966);
   (42998, 1, 1, 42997); (43859, 1, 1, 42931); (43888, 80, 1, 5024); (65345, 26, 1, 65313); (66600, 40, 1, 66560);
   (66776, 36, 1, 66736); (66967, 19, 2, 66928); (66968, 10, 1, 66929); (66980, 14, 1, 66941); (66996, 6, 1, 66957);
   (67004, 1, 1, 66965); (68800, 51, 1, 68736); (71872, 32, 1, 71840); (93792, 32, 1, 93760); (125218, 34, 1, 125184)].

Definition upper_special : list (N * ustr) :=
  [(329, [700; 78]); (496, [74; 780]); (912, [921; 776; 769]); (944, [933; 776; 769]); (1415, [1333; 1362]);
   (7830, [72; 817]); (7831, [84; 776]); (7832, [87; 778]); (7833, [89; 778]); (7834, [65; 702]);
   (8016, [933; 787]); (8018, [933; 787; 768]); (8020, [933; 787; 769]); (8022, [933; 787; 834]); (8064, [7944; 921]);
   (8065, [7945; 921]); (8066, [7946; 921]); (8067, [7947; 921]); (8068, [7948; 921]); (8069, [7949; 921]);
   (8070, [7950; 921]); (8071, [7951; 921]); (8072, [7944; 921]); (8073, [7945; 921]); (8074, [7946; 921]);
   (8075, [7947; 921]); (8076, [7948; 921]); (8077, [7949; 921]); (8078, [7950; 921]); (8079, [7951; 921]);
   (8080, [7976; 921]); (8081, [7977; 921]); (8082, [7978; 921]); (8083, [7979; 921]); (8084, [7980; 921]);
   (8085, [7981; 921]); (8086, [7982; 921]); (8087, [7983; 921]); (8088, [7976; 921]); (8089, [7977; 921]);
   (8090, [7978; 921]); (8091, [7979; 921]); (8092, [7980; 921]); (8093, [7981; 921]); (8094, [7982; 921]);
   (8095, [7983; 921]); (8096, [8040; 921]); (8097, [8041; 921]); (8098, [8042; 921]); (8099, [8043; 921]);
   (8100, [8044; 921]); (8101, [8045; 921]); (8102, [8046; 921]); (8103, [8047; 921]); (8104, [8040; 921]);
   (8105, [8041; 921]); (8106, [8042; 921]); (8107, [8043; 921]); (8108, [8044; 921]); (8109, [8045; 921]);
   (8110, [8046; 921]); (8111, [8047; 921]); (8114, [8122; 921]); (8115, [913; 921]); (8116, [902; 921]);
   (8118, [913; 834]); (8119, [913; 834; 921]); (8124, [913; 921]); (8130, [8138; 921]); (8131, [919; 921]);
   (8132, [905; 921]); (8134, [919; 834]); (8135, [919; 834; 921]); (8140, [919; 921]); (8146, [921; 776; 768]);
   (8147, [921; 776; 769]); (8150, [921; 834]); (8151, [921; 776; 834]); (8162, [933; 776; 768]); (8163, [933; 776; 769]);
   (8164, [929; 787]); (8166, [933; 834]); (8167, [933; 776; 834]); (8178, [8186; 921]); (8179, [937; 921]);
   (8180, [911; 921]); (8182, [937; 834]); (8183, [937; 834; 921]); (8188, [937; 921]); (64256, [70; 70]);
   (64257, [70; 73]); (64258, [70; 76]); (64259, [70; 70; 73]); (64260, [70; 70; 76]); (64261, [83; 84]);
   (64262, [83; 84]); (64275, [1348; 1350]); (64276, [1348; 1333]); (64277, [1348; 1339]); (64278, [1358; 1350]);
   (64279, [1348; 1341])].

(** General categories L* and Nl (the property Alphabetic also has Other_Alphabetic). *)
Definition alphabetic_ranges : list (N * N) :=
  [(256, 705); (710, 721); (736, 740); (748, 748); (750, 750); (880, 884); (886, 887); (890, 893);
   (895, 895); (902, 902); (904, 906); (908, 908); (910, 929); (931, 1013); (1015, 1153); (1162, 1327);
   (1329, 1366); (1369, 1369); (1376, 1416); (1488, 1514); (1519, 1522); (1568, 1610); (1646, 1647); (1649, 1747);
   (1749, 1749); (1765, 1766); (1774, 1775); (1786, 1788); (1791, 1791); (1808, 1808); (1810, 1839); (1869, 1957);
   (1969, 1969); (1994, 2026); (2036, 2037); (2042, 2042); (2048, 2069); (2074, 2074); (2084, 2084); (2088, 2088);
   (2112, 2136); (2144, 2154); (2160, 2183); (2185, 2190); (2208, 2249); (2308, 2361); (2365, 2365); (2384, 2384);
   (2392, 2401); (2417, 2432); (2437, 2444); (2447, 2448); (2451, 2472); (2474, 2480); (2482, 2482); (2486, 2489);
   (2493, 2493); (2510, 2510); (2524, 2525); (2527, 2529); (2544, 2545); (2556, 2556); (2565, 2570); (2575, 2576);
   (2579, 2600); (2602, 2608); (2610, 2611); (2613, 2614); (2616, 2617); (2649, 2652); (2654, 2654); (2674, 2676);
   (2693, 2701); (2703, 2705); (2707, 2728); (2730, 2736); (2738, 2739); (2741, 2745); (2749, 2749); (2768, 2768);
   (2784, 2785); (2809, 2809); (2821, 2828); (2831, 2832); (2835, 2856); (2858, 2864); (2866, 2867); (2869, 2873);
   (2877, 2877); (2908, 2909); (2911, 2913); (2929, 2929); (2947, 2947); (2949, 2954); (2958, 2960); (2962, 2965);
   (2969, 2970); (2972, 2972); (2974, 2975); (2979, 2980); (2984, 2986); (2990, 3001); (3024, 3024); (3077, 3084);
   (3086, 3088); (3090, 3112); (3114, 3129); (3133, 3133); (3160, 3162); (3165, 3165); (3168, 3169); (3200, 3200);
   (3205, 3212); (3214, 3216); (3218, 3240); (3242, 3251); (3253, 3257); (3261, 3261); (3293, 3294); (3296, 3297);
   (3313, 3314); (3332, 3340); (3342, 3344); (3346, 3386); (3389, 3389); (3406, 3406); (3412, 3414); (3423, 3425);
   (3450, 3455); (3461, 3478); (3482, 3505); (3507, 3515); (3517, 3517); (3520, 3526); (3585, 3632); (3634, 3635);
   (3648, 3654); (3713, 3714); (3716, 3716); (3718, 3722); (3724, 3747); (3749, 3749); (3751, 3760); (3762, 3763);
   (3773, 3773); (3776, 3780); (3782, 3782); (3804, 3807); (3840, 3840); (3904, 3911); (3913, 3948); (3976, 3980);
   (4096, 4138); (4159, 4159); (4176, 4181); (4186, 4189); (4193, 4193); (4197, 4198); (4206, 4208); (4213, 4225);
   (4238, 4238); (4256, 4293); (4295, 4295); (4301, 4301); (4304, 4346); (4348, 4680); (4682, 4685); (4688, 4694);
   (4696, 4696); (4698, 4701); (4704, 4744); (4746, 4749); (4752, 4784); (4786, 4789); (4792, 4798); (4800, 4800);
   (4802, 4805); (4808, 4822); (4824, 4880); (4882, 4885); (4888, 4954); (4992, 5007); (5024, 5109); (5112, 5117);
   (5121, 5740); (5743, 5759); (5761, 5786); (5792, 5866); (5870, 5880); (5888, 5905); (5919, 5937); (5952, 5969);
   (5984, 5996); (5998, 6000); (6016, 6067); (6103, 6103); (6108, 6108); (6176, 6264); (6272, 6276); (6279, 6312);
   (6314, 6314); (6320, 6389); (6400, 6430); (6480, 6509); (6512, 6516); (6528, 6571); (6576, 6601); (6656, 6678);
   (6688, 6740); (6823, 6823); (6917, 6963); (6981, 6988); (7043, 7072); (7086, 7087); (7098, 7141); (7168, 7203);
   (7245, 7247); (7258, 7293); (7296, 7304); (7312, 7354); (7357, 7359); (7401, 7404); (7406, 7411); (7413, 7414);
   (7418, 7418); (7424, 7615); (7680, 7957); (7960, 7965); (7968, 8005); (8008, 8013); (8016, 8023); (8025, 8025);
   (8027, 8027); (8029, 8029); (8031, 8061); (8064, 8116); (8118, 8124); (8126, 8126); (8130, 8132); (8134, 8140);
   (8144, 8147); (8150, 8155); (8160, 8172); (8178, 8180); (8182, 8188); (8305, 8305); (8319, 8319); (8336, 8348);
   (8450, 8450); (8455, 8455); (8458, 8467); (8469, 8469); (8473, 8477); (8484, 8484); (8486, 8486); (8488, 8488);
   (8490, 8493); (8495, 8505); (8508, 8511); (8517, 8521); (8526, 8526); (8544, 8584); (11264, 11492); (11499, 11502);
   (11506, 11507); (11520, 11557); (11559, 11559); (11565, 11565); (11568, 11623); (11631, 11631); (11648, 11670); (11680, 11686);
   (11688, 11694); (11696, 11702); (11704, 11710); (11712, 11718); (11720, 11726); (11728, 11734); (11736, 11742); (11823, 11823);
   (12293, 12295); (12321, 12329); (12337, 12341); (12344, 12348); (12353, 12438); (12445, 12447); (12449, 12538); (12540, 12543);
   (12549, 12591); (12593, 12686); (12704, 12735); (12784, 12799); (13312, 19903); (19968, 42124); (42192, 42237); (42240, 42508);
   (42512, 42527); (42538, 42539); (42560, 42606); (42623, 42653); (42656, 42735); (42775, 42783); (42786, 42888); (42891, 42954);
   (42960, 42961); (42963, 42963); (42965, 42969); (42994, 43009); (43011, 43013); (43015, 43018); (43020, 43042); (43072, 43123);
   (43138, 43187); (43250, 43255); (43259, 43259); (43261, 43262); (43274, 43301); (43312, 43334); (43360, 43388); (43396, 43442);
   (43471, 43471); (43488, 43492); (43494, 43503); (43514, 43518); (43520, 43560); (43584, 43586); (43588, 43595); (43616, 43638);
   (43642, 43642); (43646, 43695); (43697, 43697); (43701, 43702); (43705, 43709); (43712, 43712); (43714, 43714); (43739, 43741);
   (43744, 43754); (43762, 43764); (43777, 43782); (43785, 43790); (43793, 43798); (43808, 43814); (43816, 43822); (43824, 43866);
   (43868, 43881); (43888, 44002); (44032, 55203); (55216, 55238); (55243, 55291); (63744, 64109); (64112, 64217); (64256, 64262);
   (64275, 64279); (64285, 64285); (64287, 64296); (64298, 64310); (64312, 64316); (64318, 64318); (64320, 64321); (64323, 64324);
   (64326, 64433); (64467, 64829); (64848, 64911); (64914, 64967); (65008, 65019); (65136, 65140); (65142, 65276); (65313, 65338);
   (65345, 65370); (65382, 65470); (65474, 65479); (65482, 65487); (65490, 65495); (65498, 65500); (65536, 65547); (65549, 65574);
   (65576, 65594); (65596, 65597); (65599, 65613); (65616, 65629); (65664, 65786); (65856, 65908); (66176, 66204); (66208, 66256);
   (66304, 66335); (66349, 66378); (66384, 66421); (66432, 66461); (66464, 66499); (66504, 66511); (66513, 66517); (66560, 66717);
   (66736, 66771); (66776, 66811); (66816, 66855); (66864, 66915); (66928, 66938); (66940, 66954); (66956, 66962); (66964, 66965);
   (66967, 66977); (66979, 66993); (66995, 67001); (67003, 67004); (67072, 67382); (67392, 67413); (67424, 67431); (67456, 67461);
   (67463, 67504); (67506, 67514); (67584, 67589); (67592, 67592); (67594, 67637); (67639, 67640); (67644, 67644); (67647, 67669);
   (67680, 67702); (67712, 67742); (67808, 67826); (67828, 67829); (67840, 67861); (67872, 67897); (67968, 68023); (68030, 68031);
   (68096, 68096); (68112, 68115); (68117, 68119); (68121, 68149); (68192, 68220); (68224, 68252); (68288, 68295); (68297, 68324);
   (68352, 68405); (68416, 68437); (68448, 68466); (68480, 68497); (68608, 68680); (68736, 68786); (68800, 68850); (68864, 68899);
   (69248, 69289); (69296, 69297); (69376, 69404); (69415, 69415); (69424, 69445); (69488, 69505); (69552, 69572); (69600, 69622);
   (69635, 69687); (69745, 69746); (69749, 69749); (69763, 69807); (69840, 69864); (69891, 69926); (69956, 69956); (69959, 69959);
   (69968, 70002); (70006, 70006); (70019, 70066); (70081, 70084); (70106, 70106); (70108, 70108); (70144, 70161); (70163, 70187);
   (70272, 70278); (70280, 70280); (70282, 70285); (70287, 70301); (70303, 70312); (70320, 70366); (70405, 70412); (70415, 70416);
   (70419, 70440); (70442, 70448); (70450, 70451); (70453, 70457); (70461, 70461); (70480, 70480); (70493, 70497); (70656, 70708);
   (70727, 70730); (70751, 70753); (70784, 70831); (70852, 70853); (70855, 70855); (71040, 71086); (71128, 71131); (71168, 71215);
   (71236, 71236); (71296, 71338); (71352, 71352); (71424, 71450); (71488, 71494); (71680, 71723); (71840, 71903); (71935, 71942);
   (71945, 71945); (71948, 71955); (71957, 71958); (71960, 71983); (71999, 71999); (72001, 72001); (72096, 72103); (72106, 72144);
   (72161, 72161); (72163, 72163); (72192, 72192); (72203, 72242); (72250, 72250); (72272, 72272); (72284, 72329); (72349, 72349);
   (72368, 72440); (72704, 72712); (72714, 72750); (72768, 72768); (72818, 72847); (72960, 72966); (72968, 72969); (72971, 73008);
   (73030, 73030); (73056, 73061); (73063, 73064); (73066, 73097); (73112, 73112); (73440, 73458); (73648, 73648); (73728, 74649);
   (74752, 74862); (74880, 75075); (77712, 77808); (77824, 78894); (82944, 83526); (92160, 92728); (92736, 92766); (92784, 92862);
   (92880, 92909); (92928, 92975); (92992, 92995); (93027, 93047); (93053, 93071); (93760, 93823); (93952, 94026); (94032, 94032);
   (94099, 94111); (94176, 94177); (94179, 94179); (94208, 100343); (100352, 101589); (101632, 101640); (110576, 110579); (110581, 110587);
   (110589, 110590); (110592, 110882); (110928, 110930); (110948, 110951); (110960, 111355); (113664, 113770); (113776, 113788); (113792, 113800);
   (113808, 113817); (119808, 119892); (119894, 119964); (119966, 119967); (119970, 119970); (119973, 119974); (119977, 119980); (119982, 119993);
   (119995, 119995); (119997, 120003); (120005, 120069); (120071, 120074); (120077, 120084); (120086, 120092); (120094, 120121); (120123, 120126);
   (120128, 120132); (120134, 120134); (120138, 120144); (120146, 120485); (120488, 120512); (120514, 120538); (120540, 120570); (120572, 120596);
   (120598, 120628); (120630, 120654); (120656, 120686); (120688, 120712); (120714, 120744); (120746, 120770); (120772, 120779); (122624, 122654);
   (123136, 123180); (123191, 123197); (123214, 123214); (123536, 123565); (123584, 123627); (124896, 124902); (124904, 124907); (124909, 124910);
   (124912, 124926); (124928, 125124); (125184, 125251); (125259, 125259); (126464, 126467); (126469, 126495); (126497, 126498); (126500, 126500);
   (126503, 126503); (126505, 126514); (126516, 126519); (126521, 126521); (126523, 126523); (126530, 126530); (126535, 126535); (126537, 126537);
   (126539, 126539); (126541, 126543); (126545, 126546); (126548, 126548); (126551, 126551); (126553, 126553); (126555, 126555); (126557, 126557);
   (126559, 126559); (126561, 126562); (126564, 126564); (126567, 126570); (126572, 126578); (126580, 126583); (126585, 126588); (126590, 126590);
   (126592, 126601); (126603, 126619); (126625, 126627); (126629, 126633); (126635, 126651); (131072, 173791); (173824, 177976); (177984, 178205);
   (178208, 183969); (183984, 191456); (194560, 195101); (196608, 201546)].

(** General categories N*. *)
Definition numeric_ranges : list (N * N) :=
  [(1632, 1641); (1776, 1785); (1984, 1993); (2406, 2415); (2534, 2543); (2548, 2553); (2662, 2671); (2790, 2799);
   (2918, 2927); (2930, 2935); (3046, 3058); (3174, 3183); (3192, 3198); (3302, 3311); (3416, 3422); (3430, 3448);
   (3558, 3567); (3664, 3673); (3792, 3801); (3872, 3891); (4160, 4169); (4240, 4249); (4969, 4988); (5870, 5872);
   (6112, 6121); (6128, 6137); (6160, 6169); (6470, 6479); (6608, 6618); (6784, 6793); (6800, 6809); (6992, 7001);
   (7088, 7097); (7232, 7241); (7248, 7257); (8304, 8304); (8308, 8313); (8320, 8329); (8528, 8578); (8581, 8585);
   (9312, 9371); (9450, 9471); (10102, 10131); (11517, 11517); (12295, 12295); (12321, 12329); (12344, 12346); (12690, 12693);
   (12832, 12841); (12872, 12879); (12881, 12895); (12928, 12937); (12977, 12991); (42528, 42537); (42726, 42735); (43056, 43061);
   (43216, 43225); (43264, 43273); (43472, 43481); (43504, 43513); (43600, 43609); (44016, 44025); (65296, 65305); (65799, 65843);
   (65856, 65912); (65930, 65931); (66273, 66299); (66336, 66339); (66369, 66369); (66378, 66378); (66513, 66517); (66720, 66729);
   (67672, 67679); (67705, 67711); (67751, 67759); (67835, 67839); (67862, 67867); (68028, 68029); (68032, 68047); (68050, 68095);
   (68160, 68168); (68221, 68222); (68253, 68255); (68331, 68335); (68440, 68447); (68472, 68479); (68521, 68527); (68858, 68863);
   (68912, 68921); (69216, 69246); (69405, 69414); (69457, 69460); (69573, 69579); (69714, 69743); (69872, 69881); (69942, 69951);
   (70096, 70105); (70113, 70132); (70384, 70393); (70736, 70745); (70864, 70873); (71248, 71257); (71360, 71369); (71472, 71483);
   (71904, 71922); (72016, 72025); (72784, 72812); (73040, 73049); (73120, 73129); (73664, 73684); (74752, 74862); (92768, 92777);
   (92864, 92873); (93008, 93017); (93019, 93025); (93824, 93846); (119520, 119539); (119648, 119672); (120782, 120831); (123200, 123209);
   (123632, 123641); (125127, 125135); (125264, 125273); (126065, 126123); (126125, 126127); (126129, 126132); (126209, 126253); (126255, 126269);
   (127232, 127244); (130032, 130041)].

(** [str.islower]. *)
Definition lowercase_ranges : list (N * N) :=
  [(257, 257); (259, 259); (261, 261); (263, 263); (265, 265); (267, 267); (269, 269); (271, 271);
   (273, 273); (275, 275); (277, 277); (279, 279); (281, 281); (283, 283); (285, 285); (287, 287);
   (289, 289); (291, 291); (293, 293); (295, 295); (297, 297); (299, 299); (301, 301); (303, 303);
   (305, 305); (307, 307); (309, 309); (311, 312); (314, 314); (316, 316); (318, 318); (320, 320);
   (322, 322); (324, 324); (326, 326); (328, 329); (331, 331); (333, 333); (335, 335); (337, 337);
   (339, 339); (341, 341); (343, 343); (345, 345); (347, 347); (349, 349); (351, 351); (353, 353);
   (355, 355); (357, 357); (359, 359); (361, 361); (363, 363); (365, 365); (367, 367); (369, 369);
   (371, 371); (373, 373); (375, 375); (378, 378); (380, 380); (382, 384); (387, 387); (389, 389);
   (392, 392); (396, 397); (402, 402); (405, 405); (409, 411); (414, 414); (417, 417); (419, 419);
   (421, 421); (424, 424); (426, 427); (429, 429); (432, 432); (436, 436); (438, 438); (441, 442);
   (445, 447); (454, 454); (457, 457); (460, 460); (462, 462); (464, 464); (466, 466); (468, 468);
   (470, 470); (472, 472); (474, 474); (476, 477); (479, 479); (481, 481); (483, 483); (485, 485);
   (487, 487); (489, 489); (491, 491); (493, 493); (495, 496); (499, 499); (501, 501); (505, 505);
   (507, 507); (509, 509); (511, 511); (513, 513); (515, 515); (517, 517); (519, 519); (521, 521);
   (523, 523); (525, 525); (527, 527); (529, 529); (531, 531); (533, 533); (535, 535); (537, 537);
   (539, 539); (541, 541); (543, 543); (545, 545); (547, 547); (549, 549); (551, 551); (553, 553);
   (555, 555); (557, 557); (559, 559); (561, 561); (563, 569); (572, 572); (575, 576); (578, 578);
   (583, 583); (585, 585); (587, 587); (589, 589); (591, 659); (661, 696); (704, 705); (736, 740);
   (837, 837); (881, 881); (883, 883); (887, 887); (890, 893); (912, 912); (940, 974); (976, 977);
   (981, 983); (985, 985); (987, 987); (989, 989); (991, 991); (993, 993); (995, 995); (997, 997);
   (999, 999); (1001, 1001); (1003, 1003); (1005, 1005); (1007, 1011); (1013, 1013); (1016, 1016); (1019, 1020);
   (1072, 1119); (1121, 1121); (1123, 1123); (1125, 1125); (1127, 1127); (1129, 1129); (1131, 1131); (1133, 1133);
   (1135, 1135); (1137, 1137); (1139, 1139); (1141, 1141); (1143, 1143); (1145, 1145); (1147, 1147); (1149, 1149);
   (1151, 1151); (1153, 1153); (1163, 1163); (1165, 1165); (1167, 1167); (1169, 1169); (1171, 1171); (1173, 1173);
   (1175, 1175); (1177, 1177); (1179, 1179); (1181, 1181); (1183, 1183); (1185, 1185); (1187, 1187); (1189, 1189);
   (1191, 1191); (1193, 1193); (1195, 1195); (1197, 1197); (1199, 1199); (1201, 1201); (1203, 1203); (1205, 1205);
   (1207, 1207); (1209, 1209); (1211, 1211); (1213, 1213); (1215, 1215); (1218, 1218); (1220, 1220); (1222, 1222);
   (1224, 1224); (1226, 1226); (1228, 1228); (1230, 1231); (1233, 1233); (1235, 1235); (1237, 1237); (1239, 1239);
   (1241, 1241); (1243, 1243); (1245, 1245); (1247, 1247); (1249, 1249); (1251, 1251); (1253, 1253); (1255, 1255);
   (1257, 1257); (1259, 1259); (1261, 1261); (1263, 1263); (1265, 1265); (1267, 1267); (1269, 1269); (1271, 1271);
   (1273, 1273); (1275, 1275); (1277, 1277); (1279, 1279); (1281, 1281); (1283, 1283); (1285, 1285); (1287, 1287);
   (1289, 1289); (1291, 1291); (1293, 1293); (1295, 1295); (1297, 1297); (1299, 1299); (1301, 1301); (1303, 1303);
   (1305, 1305); (1307, 1307); (1309, 1309); (1311, 1311); (1313, 1313); (1315, 1315); (1317, 1317); (1319, 1319);
   (1321, 1321); (1323, 1323); (1325, 1325); (1327, 1327); (1376, 1416); (4304, 4346); (4349, 4351); (5112, 5117);
   (7296, 7304); (7424, 7615); (7681, 7681); (7683, 7683); (7685, 7685); (7687, 7687); (7689, 7689); (7691, 7691);
   (7693, 7693); (7695, 7695); (7697, 7697); (7699, 7699); (7701, 7701); (7703, 7703); (7705, 7705); (7707, 7707);
   (7709, 7709); (7711, 7711); (7713, 7713); (7715, 7715); (7717, 7717); (7719, 7719); (7721, 7721); (7723, 7723);
   (7725, 7725); (7727, 7727); (7729, 7729); (7731, 7731); (7733, 7733); (7735, 7735); (7737, 7737); (7739, 7739);
   (7741, 7741); (7743, 7743); (7745, 7745); (7747, 7747); (7749, 7749); (7751, 7751); (7753, 7753); (7755, 7755);
   (7757, 7757); (7759, 7759); (7761, 7761); (7763, 7763); (7765, 7765); (7767, 7767); (7769, 7769); (7771, 7771);
   (7773, 7773); (7775, 7775); (7777, 7777); (7779, 7779); (7781, 7781); (7783, 7783); (7785, 7785); (7787, 7787);
   (7789, 7789); (7791, 7791); (7793, 7793); (7795, 7795); (7797, 7797); (7799, 7799); (7801, 7801); (7803, 7803);
   (7805, 7805); (7807, 7807); (7809, 7809); (7811, 7811); (7813, 7813); (7815, 7815); (7817, 7817); (7819, 7819);
   (7821, 7821); (7823, 7823); (7825, 7825); (7827, 7827); (7829, 7837); (7839, 7839); (7841, 7841); (7843, 7843);
   (7845, 7845); (7847, 7847); (7849, 7849); (7851, 7851); (7853, 7853); (7855, 7855); (7857, 7857); (7859, 7859);
   (7861, 7861); (7863, 7863); (7865, 7865); (7867, 7867); (7869, 7869); (7871, 7871); (7873, 7873); (7875, 7875);
   (7877, 7877); (7879, 7879); (7881, 7881); (7883, 7883); (7885, 7885); (7887, 7887); (7889, 7889); (7891, 7891);
   (7893, 7893); (7895, 7895); (7897, 7897); (7899, 7899); (7901, 7901); (7903, 7903); (7905, 7905); (7907, 7907);
   (7909, 7909); (7911, 7911); (7913, 7913); (7915, 7915); (7917, 7917); (7919, 7919); (7921, 7921); (7923, 7923);
   (7925, 7925); (7927, 7927); (7929, 7929); (7931, 7931); (7933, 7933); (7935, 7943); (7952, 7957); (7968, 7975);
   (7984, 7991); (8000, 8005); (8016, 8023); (8032, 8039); (8048, 8061); (8064, 8071); (8080, 8087); (8096, 8103);
   (8112, 8116); (8118, 8119); (8126, 8126); (8130, 8132); (8134, 8135); (8144, 8147); (8150, 8151); (8160, 8167);
   (8178, 8180); (8182, 8183); (8305, 8305); (8319, 8319); (8336, 8348); (8458, 8458); (8462, 8463); (8467, 8467);
   (8495, 8495); (8500, 8500); (8505, 8505); (8508, 8509); (8518, 8521); (8526, 8526); (8560, 8575); (8580, 8580);
   (9424, 9449); (11312, 11359); (11361, 11361); (11365, 11366); (11368, 11368); (11370, 11370); (11372, 11372); (11377, 11377);
   (11379, 11380); (11382, 11389); (11393, 11393); (11395, 11395); (11397, 11397); (11399, 11399); (11401, 11401); (11403, 11403);
   (11405, 11405); (11407, 11407); (11409, 11409); (11411, 11411); (11413, 11413); (11415, 11415); (11417, 11417); (11419, 11419);
   (11421, 11421); (11423, 11423); (11425, 11425); (11427, 11427); (11429, 11429); (11431, 11431); (11433, 11433); (11435, 11435);
   (11437, 11437); (11439, 11439); (11441, 11441); (11443, 11443); (11445, 11445); (11447, 11447); (11449, 11449); (11451, 11451);
   (11453, 11453); (11455, 11455); (11457, 11457); (11459, 11459); (11461, 11461); (11463, 11463); (11465, 11465); (11467, 11467);
   (11469, 11469); (11471, 11471); (11473, 11473); (11475, 11475); (11477, 11477); (11479, 11479); (11481, 11481); (11483, 11483);
   (11485, 11485); (11487, 11487); (11489, 11489); (11491, 11492); (11500, 11500); (11502, 11502); (11507, 11507); (11520, 11557);
   (11559, 11559); (11565, 11565); (42561, 42561); (42563, 42563); (42565, 42565); (42567, 42567); (42569, 42569); (42571, 42571);
   (42573, 42573); (42575, 42575); (42577, 42577); (42579, 42579); (42581, 42581); (42583, 42583); (42585, 42585); (42587, 42587);
   (42589, 42589); (42591, 42591); (42593, 42593); (42595, 42595); (42597, 42597); (42599, 42599); (42601, 42601); (42603, 42603);
   (42605, 42605); (42625, 42625); (42627, 42627); (42629, 42629); (42631, 42631); (42633, 42633); (42635, 42635); (42637, 42637);
   (42639, 42639); (42641, 42641); (42643, 42643); (42645, 42645); (42647, 42647); (42649, 42649); (42651, 42653); (42787, 42787);
   (42789, 42789); (42791, 42791); (42793, 42793); (42795, 42795); (42797, 42797); (42799, 42801); (42803, 42803); (42805, 42805);
   (42807, 42807); (42809, 42809); (42811, 42811); (42813, 42813); (42815, 42815); (42817, 42817); (42819, 42819); (42821, 42821);
   (42823, 42823); (42825, 42825); (42827, 42827); (42829, 42829); (42831, 42831); (42833, 42833); (42835, 42835); (42837, 42837);
   (42839, 42839); (42841, 42841); (42843, 42843); (42845, 42845); (42847, 42847); (42849, 42849); (42851, 42851); (42853, 42853);
   (42855, 42855); (42857, 42857); (42859, 42859); (42861, 42861); (42863, 42872); (42874, 42874); (42876, 42876); (42879, 42879);
   (42881, 42881); (42883, 42883); (42885, 42885); (42887, 42887); (42892, 42892); (42894, 42894); (42897, 42897); (42899, 42901);
   (42903, 42903); (42905, 42905); (42907, 42907); (42909, 42909); (42911, 42911); (42913, 42913); (42915, 42915); (42917, 42917);
   (42919, 42919); (42921, 42921); (42927, 42927); (42933, 42933); (42935, 42935); (42937, 42937); (42939, 42939); (42941, 42941);
   (42943, 42943); (42945, 42945); (42947, 42947); (42952, 42952); (42954, 42954); (42961, 42961); (42963, 42963); (42965, 42965);
   (42967, 42967); (42969, 42969); (42998, 42998); (43000, 43002); (43824, 43866); (43868, 43880); (43888, 43967); (64256, 64262);
   (64275, 64279); (65345, 65370); (66600, 66639); (66776, 66811); (66967, 66977); (66979, 66993); (66995, 67001); (67003, 67004);
   (67456, 67456); (67459, 67461); (67463, 67504); (67506, 67514); (68800, 68850); (71872, 71903); (93792, 93823); (119834, 119859);
   (119886, 119892); (119894, 119911); (119938, 119963); (119990, 119993); (119995, 119995); (119997, 120003); (120005, 120015); (120042, 120067);
   (120094, 120119); (120146, 120171); (120198, 120223); (120250, 120275); (120302, 120327); (120354, 120379); (120406, 120431); (120458, 120485);
   (120514, 120538); (120540, 120545); (120572, 120596); (120598, 120603); (120630, 120654); (120656, 120661); (120688, 120712); (120714, 120719);
   (120746, 120770); (120772, 120777); (120779, 120779); (122624, 122633); (122635, 122654); (125218, 125251)].

(** [str.isspace]. *)
Definition whitespace_ranges : list (N * N) :=
  [(5760, 5760); (8192, 8202); (8232, 8233); (8239, 8239); (8287, 8287); (12288, 12288)].

(** Lower, upper or title case. *)
Definition cased_ranges : list (N * N) :=
  [(256, 442); (444, 447); (452, 659); (661, 696); (704, 705); (736, 740); (837, 837); (880, 883);
   (886, 887); (890, 893); (895, 895); (902, 902); (904, 906); (908, 908); (910, 929); (931, 1013);
   (1015, 1153); (1162, 1327); (1329, 1366); (1376, 1416); (4256, 4293); (4295, 4295); (4301, 4301); (4304, 4346);
   (4349, 4351); (5024, 5109); (5112, 5117); (7296, 7304); (7312, 7354); (7357, 7359); (7424, 7615); (7680, 7957);
   (7960, 7965); (7968, 8005); (8008, 8013); (8016, 8023); (8025, 8025); (8027, 8027); (8029, 8029); (8031, 8061);
   (8064, 8116); (8118, 8124); (8126, 8126); (8130, 8132); (8134, 8140); (8144, 8147); (8150, 8155); (8160, 8172);
   (8178, 8180); (8182, 8188); (8305, 8305); (8319, 8319); (8336, 8348); (8450, 8450); (8455, 8455); (8458, 8467);
   (8469, 8469); (8473, 8477); (8484, 8484); (8486, 8486); (8488, 8488); (8490, 8493); (8495, 8500); (8505, 8505);
   (8508, 8511); (8517, 8521); (8526, 8526); (8544, 8575); (8579, 8580); (9398, 9449); (11264, 11492); (11499, 11502);
   (11506, 11507); (11520, 11557); (11559, 11559); (11565, 11565); (42560, 42605); (42624, 42653); (42786, 42887); (42891, 42894);
   (42896, 42954); (42960, 42961); (42963, 42963); (42965, 42969); (42997, 42998); (43000, 43002); (43824, 43866); (43868, 43880);
   (43888, 43967); (64256, 64262); (64275, 64279); (65313, 65338); (65345, 65370); (66560, 66639); (66736, 66771); (66776, 66811);
   (66928, 66938); (66940, 66954); (66956, 66962); (66964, 66965); (66967, 66977); (66979, 66993); (66995, 67001); (67003, 67004);
   (67456, 67456); (67459, 67461); (67463, 67504); (67506, 67514); (68736, 68786); (68800, 68850); (71840, 71903); (93760, 93823);
   (119808, 119892); (119894, 119964); (119966, 119967); (119970, 119970); (119973, 119974); (119977, 119980); (119982, 119993); (119995, 119995);
   (119997, 120003); (120005, 120069); (120071, 120074); (120077, 120084); (120086, 120092); (120094, 120121); (120123, 120126); (120128, 120132);
   (120134, 120134); (120138, 120144); (120146, 120485); (120488, 120512); (120514, 120538); (120540, 120570); (120572, 120596); (120598, 120628);
   (120630, 120654); (120656, 120686); (120688, 120712); (120714, 120744); (120746, 120770); (120772, 120779); (122624, 122633); (122635, 122654);
   (125184, 125251); (127280, 127305); (127312, 127337); (127344, 127369)].

(** General categories Mn, Me, Cf, Lm, Sk and some punctuation. *)
Definition case_ignorable_ranges : list (N * N) :=
  [(688, 879); (884, 885); (890, 890); (900, 901); (1155, 1161); (1369, 1369); (1425, 1469); (1471, 1471);
   (1473, 1474); (1476, 1477); (1479, 1479); (1536, 1541); (1552, 1562); (1564, 1564); (1600, 1600); (1611, 1631);
   (1648, 1648); (1750, 1757); (1759, 1768); (1770, 1773); (1807, 1807); (1809, 1809); (1840, 1866); (1958, 1968);
   (2027, 2037); (2042, 2042); (2045, 2045); (2070, 2093); (2137, 2139); (2184, 2184); (2192, 2193); (2200, 2207);
   (2249, 2306); (2362, 2362); (2364, 2364); (2369, 2376); (2381, 2381); (2385, 2391); (2402, 2403); (2417, 2417);
   (2433, 2433); (2492, 2492); (2497, 2500); (2509, 2509); (2530, 2531); (2558, 2558); (2561, 2562); (2620, 2620);
   (2625, 2626); (2631, 2632); (2635, 2637); (2641, 2641); (2672, 2673); (2677, 2677); (2689, 2690); (2748, 2748);
   (2753, 2757); (2759, 2760); (2765, 2765); (2786, 2787); (2810, 2815); (2817, 2817); (2876, 2876); (2879, 2879);
   (2881, 2884); (2893, 2893); (2901, 2902); (2914, 2915); (2946, 2946); (3008, 3008); (3021, 3021); (3072, 3072);
   (3076, 3076); (3132, 3132); (3134, 3136); (3142, 3144); (3146, 3149); (3157, 3158); (3170, 3171); (3201, 3201);
   (3260, 3260); (3263, 3263); (3270, 3270); (3276, 3277); (3298, 3299); (3328, 3329); (3387, 3388); (3393, 3396);
   (3405, 3405); (3426, 3427); (3457, 3457); (3530, 3530); (3538, 3540); (3542, 3542); (3633, 3633); (3636, 3642);
   (3654, 3662); (3761, 3761); (3764, 3772); (3782, 3782); (3784, 3789); (3864, 3865); (3893, 3893); (3895, 3895);
   (3897, 3897); (3953, 3966); (3968, 3972); (3974, 3975); (3981, 3991); (3993, 4028); (4038, 4038); (4141, 4144);
   (4146, 4151); (4153, 4154); (4157, 4158); (4184, 4185); (4190, 4192); (4209, 4212); (4226, 4226); (4229, 4230);
   (4237, 4237); (4253, 4253); (4348, 4348); (4957, 4959); (5906, 5908); (5938, 5939); (5970, 5971); (6002, 6003);
   (6068, 6069); (6071, 6077); (6086, 6086); (6089, 6099); (6103, 6103); (6109, 6109); (6155, 6159); (6211, 6211);
   (6277, 6278); (6313, 6313); (6432, 6434); (6439, 6440); (6450, 6450); (6457, 6459); (6679, 6680); (6683, 6683);
   (6742, 6742); (6744, 6750); (6752, 6752); (6754, 6754); (6757, 6764); (6771, 6780); (6783, 6783); (6823, 6823);
   (6832, 6862); (6912, 6915); (6964, 6964); (6966, 6970); (6972, 6972); (6978, 6978); (7019, 7027); (7040, 7041);
   (7074, 7077); (7080, 7081); (7083, 7085); (7142, 7142); (7144, 7145); (7149, 7149); (7151, 7153); (7212, 7219);
   (7222, 7223); (7288, 7293); (7376, 7378); (7380, 7392); (7394, 7400); (7405, 7405); (7412, 7412); (7416, 7417);
   (7468, 7530); (7544, 7544); (7579, 7679); (8125, 8125); (8127, 8129); (8141, 8143); (8157, 8159); (8173, 8175);
   (8189, 8190); (8203, 8207); (8216, 8217); (8228, 8228); (8231, 8231); (8234, 8238); (8288, 8292); (8294, 8303);
   (8305, 8305); (8319, 8319); (8336, 8348); (8400, 8432); (11388, 11389); (11503, 11505); (11631, 11631); (11647, 11647);
   (11744, 11775); (11823, 11823); (12293, 12293); (12330, 12333); (12337, 12341); (12347, 12347); (12441, 12446); (12540, 12542);
   (40981, 40981); (42232, 42237); (42508, 42508); (42607, 42610); (42612, 42621); (42623, 42623); (42652, 42655); (42736, 42737);
   (42752, 42785); (42864, 42864); (42888, 42890); (42994, 42996); (43000, 43001); (43010, 43010); (43014, 43014); (43019, 43019);
   (43045, 43046); (43052, 43052); (43204, 43205); (43232, 43249); (43263, 43263); (43302, 43309); (43335, 43345); (43392, 43394);
   (43443, 43443); (43446, 43449); (43452, 43453); (43471, 43471); (43493, 43494); (43561, 43566); (43569, 43570); (43573, 43574);
   (43587, 43587); (43596, 43596); (43632, 43632); (43644, 43644); (43696, 43696); (43698, 43700); (43703, 43704); (43710, 43711);
   (43713, 43713); (43741, 43741); (43756, 43757); (43763, 43764); (43766, 43766); (43867, 43871); (43881, 43883); (44005, 44005);
   (44008, 44008); (44013, 44013); (64286, 64286); (64434, 64450); (65024, 65039); (65043, 65043); (65056, 65071); (65106, 65106);
   (65109, 65109); (65279, 65279); (65287, 65287); (65294, 65294); (65306, 65306); (65342, 65342); (65344, 65344); (65392, 65392);
   (65438, 65439); (65507, 65507); (65529, 65531); (66045, 66045); (66272, 66272); (66422, 66426); (67456, 67461); (67463, 67504);
   (67506, 67514); (68097, 68099); (68101, 68102); (68108, 68111); (68152, 68154); (68159, 68159); (68325, 68326); (68900, 68903);
   (69291, 69292); (69446, 69456); (69506, 69509); (69633, 69633); (69688, 69702); (69744, 69744); (69747, 69748); (69759, 69761);
   (69811, 69814); (69817, 69818); (69821, 69821); (69826, 69826); (69837, 69837); (69888, 69890); (69927, 69931); (69933, 69940);
   (70003, 70003); (70016, 70017); (70070, 70078); (70089, 70092); (70095, 70095); (70191, 70193); (70196, 70196); (70198, 70199);
   (70206, 70206); (70367, 70367); (70371, 70378); (70400, 70401); (70459, 70460); (70464, 70464); (70502, 70508); (70512, 70516);
   (70712, 70719); (70722, 70724); (70726, 70726); (70750, 70750); (70835, 70840); (70842, 70842); (70847, 70848); (70850, 70851);
   (71090, 71093); (71100, 71101); (71103, 71104); (71132, 71133); (71219, 71226); (71229, 71229); (71231, 71232); (71339, 71339);
   (71341, 71341); (71344, 71349); (71351, 71351); (71453, 71455); (71458, 71461); (71463, 71467); (71727, 71735); (71737, 71738);
   (71995, 71996); (71998, 71998); (72003, 72003); (72148, 72151); (72154, 72155); (72160, 72160); (72193, 72202); (72243, 72248);
   (72251, 72254); (72263, 72263); (72273, 72278); (72281, 72283); (72330, 72342); (72344, 72345); (72752, 72758); (72760, 72765);
   (72767, 72767); (72850, 72871); (72874, 72880); (72882, 72883); (72885, 72886); (73009, 73014); (73018, 73018); (73020, 73021);
   (73023, 73029); (73031, 73031); (73104, 73105); (73109, 73109); (73111, 73111); (73459, 73460); (78896, 78904); (92912, 92916);
   (92976, 92982); (92992, 92995); (94031, 94031); (94095, 94111); (94176, 94177); (94179, 94180); (110576, 110579); (110581, 110587);
   (110589, 110590); (113821, 113822); (113824, 113827); (118528, 118573); (118576, 118598); (119143, 119145); (119155, 119170); (119173, 119179);
   (119210, 119213); (119362, 119364); (121344, 121398); (121403, 121452); (121461, 121461); (121476, 121476); (121499, 121503); (121505, 121519);
   (122880, 122886); (122888, 122904); (122907, 122913); (122915, 122916); (122918, 122922); (123184, 123197); (123566, 123566); (123628, 123631);
   (125136, 125142); (125252, 125259); (127995, 127999); (917505, 917505); (917536, 917631); (917760, 917999)].

Definition real_unicode : Unicode := {|
  hi_alphabetic := fun c => in_ranges c alphabetic_ranges;
  hi_numeric := fun c => in_ranges c numeric_ranges;
  hi_lowercase := fun c => in_ranges c lowercase_ranges;
  hi_whitespace := fun c => in_ranges c whitespace_ranges;
  hi_cased := fun c => in_ranges c cased_ranges;
  hi_case_ignorable := fun c => in_ranges c case_ignorable_ranges;
  hi_upper := case_map upper_special upper_runs;
  hi_lower := case_map lower_special lower_runs |}.

Lemma special_In : forall c l v, special c l = Some v -> In (c, v) l.
Proof.
  intros c. induction l as [|[k w] l IH]; intros v H; cbn [special] in H; [discriminate|].
  destruct (k =? c) eqn:E; [|right; now apply IH]. injection H as <-. left. f_equal. now apply N.eqb_eq.
Qed.
Lemma case_map_nonempty : forall sp runs c, (forall k v, In (k, v) sp -> v <> []) -> case_map sp runs c <> [].
Proof.
  intros sp runs c H. unfold case_map. destruct (special c sp) as [v|] eqn:E.
  - apply special_In in E. exact (H _ _ E).
  - destruct (find (run_has c) runs); discriminate.
Qed.
Theorem real_unicode_ok : UnicodeOK real_unicode.
Proof.
  split; intros c; apply case_map_nonempty.
  - assert (G : forallb (fun kv : N * ustr => match snd kv with [] => false | _ => true end) upper_special = true) by (vm_compute; reflexivity).
    rewrite forallb_forall in G. intros k v I. apply G in I. cbn in I. destruct v; discriminate.
  - assert (G : forallb (fun kv : N * ustr => match snd kv with [] => false | _ => true end) lower_special = true) by (vm_compute; reflexivity).
    rewrite forallb_forall in G. intros k v I. apply G in I. cbn in I. destruct v; discriminate.
Qed.

(** The characters a mapping changes. *)
Definition expand (r : run) : list N :=
  let '(lo, n, step, _) := r in map (fun k => lo + N.of_nat k * step) (seq 0 (N.to_nat n)).
Lemma run_has_expand : forall c r, (let '(_, _, step, _) := r in step <> 0) -> run_has c r = true -> In c (expand r).
Proof.
  intros c [[[lo n] step] t] S H. unfold run_has in H. unfold expand. apply andb_prop in H as [H M]. apply andb_prop in H as [A B].
  apply in_map_iff. exists (N.to_nat ((c - lo) / step)).
  assert (E : c - lo = step * ((c - lo) / step)) by (apply N.div_exact; [exact S|now apply N.eqb_eq]).
  apply N.leb_le in A. apply N.ltb_lt in B. split; [rewrite N2Nat.id, N.mul_comm, <- E; lia|].
  apply in_seq. assert ((c - lo) / step < n); [|lia].
  apply N.div_lt_upper_bound; [exact S|]. rewrite N.mul_comm. lia.
Qed.
Definition stable (x : N) : bool :=
  match to_lower real_unicode x with [y] => (y =? x) && negb (x =? 931) | _ => false end.
Lemma stable_spec : forall x, stable x = true -> to_lower real_unicode x = [x] /\ x <> 931.
Proof.
  intros x H. unfold stable in H. destruct (to_lower real_unicode x) as [|y [|]]; try discriminate.
  apply andb_prop in H as [H1 H2]. apply N.eqb_eq in H1. subst. split; [reflexivity|]. intros ->. discriminate.
Qed.
Theorem real_lower_ok : LowerOK real_unicode.
Proof.
  split; [|split; vm_compute; reflexivity]. intros c x H.
  destruct (N.ltb_spec c 256) as [L|L].
  - assert (G : forallb (fun c => forallb stable (to_lower real_unicode c)) (map N.of_nat (seq 0 256)) = true) by (vm_compute; reflexivity).
    rewrite forallb_forall in G. assert (I : In c (map N.of_nat (seq 0 256))).
    { apply in_map_iff. exists (N.to_nat c). split; [lia|]. apply in_seq. lia. }
    apply G in I. rewrite forallb_forall in I. apply stable_spec. now apply I.
  - assert (E : to_lower real_unicode c = case_map lower_special lower_runs c).
    { unfold to_lower. destruct (N.ltb_spec c 256); [lia|reflexivity]. }
    destruct (special c lower_special) as [v|] eqn:S.
    + pose proof (special_In _ _ _ S) as I.
      assert (G : forallb (fun kv : N * ustr => forallb stable (snd kv)) lower_special = true) by (vm_compute; reflexivity).
      rewrite forallb_forall in G. apply G in I. cbn [snd] in I. rewrite forallb_forall in I. apply stable_spec. apply I.
      rewrite E in H. unfold case_map in H. now rewrite S in H.
    + destruct (find (run_has c) lower_runs) as [r|] eqn:F.
      * apply find_some in F as [F1 F2].
        assert (Z : forallb (fun r : run => let '(_, _, step, _) := r in negb (step =? 0)) lower_runs = true) by (vm_compute; reflexivity).
        rewrite forallb_forall in Z. pose proof (Z _ F1) as Z1. apply run_has_expand in F2; [|destruct r as [[[? ?] st] ?]; destruct (N.eqb_spec st 0); [discriminate|assumption]].
        assert (G : forallb (fun r => forallb (fun c => forallb stable (to_lower real_unicode c)) (expand r)) lower_runs = true) by (vm_compute; reflexivity).
        rewrite forallb_forall in G. apply G in F1. rewrite forallb_forall in F1. apply F1 in F2. rewrite forallb_forall in F2. apply stable_spec. now apply F2.
      * assert (EE : to_lower real_unicode c = [c]) by (rewrite E; unfold case_map; now rewrite S, F).
        rewrite EE in H. destruct H as [<-|[]]. split; [assumption|]. intros ->. vm_compute in F. discriminate.
Qed.
