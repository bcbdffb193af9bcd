(** * Double Metaphone as a table of contextual rules (uses nothing of the model).
    The text is in uppercase ASCII. *)
From Verif Require Import Base Spec_common Spec_contextual.
Local Open Scope Z_scope.

(** What a letter adds to the primary and to the alternate code, and how many of the
    letters after it are passed over. *)
Definition sound := (ustr * ustr * nat)%type.
Definition same (p : ustr) (k : nat) : rule sound := Out (p, p, k).
Definition two (p a : ustr) (k : nat) : rule sound := Out (p, a, k).
Definition nothing (k : nat) : rule sound := Out ([], [], k).
(** One letter is passed over if the condition holds. *)
Definition skipping (c : cond) (p a : ustr) : rule sound := If c (Out (p, a, 1%nat)) (Out (p, a, 0%nat)).
Definition doubled (c p : ustr) : rule sound := skipping (Before c) p p.

Definition VowelAt (d : Z) : cond := At d (letters $ "AEIOUY").
Definition SlavoGermanic : cond := Somewhere [$ "W"; $ "K"; $ "CZ"; $ "WITZ"].
Definition Second : cond := Both (Precede 1) (Not (Precede 2)).
Definition EarlierThan (n : nat) : cond := Not (Precede n).
Fixpoint all_of (c : cond) (l : list cond) : cond :=
  match l with [] => c | d :: r => Both c (all_of d r) end.
Fixpoint any_of (c : cond) (l : list cond) : cond :=
  match l with [] => c | d :: r => Either c (any_of d r) end.

(** The letters C *)
Definition bacher : cond :=   (** "Bacher", "Macher", and other -ach- after a consonant *)
  Either (Here [$ "CHIA"])
    (all_of (Precede 2) [Not (VowelAt (-2)); At (-1) [$ "ACH"];
             Either (Not (At 2 (letters $ "IE"))) (At (-2) [$ "BACHER"; $ "MACHER"])]).
Definition greek_ch : cond :=
  all_of First [Next [$ "HARAC"; $ "HARIS"; $ "HOR"; $ "HYM"; $ "HIA"; $ "HEM"]; Not (Begins [$ "CHORE"])].
Definition germanic_ch : cond :=
  any_of (Begins [$ "SCH"])
    [ At (-2) [$ "ORCHES"; $ "ARCHIT"; $ "ORCHID"];
      Both (Precede 2) (At 2 (letters $ "TS"));
      Both (Either First (After $ "AOUE")) (Either (At 2 (letters $ "LRNMBHFVW ")) (Follow 1)) ].
Definition rule_ch : rule sound :=
  If (Both (Not First) (Here [$ "CHAE"])) (two $ "K" $ "X" 1)
 (If (Either greek_ch germanic_ch)        (same $ "K" 1)
 (If First                                (same $ "X" 1)
 (If (Begins [$ "MC"])                    (same $ "K" 1)
                                          (two $ "X" $ "K" 1)))).
Definition rule_cc : rule sound :=
  If (Both (At 2 (letters $ "IEH")) (Not (At 2 [$ "HU"])))
    (If (Either (Both Second (After $ "A")) (At (-1) [$ "UCCEE"; $ "UCCES"]))
       (same $ "KS" 2) (same $ "X" 2))
    (same $ "K" 1).
Definition rule_c : rule sound :=
  If bacher                                              (same $ "K" 1)
 (If (Both First (Here [$ "CAESAR"]))                    (same $ "S" 1)
 (If (Here [$ "CH"])                                     rule_ch
 (If (Both (Here [$ "CZ"]) (Not (At (-2) [$ "WICZ"])))   (two $ "S" $ "X" 1)
 (If (Next [$ "CIA"])                                    (same $ "X" 2)
 (If (Both (Here [$ "CC"]) (Not (Both Second (Begins [$ "M"])))) rule_cc
 (If (Before $ "KGQ")                                    (same $ "K" 1)
 (If (Before $ "IEY")
    (If (Next [$ "IO"; $ "IE"; $ "IA"])                  (two $ "S" $ "X" 1) (same $ "S" 1))
 (If (Next [$ " C"; $ " Q"; $ " G"])                     (same $ "K" 2)
 (If (Both (Before $ "CKQ") (Not (Next [$ "CE"; $ "CI"]))) (same $ "K" 1)
                                                         (same $ "K" 0)))))))))).

Definition rule_d : rule sound :=
  If (Before $ "G") (If (At 2 (letters $ "IEY")) (same $ "J" 2) (same $ "TK" 1))
 (If (Before $ "TD") (same $ "T" 1) (same $ "T" 0)).

(** The letter G *)
Definition rule_gh : rule sound :=
  If First (If (At 2 [$ "I"]) (same $ "J" 1) (same $ "K" 1))
 (If (Not (VowelAt (-1)))                                      (same $ "K" 1)
 (If (any_of (At (-2) (letters $ "BHD")) [At (-3) (letters $ "BHD"); At (-4) (letters $ "BH")]) (nothing 1)
 (If (Both (After $ "U") (At (-3) (letters $ "CGLRT")))        (same $ "F" 1)
 (If (After $ "I")                                             (nothing 1)
                                                               (same $ "K" 1))))).
Definition rule_gn : rule sound :=
  If (all_of Second [VowelAt (-1); Not SlavoGermanic])       (two $ "KN" $ "N" 1)
 (If (Both (Not (At 2 [$ "EY"])) (Not SlavoGermanic))        (two $ "N" $ "KN" 1)
                                                             (same $ "KN" 1)).
Definition hard_or_soft_g : cond :=
  Either
    (Both First (Either (Before $ "Y")
       (Next [$ "ES"; $ "EP"; $ "EB"; $ "EL"; $ "EY"; $ "IB"; $ "IL"; $ "IN"; $ "IE"; $ "EI"; $ "ER"])))
    (all_of (Either (Next [$ "ER"]) (Before $ "Y"))
       [ Not (Begins [$ "DANGER"; $ "RANGER"; $ "MANGER"]);
         Not (After $ "EI"); Not (At (-1) [$ "RGY"; $ "OGY"]) ]).
Definition rule_g : rule sound :=
  If (Before $ "H") rule_gh
 (If (Before $ "N") rule_gn
 (If (Both (Next [$ "LI"]) (Not SlavoGermanic))                      (two $ "KL" $ "L" 1)
 (If hard_or_soft_g                                                  (two $ "K" $ "J" 1)
 (If (Either (Before $ "EIY") (At (-1) [$ "AGGI"; $ "OGGI"]))
    (If (any_of (Begins [$ "VAN "; $ "VON "; $ "SCH"]) [Next [$ "ET"]]) (same $ "K" 1)
    (If (Next [$ "IER"])                                             (same $ "J" 1)
                                                                     (two $ "J" $ "K" 1)))
 (If (Before $ "G")                                                  (same $ "K" 1)
                                                                     (same $ "K" 0)))))).

Definition rule_h : rule sound :=
  If (Both (Either First (VowelAt (-1))) (VowelAt 1)) (same $ "H" 1) (nothing 0).

Definition rule_j : rule sound :=
  If (Either (Here [$ "JOSE"]) (Begins [$ "SAN "]))
    (If (any_of (Both First (At 4 [$ " "])) [Both (Long 4) (Not (Long 5)); Begins [$ "SAN "]])
       (same $ "H" 0) (two $ "J" $ "H" 0))
 (If First                                                           (skipping (Before $ "J") $ "J" $ "A")
 (If (all_of (VowelAt (-1)) [Not SlavoGermanic; Before $ "AO"])      (skipping (Before $ "J") $ "J" $ "H")
 (If Last                                                            (skipping (Before $ "J") $ "J" $ " ")
 (If (Both (Not (Before $ "LTKSNMBZ")) (Not (After $ "SKL")))        (skipping (Before $ "J") $ "J" $ "J")
                                                                     (skipping (Before $ "J") [] []))))).

Definition spanish_ll : cond :=
  Either (Both (Follow 2) (At (-1) [$ "ILLO"; $ "ILLA"; $ "ALLE"]))
         (Both (Finishes [$ "AS"; $ "OS"; $ "A"; $ "O"]) (At (-1) [$ "ALLE"])).
Definition rule_l : rule sound :=
  If (Before $ "L") (If spanish_ll (two $ "L" [] 1) (same $ "L" 1)) (same $ "L" 0).

Definition rule_m : rule sound :=
  skipping (Either (Before $ "M") (Both (At (-1) [$ "UMB"]) (Either (Follow 1) (At 2 [$ "ER"])))) $ "M" $ "M".

Definition rule_p : rule sound :=
  If (Before $ "H") (same $ "F" 1) (skipping (Before $ "PB") $ "P" $ "P").

Definition rule_r : rule sound :=
  If (all_of (Precede 4) [Last; Not SlavoGermanic; At (-2) [$ "IE"]; Not (At (-4) [$ "ME"; $ "MA"])])
    (skipping (Before $ "R") [] $ "R")
    (doubled $ "R" $ "R").

(** The letter S *)
Definition rule_sc : rule sound :=
  If (At 2 [$ "H"])
    (If (At 3 [$ "OO"; $ "ER"; $ "EN"; $ "UY"; $ "ED"; $ "EM"])
       (If (At 3 [$ "ER"; $ "EN"]) (two $ "X" $ "SK" 2) (same $ "SK" 2))
    (If (all_of First [Not (VowelAt 3); Not (At 3 [$ "W"])]) (two $ "X" $ "S" 2)
                                                            (same $ "X" 2)))
 (If (At 2 (letters $ "IEY")) (same $ "S" 2) (same $ "SK" 2)).
Definition rule_s : rule sound :=
  If (At (-1) [$ "ISL"; $ "YSL"])                                  (nothing 0)
 (If (Both First (Here [$ "SUGAR"]))                               (two $ "X" $ "S" 0)
 (If (Before $ "H")
    (If (Next [$ "HEIM"; $ "HOEK"; $ "HOLM"; $ "HOLZ"])            (same $ "S" 1) (same $ "X" 1))
 (If (Next [$ "IO"; $ "IA"])
    (If SlavoGermanic                                              (same $ "S" 2) (two $ "S" $ "X" 2))
 (If (Either (Both First (Before $ "MNLW")) (Before $ "Z"))        (skipping (Before $ "Z") $ "S" $ "X")
 (If (Before $ "C")                                                rule_sc
 (If (Both Last (At (-2) [$ "AI"; $ "OI"]))                        (skipping (Before $ "SZ") [] $ "S")
                                                                   (skipping (Before $ "SZ") $ "S" $ "S"))))))).

Definition rule_t : rule sound :=
  If (Next [$ "ION"; $ "IA"; $ "CH"])                              (same $ "X" 2)
 (If (Next [$ "H"; $ "TH"])
    (If (Either (At 2 [$ "OM"; $ "AM"]) (Begins [$ "VAN "; $ "VON "; $ "SCH"]))
                                                                   (same $ "T" 1) (two $ "0" $ "T" 1))
                                                                   (skipping (Before $ "TD") $ "T" $ "T")).

Definition rule_w : rule sound :=
  If (Before $ "R")                                                (same $ "R" 1)
 (If (Both First (VowelAt 1))                                      (two $ "A" $ "F" 0)
 (If (Both First (Before $ "H"))                                   (same $ "A" 0)
 (If (any_of (Both Last (VowelAt (-1)))
        [At (-1) [$ "EWSKI"; $ "EWSKY"; $ "OWSKI"; $ "OWSKY"]; Begins [$ "SCH"]]) (two [] $ "F" 0)
 (If (Next [$ "ICZ"; $ "ITZ"])                                     (two $ "TS" $ "FX" 3)
                                                                   (nothing 0))))).

Definition rule_x : rule sound :=
  If First                                                         (same $ "S" 0)
 (If (Both Last (Either (At (-3) [$ "IAU"; $ "EAU"]) (At (-2) [$ "AU"; $ "OU"]))) (nothing 0)
                                                                   (skipping (Before $ "CX") $ "KS" $ "KS")).

Definition rule_z : rule sound :=
  If (Before $ "H")                                                (same $ "J" 1)
 (If (Either (Next [$ "ZO"; $ "ZI"; $ "ZA"]) (all_of SlavoGermanic [Not First; Not (After $ "T")]))
    (skipping (Before $ "Z") $ "S" $ "TS")
    (doubled $ "Z" $ "S")).

Definition double_metaphone_table : table sound := [
  ($ "AEIOUY", fun _ => If First (same $ "A" 0) (nothing 0));
  ($ "B", fun _ => doubled $ "B" $ "P");
  ($ "C", fun _ => rule_c);
  ($ "D", fun _ => rule_d);
  ($ "F", fun _ => doubled $ "F" $ "F");
  ($ "G", fun _ => rule_g);
  ($ "H", fun _ => rule_h);
  ($ "J", fun _ => rule_j);
  ($ "K", fun _ => doubled $ "K" $ "K");
  ($ "L", fun _ => rule_l);
  ($ "M", fun _ => rule_m);
  ($ "N", fun _ => doubled $ "N" $ "N");
  ($ "P", fun _ => rule_p);
  ($ "Q", fun _ => doubled $ "Q" $ "K");
  ($ "R", fun _ => rule_r);
  ($ "S", fun _ => rule_s);
  ($ "T", fun _ => rule_t);
  ($ "V", fun _ => doubled $ "V" $ "F");
  ($ "W", fun _ => rule_w);
  ($ "X", fun _ => rule_x);
  ($ "Z", fun _ => rule_z) ].

(** The two codes of the text from position [i] on. *)
Inductive dm_reads (text : ustr) : nat -> ustr -> ustr -> Prop :=
| dr_end : forall i, (length text <= i)%nat -> dm_reads text i [] []
| dr_letter : forall i c r p a k ps als, nth_error text i = Some c ->
    rule_of double_metaphone_table (nothing 0) c r -> gives text i r (p, a, k) ->
    dm_reads text (i + 1 + k) ps als -> dm_reads text i (p ++ ps) (a ++ als).

(** The first letter is silent in some beginnings. *)
Definition silent_beginnings : list ustr := [$ "GN"; $ "KN"; $ "PN"; $ "WR"; $ "PS"].
Definition dm_start (text : ustr) (i : nat) : Prop :=
  (i = 1%nat /\ exists w r, In w silent_beginnings /\ text = w ++ r)
  \/ (i = 0%nat /\ forall w r, In w silent_beginnings -> text <> w ++ r).

Definition dm_cut (max : option nat) (code : ustr) : ustr :=
  match max with Some n => firstn n code | None => code end.

(** The codes of an uppercase text without surrounding white space. *)
Definition double_metaphone_codes (max : option nat) (text primary alternate : ustr) : Prop :=
  exists i ps als, dm_start text i /\ dm_reads text i ps als
    /\ primary = dm_cut max ps /\ alternate = dm_cut max als.

(** White space around the word does not count: [core] is [s] without it. *)
Definition blank (c : N) : Prop := c = 32%N \/ (9 <= c <= 13)%N.
Definition trimmed (s core : ustr) : Prop :=
  exists w w', s = w ++ core ++ w' /\ (forall c, In c w -> blank c) /\ (forall c, In c w' -> blank c)
    /\ (forall c r, core = c :: r -> ~ blank c) /\ (forall r c, core = r ++ [c] -> ~ blank c).

(** ** Texts that are not ASCII
    The program measures positions in bytes. *)
(** Two letters beyond ASCII have a sound. *)
Definition double_metaphone_table_any : table sound :=
  ($ "Ç", fun _ => same $ "S" 0) :: ($ "Ñ", fun _ => same $ "N" 0) :: double_metaphone_table.

(** The two codes of [rest], read after [before]; letters passed over are characters. *)
Inductive dm_reads_any : ustr -> ustr -> ustr -> ustr -> Prop :=
| da_end : forall before, dm_reads_any before [] [] []
| da_letter : forall before c rest r p a k ps als,
    rule_of double_metaphone_table_any (nothing 0) c r ->
    gives (in_places (before ++ c :: rest)) (length (in_places before)) r (p, a, k) ->
    dm_reads_any (before ++ c :: firstn k rest) (skipn k rest) ps als ->
    dm_reads_any before (c :: rest) (p ++ ps) (a ++ als).

(** The codes of any uppercase text without surrounding white space. *)
Definition double_metaphone_codes_any (max : option nat) (text primary alternate : ustr) : Prop :=
  exists i ps als, dm_start text i /\ dm_reads_any (firstn i text) (skipn i text) ps als
    /\ primary = dm_cut max ps /\ alternate = dm_cut max als.
(** [core] is [s] without the white space around it. *)
Definition trimmed_by (space : N -> bool) (s core : ustr) : Prop :=
  exists w w', s = w ++ core ++ w' /\ (forall c, In c w -> space c = true) /\ (forall c, In c w' -> space c = true)
    /\ (forall c r, core = c :: r -> space c = false) /\ (forall r c, core = r ++ [c] -> space c = false).
