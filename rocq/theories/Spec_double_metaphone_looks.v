(** * Double Metaphone: where it looks, in which order (uses nothing of the model).
    To choose the sound of a letter the program looks at the neighbouring text, at places counted in
    bytes.  It panics when the part it looks at begins or ends inside a character. *)
From Verif Require Import Base Spec_common Spec_contextual Spec_double_metaphone.
Local Open Scope Z_scope.

(** A place in the text: so many bytes after the letter (before it if negative), after the beginning,
    or before the end. *)
Inductive place := Off (d : Z) | Pos (p : Z) | Tail (n : Z).
Definition byte_of (text : ustr) (i : nat) (pl : place) : Z :=
  match pl with
  | Off d => Z.of_nat i + d
  | Pos p => p
  | Tail n => Z.of_nat (length (in_places text)) - n
  end.
(** A byte at which a character begins, or the end of the text. *)
Definition boundary (text : ustr) (p : Z) : Prop :=
  exists a b, text = a ++ b /\ Z.of_nat (length (in_places a)) = p.

Inductive look :=
| Word (pl : place) (n : nat) (ws : list ustr)   (** are the [n] bytes there one of these words? *)
| Letter (pl : place) (s : ustr)                 (** is the character there one of these? *)
| Free (c : cond)                                (** a condition decided without looking there *)
| And (a b : look)                               (** [b] is looked at only if [a] holds *)
| Or (a b : look)                                (** [b] is looked at only if [a] does not hold *)
| Neg (a : look).

Fixpoint seen (text : ustr) (i : nat) (l : look) : Prop :=
  match l with
  | Word pl n ws => exists w, In w ws /\ length w = n /\ stands_at (in_places text) w (byte_of text i pl)
  | Letter pl s => exists c, In c s /\ stands_at (in_places text) [c] (byte_of text i pl)
  | Free c => holds (in_places text) i c
  | And a b => seen text i a /\ seen text i b
  | Or a b => seen text i a \/ seen text i b
  | Neg a => ~ seen text i a
  end.

(** The look meets a character across the beginning or the end of what it compares. *)
Fixpoint torn_look (text : ustr) (i : nat) (l : look) : Prop :=
  match l with
  | Word pl n _ =>
      let p := byte_of text i pl in let q := p + Z.of_nat n in
      0 <= p /\ q <= Z.of_nat (length (in_places text)) /\ (~ boundary text p \/ ~ boundary text q)
  | Letter pl _ =>
      let p := byte_of text i pl in
      0 <= p < Z.of_nat (length (in_places text)) /\ ~ boundary text p
  | Free _ => False
  | And a b => torn_look text i a \/ (seen text i a /\ torn_look text i b)
  | Or a b => torn_look text i a \/ (~ seen text i a /\ torn_look text i b)
  | Neg a => torn_look text i a
  end.

(** The looks for one letter: each answer decides what is looked at next. *)
Inductive plan := Stop | Ask (l : look) (yes no : plan).
Definition Check (l : look) : plan := Ask l Stop Stop.
Definition Then (l : look) (p : plan) : plan := Ask l p p.
Fixpoint torn_plan (text : ustr) (i : nat) (p : plan) : Prop :=
  match p with
  | Stop => False
  | Ask l yes no => torn_look text i l \/ (seen text i l /\ torn_plan text i yes) \/ (~ seen text i l /\ torn_plan text i no)
  end.

(** ** The plans *)
Definition at_ (d : Z) (n : nat) (ws : list ustr) : look := Word (Off d) n ws.
Definition begins (n : nat) (ws : list ustr) : look := Word (Pos 0) n ws.
Definition vowel (pl : place) : look := Letter pl $ "AEIOUY".
Definition next (s : ustr) : look := Letter (Off 1) s.
Definition first : look := Free First.
Definition second : look := Free Second.
Definition after_ (n : nat) : look := Free (Precede n).
Definition last_ : look := Free Last.
Definition slavo : look := Free SlavoGermanic.

Definition look_bacher : look :=
  Or (at_ 0 4 [$ "CHIA"])
     (And (after_ 2) (And (Neg (vowel (Off (-2)))) (And (at_ (-1) 3 [$ "ACH"])
        (Or (Neg (Letter (Off 2) $ "IE")) (at_ (-2) 6 [$ "BACHER"; $ "MACHER"]))))).
Definition look_greek_ch : look :=
  And first (And (Or (at_ 1 5 [$ "HARAC"; $ "HARIS"]) (at_ 1 3 [$ "HOR"; $ "HYM"; $ "HIA"; $ "HEM"]))
                 (Neg (begins 5 [$ "CHORE"]))).
(** The first look compares four bytes with words of three letters. *)
Definition look_germanic_ch : look :=
  Or (Or (Or (Or (begins 4 [$ "VAN"; $ "VON"]) (begins 3 [$ "SCH"]))
             (And (after_ 2) (at_ (-2) 6 [$ "ORCHES"; $ "ARCHIT"; $ "ORCHID"])))
         (And (after_ 2) (at_ 2 1 (letters $ "TS"))))
     (And (Or first (at_ (-1) 1 (letters $ "AOUE")))
          (Or (at_ 2 1 (letters $ "LRNMBHFVW ")) (Free (Follow 1)))).
Definition plan_ch : plan :=
  Ask (And (after_ 1) (at_ 0 4 [$ "CHAE"])) Stop
 (Ask (Or look_greek_ch look_germanic_ch) Stop
      (Check (And (after_ 1) (begins 2 [$ "MC"])))).
Definition plan_cc : plan :=
  Ask (And (at_ 2 1 (letters $ "IEH")) (Neg (at_ 2 2 [$ "HU"])))
      (Check (Or (And second (Letter (Off (-1)) $ "A")) (at_ (-1) 5 [$ "UCCEE"; $ "UCCES"])))
      Stop.
Definition plan_c : plan :=
  Ask look_bacher Stop
 (Ask (And first (at_ 0 6 [$ "CAESAR"])) Stop
 (Ask (at_ 0 2 [$ "CH"]) plan_ch
 (Ask (And (at_ 0 2 [$ "CZ"]) (Or (Neg (after_ 2)) (Neg (at_ (-2) 4 [$ "WICZ"])))) Stop
 (Ask (at_ 1 3 [$ "CIA"]) Stop
 (Ask (And (at_ 0 2 [$ "CC"]) (Neg (And second (Letter (Pos 0) $ "M")))) plan_cc
 (Ask (at_ 0 2 [$ "CK"; $ "CG"; $ "CQ"]) Stop
 (Ask (at_ 0 2 [$ "CI"; $ "CE"; $ "CY"]) (Check (at_ 0 3 [$ "CIO"; $ "CIE"; $ "CIA"]))
 (Ask (at_ 1 2 [$ " C"; $ " Q"; $ " G"]) Stop
 (Check (And (at_ 1 1 (letters $ "CKQ")) (Neg (at_ 1 2 [$ "CE"; $ "CI"])))))))))))).

Definition plan_d : plan :=
  Ask (at_ 0 2 [$ "DG"]) (Check (at_ 2 1 (letters $ "IEY"))) (Check (at_ 0 2 [$ "DT"; $ "DD"])).

Definition plan_gh : plan :=
  Ask (And (after_ 1) (Neg (vowel (Off (-1))))) Stop
 (Ask first (Check (Letter (Off 2) $ "I"))
 (Ask (Or (Or (And (after_ 2) (at_ (-2) 1 (letters $ "BHD"))) (And (after_ 3) (at_ (-3) 1 (letters $ "BHD"))))
          (And (after_ 4) (at_ (-4) 1 (letters $ "BH")))) Stop
 (Ask (And (And (after_ 3) (Letter (Off (-1)) $ "U")) (at_ (-3) 1 (letters $ "CGLRT"))) Stop
      (Check (Letter (Off (-1)) $ "I"))))).
Definition plan_gn : plan :=
  Ask (And (And second (vowel (Pos 0))) (Neg slavo)) Stop
      (Check (And (Neg (at_ 2 2 [$ "EY"])) (Neg (next $ "Y")))).
Definition plan_g : plan :=
  Ask (next $ "H") plan_gh
 (Ask (next $ "N") plan_gn
 (Ask (And (at_ 1 2 [$ "LI"]) (Neg slavo)) Stop
 (Ask (Or (And first (Or (next $ "Y")
             (at_ 1 2 [$ "ES"; $ "EP"; $ "EB"; $ "EL"; $ "EY"; $ "IB"; $ "IL"; $ "IN"; $ "IE"; $ "EI"; $ "ER"])))
          (And (And (And (Or (at_ 1 2 [$ "ER"]) (next $ "Y")) (Neg (begins 6 [$ "DANGER"; $ "RANGER"; $ "MANGER"])))
                    (Or first (Neg (at_ (-1) 1 (letters $ "EI")))))
               (Or first (Neg (at_ (-1) 3 [$ "RGY"; $ "OGY"]))))) Stop
 (Ask (Or (at_ 1 1 (letters $ "EIY")) (And (after_ 1) (at_ (-1) 4 [$ "AGGI"; $ "OGGI"])))
    (Ask (Or (Or (begins 4 [$ "VAN "; $ "VON "]) (begins 3 [$ "SCH"])) (at_ 1 2 [$ "ET"])) Stop
         (Check (at_ 1 3 [$ "IER"])))
    (Check (next $ "G")))))).

Definition plan_h : plan := Check (And (Or first (vowel (Off (-1)))) (vowel (Off 1))).

Definition plan_j : plan :=
  Ask (Or (at_ 0 4 [$ "JOSE"]) (begins 4 [$ "SAN "]))
    (Check (Or (Or (And first (Letter (Off 4) $ " ")) (Free (Both (Long 4) (Not (Long 5))))) (begins 4 [$ "SAN "])))
 (Ask first (Check (next $ "J"))
 (Ask (And (And (vowel (Off (-1))) (Neg slavo)) (next $ "AO")) (Check (next $ "J"))
 (Ask last_ (Check (next $ "J"))
 (Then (And (Neg (at_ 1 1 (letters $ "LTKSNMBZ"))) (Neg (at_ (-1) 1 (letters $ "SKL"))))
       (Check (next $ "J")))))).

Definition plan_l : plan :=
  Ask (next $ "L")
    (Check (Or (And (And (Free (Follow 2)) (after_ 1)) (at_ (-1) 4 [$ "ILLO"; $ "ILLA"; $ "ALLE"]))
               (And (Or (Word (Tail 2) 2 [$ "AS"; $ "OS"]) (Word (Tail 1) 1 (letters $ "AO")))
                    (at_ (-1) 4 [$ "ALLE"]))))
    Stop.

Definition plan_m : plan :=
  Check (Or (next $ "M")
            (And (And (after_ 1) (at_ (-1) 3 [$ "UMB"])) (Or (Free (Follow 1)) (at_ 2 2 [$ "ER"])))).

Definition plan_p : plan := Ask (next $ "H") Stop (Check (at_ 1 1 (letters $ "PB"))).

Definition plan_r : plan :=
  Then (And (And (And (And (after_ 4) last_) (Neg slavo)) (at_ (-2) 2 [$ "IE"])) (Neg (at_ (-4) 2 [$ "ME"; $ "MA"])))
       (Check (next $ "R")).

Definition plan_sc : plan :=
  Ask (Letter (Off 2) $ "H")
    (Ask (at_ 3 2 [$ "OO"; $ "ER"; $ "EN"; $ "UY"; $ "ED"; $ "EM"]) (Check (at_ 3 2 [$ "ER"; $ "EN"]))
         (Check (And (And first (Neg (vowel (Pos 3)))) (Letter (Pos 3) $ "W"))))
    (Check (at_ 2 1 (letters $ "IEY"))).
Definition plan_s : plan :=
  Ask (And (after_ 1) (at_ (-1) 3 [$ "ISL"; $ "YSL"])) Stop
 (Ask (And first (at_ 0 5 [$ "SUGAR"])) Stop
 (Ask (at_ 0 2 [$ "SH"]) (Check (at_ 1 4 [$ "HEIM"; $ "HOEK"; $ "HOLM"; $ "HOLZ"]))
 (Ask (Or (at_ 0 3 [$ "SIO"; $ "SIA"]) (at_ 0 4 [$ "SIAN"])) Stop
 (Ask (Or (And first (at_ 1 1 (letters $ "MNLW"))) (at_ 1 1 (letters $ "Z"))) (Check (at_ 1 1 (letters $ "Z")))
 (Ask (at_ 0 2 [$ "SC"]) plan_sc
 (Then (And (And (after_ 2) last_) (at_ (-2) 2 [$ "AI"; $ "OI"]))
       (Check (at_ 1 1 (letters $ "SZ"))))))))).

Definition plan_t : plan :=
  Ask (Or (at_ 0 4 [$ "TION"]) (at_ 0 3 [$ "TIA"; $ "TCH"])) Stop
 (Ask (Or (at_ 0 2 [$ "TH"]) (at_ 0 3 [$ "TTH"]))
    (Check (Or (Or (at_ 2 2 [$ "OM"; $ "AM"]) (begins 4 [$ "VAN "; $ "VON "])) (begins 3 [$ "SCH"])))
    (Check (at_ 1 1 (letters $ "TD")))).

Definition plan_w : plan :=
  Ask (at_ 0 2 [$ "WR"]) Stop
 (Ask (And first (Or (vowel (Off 1)) (at_ 0 2 [$ "WH"]))) Stop
 (Ask (Or (Or (And (And (after_ 1) last_) (vowel (Off (-1))))
              (And (after_ 1) (at_ (-1) 5 [$ "EWSKI"; $ "EWSKY"; $ "OWSKI"; $ "OWSKY"])))
          (begins 3 [$ "SCH"])) Stop
 (Check (at_ 0 4 [$ "WICZ"; $ "WITZ"])))).

Definition plan_x : plan :=
  Ask first Stop
 (Then (And last_ (Or (And (after_ 3) (at_ (-3) 3 [$ "IAU"; $ "EAU"])) (And (after_ 2) (at_ (-2) 2 [$ "AU"; $ "OU"]))))
       (Check (at_ 1 1 (letters $ "CX")))).

Definition plan_z : plan :=
  Ask (next $ "H") Stop
 (Then (Or (at_ 1 2 [$ "ZO"; $ "ZI"; $ "ZA"]) (And slavo (And (after_ 1) (Neg (Letter (Off (-1)) $ "T")))))
       (Check (next $ "Z"))).

(** The plan of each letter; the other characters need no look. *)
Definition plans : list (N * plan) := [
  (# "B", Check (next $ "B")); (# "C", plan_c); (# "D", plan_d); (# "F", Check (next $ "F")); (# "G", plan_g);
  (# "H", plan_h); (# "J", plan_j); (# "K", Check (next $ "K")); (# "L", plan_l); (# "M", plan_m);
  (# "N", Check (next $ "N")); (# "P", plan_p); (# "Q", Check (next $ "Q")); (# "R", plan_r); (# "S", plan_s);
  (# "T", plan_t); (# "V", Check (next $ "V")); (# "W", plan_w); (# "X", plan_x); (# "Z", plan_z)].

(** Reading [rest] after [before], with the codes [p] and [a] so far: a letter is reached, before both
    codes have their full length, whose looks meet a torn character. *)
Definition unfinished (max : option nat) (p a : ustr) : Prop :=
  match max with None => True | Some n => (length p < n)%nat \/ (length a < n)%nat end.
Inductive dm_torn (max : option nat) : ustr -> ustr -> ustr -> ustr -> Prop :=
| dt_now : forall before c rest p a pl, unfinished max p a -> In (c, pl) plans ->
    torn_plan (before ++ c :: rest) (length (in_places before)) pl ->
    dm_torn max before (c :: rest) p a
| dt_later : forall before c rest r p a p' a' k, unfinished max p a ->
    rule_of double_metaphone_table_any (nothing 0) c r ->
    gives (in_places (before ++ c :: rest)) (length (in_places before)) r (p', a', k) ->
    dm_torn max (before ++ c :: firstn k rest) (skipn k rest) (p ++ p') (a ++ a') ->
    dm_torn max before (c :: rest) p a.

(** The uppercase text without surrounding white space makes the program panic. *)
Definition double_metaphone_panics (max : option nat) (text : ustr) : Prop :=
  exists i, dm_start text i /\ dm_torn max (firstn i text) (skipn i text) [] [].
