(** * Metaphone as published (uses nothing of the model).  The text is in
    uppercase ASCII. *)
From Verif Require Import Base Spec_common Spec_rewrite Spec_contextual.
Local Open Scope N_scope.

(** What is written for a letter, and how many of the letters after it are passed over. *)
Definition says (out : ustr) : rule (ustr * nat) := Out (out, 0%nat).
Definition silent : rule (ustr * nat) := says [].
Definition Vowel : ustr := $ "AEIOU".

Definition metaphone_table : table (ustr * nat) := [
  (Vowel,      fun c => If First (says [c]) silent);
  ($ "B",      fun _ => If (Both (After $ "M") Last) silent (says $ "B"));
  ($ "C",      fun _ => If (Both (After $ "S") (Before $ "EIY")) silent
                       (If (Next [$ "IA"]) (says $ "X")
                       (If (Before $ "EIY") (says $ "S")
                       (If (Both (After $ "S") (Before $ "H")) (says $ "K")
                       (If (Both (Both First (Long 4)) (Both (Before $ "H") (At 2 (letters Vowel)))) (says $ "K")
                       (If (Before $ "H") (says $ "X")
                        (says $ "K")))))));
  ($ "D",      fun _ => If (Next [$ "GE"; $ "GI"; $ "GY"]) (Out ($ "J", 2%nat)) (says $ "T"));
  ($ "G",      fun _ => If (Both (Before $ "H") (Not (At 2 (letters Vowel)))) silent
                       (If (Both (Not First) (Before $ "N")) silent
                       (If (Before $ "EIY") (says $ "J")
                        (says $ "K"))));
  ($ "H",      fun _ => If (After $ "CSPTG") silent
                       (If (Before Vowel) (says $ "H") silent));
  ($ "FJLMNR", fun c => says [c]);
  ($ "K",      fun _ => If (After $ "C") silent (says $ "K"));
  ($ "P",      fun _ => If (Before $ "H") (says $ "F") (says $ "P"));
  ($ "Q",      fun _ => says $ "K");
  ($ "S",      fun _ => If (Next [$ "H"; $ "IO"; $ "IA"]) (says $ "X") (says $ "S"));
  ($ "T",      fun _ => If (Next [$ "IO"; $ "IA"]) (says $ "X")
                       (If (Next [$ "CH"]) silent
                       (If (Before $ "H") (says $ "0")
                        (says $ "T"))));
  ($ "V",      fun _ => says $ "F");
  ($ "WY",     fun c => If (Before Vowel) (says [c]) silent);
  ($ "X",      fun _ => says $ "KS");
  ($ "Z",      fun _ => says $ "S") ].

(** The code of the text from position [i] on.  A letter repeating the one before it is
    silent, except C. *)
Inductive reads (text : ustr) : nat -> ustr -> Prop :=
| rd_end : forall i, (length text <= i)%nat -> reads text i []
| rd_repeated : forall i c code, nth_error text i = Some c ->
    c <> # "C" -> holds text i (After [c]) -> reads text (i + 1) code -> reads text i code
| rd_letter : forall i c r out k code, nth_error text i = Some c ->
    (c = # "C" \/ ~ holds text i (After [c])) ->
    rule_of metaphone_table silent c r -> gives text i r (out, k) ->
    reads text (i + 1 + k) code -> reads text i (out ++ code).

(** Beginnings of words spelt with silent letters. *)
Definition metaphone_beginnings : list (ustr * ustr) := [
  ($ "KN", $ "N"); ($ "GN", $ "N"); ($ "PN", $ "N"); ($ "AE", $ "E");
  ($ "WR", $ "R"); ($ "WH", $ "W"); ($ "X", $ "S") ].

(** At most [max] letters, when there is a limit. *)
Definition cut (max : option nat) (code : ustr) : ustr :=
  match max with Some n => firstn n code | None => code end.

(** The code of a word in uppercase; a word of one letter is its own code. *)
Definition metaphone_code (max : option nat) (word code : ustr) : Prop :=
  (length word = 1%nat /\ code = word)
  \/ (length word <> 1%nat /\ exists text full,
        start_rewritten metaphone_beginnings word text /\ reads text 0 full /\ code = cut max full).

(** ** Texts that are not ASCII
    The program looks at single characters by their place among the characters; but it compares
    words, and the length of the text, by bytes: the place of the letter among the characters is
    then used as a place among the bytes. *)
Inductive rule_any :=
| Letters (r : rule (ustr * nat))                 (** decided by the characters *)
| IfLetters (c : cond) (r1 r2 : rule_any)
| IfBytes (c : cond) (r1 r2 : rule_any).          (** decided by the bytes *)
Inductive gives_any (text : ustr) (i : nat) : rule_any -> ustr * nat -> Prop :=
| ga_letters : forall r a, gives text i r a -> gives_any text i (Letters r) a
| ga_yes : forall c r1 r2 a, holds text i c -> gives_any text i r1 a -> gives_any text i (IfLetters c r1 r2) a
| ga_no : forall c r1 r2 a, ~ holds text i c -> gives_any text i r2 a -> gives_any text i (IfLetters c r1 r2) a
| gb_yes : forall c r1 r2 a, holds (in_places text) i c -> gives_any text i r1 a -> gives_any text i (IfBytes c r1 r2) a
| gb_no : forall c r1 r2 a, ~ holds (in_places text) i c -> gives_any text i r2 a -> gives_any text i (IfBytes c r1 r2) a.

(** The letters whose rules look at bytes. *)
Definition byte_rules : list (N * rule_any) := [
  (# "B", IfLetters (After $ "M") (IfBytes Last (Letters silent) (Letters (says $ "B"))) (Letters (says $ "B")));
  (# "C", IfLetters (Both (After $ "S") (Before $ "EIY")) (Letters silent)
         (IfBytes (Here [$ "CIA"]) (Letters (says $ "X"))
         (IfLetters (Before $ "EIY") (Letters (says $ "S"))
         (IfLetters (Both (After $ "S") (Before $ "H")) (Letters (says $ "K"))
         (IfLetters (Both First (Both (Before $ "H") (At 2 (letters Vowel))))
            (IfBytes (Long 4) (Letters (says $ "K")) (Letters (says $ "X")))
            (Letters (If (Before $ "H") (says $ "X") (says $ "K"))))))));
  (# "G", IfLetters (Both (Before $ "H") (Not (At 2 (letters Vowel)))) (Letters silent)
         (IfLetters First (Letters (If (Before $ "EIY") (says $ "J") (says $ "K")))
         (IfBytes (Here [$ "GN"]) (Letters silent)
           (Letters (If (Before $ "EIY") (says $ "J") (says $ "K"))))));
  (# "S", IfBytes (Here [$ "SH"; $ "SIO"; $ "SIA"]) (Letters (says $ "X")) (Letters (says $ "S")));
  (# "T", IfBytes (Here [$ "TIO"; $ "TIA"]) (Letters (says $ "X"))
         (IfBytes (Here [$ "TCH"]) (Letters silent)
         (IfBytes (Here [$ "TH"]) (Letters (says $ "0")) (Letters (says $ "T"))))) ].
Inductive rule_any_of (c : N) : rule_any -> Prop :=
| ra_bytes : forall r, In (c, r) byte_rules -> rule_any_of c r
| ra_letters : forall r, (forall r', ~ In (c, r') byte_rules) -> rule_of metaphone_table silent c r ->
    rule_any_of c (Letters r).

Inductive reads_any (text : ustr) : nat -> ustr -> Prop :=
| rx_end : forall i, (length text <= i)%nat -> reads_any text i []
| rx_repeated : forall i c code, nth_error text i = Some c ->
    c <> # "C" -> holds text i (After [c]) -> reads_any text (i + 1) code -> reads_any text i code
| rx_letter : forall i c r out k code, nth_error text i = Some c ->
    (c = # "C" \/ ~ holds text i (After [c])) ->
    rule_any_of c r -> gives_any text i r (out, k) ->
    reads_any text (i + 1 + k) code -> reads_any text i (out ++ code).

(** The code of any word in uppercase; a word of one byte is its own code. *)
Definition metaphone_code_any (max : option nat) (word code : ustr) : Prop :=
  (length (in_places word) = 1%nat /\ code = word)
  \/ (length (in_places word) <> 1%nat /\ exists text full,
        start_rewritten metaphone_beginnings word text /\ reads_any text 0 full /\ code = cut max full).

(** ** Words on which the program panics
    The place of a letter among the characters falls, as a place among the bytes, inside a
    character, and the rule of the letter compares words there. *)
Definition inside_character (text : ustr) (p : nat) : Prop :=
  forall a b, text = a ++ b -> length (in_places a) <> p.
Definition looks_inside (text : ustr) (i : nat) (c : N) : Prop :=
  let size := length (in_places text) in
  inside_character text i /\
  ((c = # "C" /\ ~ holds text i (Both (After $ "S") (Before $ "EIY")) /\ (i + 3 <= size)%nat)
   \/ (c = # "G" /\ ~ holds text i First /\ ~ holds text i (Both (Before $ "H") (Not (At 2 (letters Vowel))))
       /\ (i + 2 <= size)%nat)
   \/ (In c $ "ST" /\ (i + 2 <= size)%nat)).
(** Reading on from position [i], with [n] letters of the code written, such a letter is met
    before the code is complete. *)
Inductive meets (max : option nat) (text : ustr) : nat -> nat -> Prop :=
| me_here : forall i n c, nth_error text i = Some c ->
    (forall m, max = Some m -> (n < m)%nat) ->
    (c = # "C" \/ ~ holds text i (After [c])) -> looks_inside text i c -> meets max text i n
| me_repeated : forall i n c, nth_error text i = Some c ->
    (forall m, max = Some m -> (n < m)%nat) ->
    c <> # "C" -> holds text i (After [c]) -> meets max text (i + 1) n -> meets max text i n
| me_letter : forall i n c r out k, nth_error text i = Some c ->
    (forall m, max = Some m -> (n < m)%nat) ->
    (c = # "C" \/ ~ holds text i (After [c])) ->
    rule_any_of c r -> gives_any text i r (out, k) ->
    meets max text (i + 1 + k) (n + length out) -> meets max text i n.
Definition metaphone_panics (max : option nat) (word : ustr) : Prop :=
  length (in_places word) <> 1%nat /\
  exists text, start_rewritten metaphone_beginnings word text /\ meets max text 0 0.
