(** * Names without a code (independent of the model).
    An encoder that only keeps some sounds of a name can be left with nothing: all
    such names then have the same, empty, code. *)
From Verif Require Import Base Spec_common.
Local Open Scope N_scope.

(** ** NYSIIS
    Letters that are all written S after an S (the letters of SCH count as S's, so that another
    CH after them counts too)... *)
Inductive hisses : ustr -> Prop :=
| hi_end : hisses []
| hi_H : forall r, hisses r -> hisses (# "H" :: r)
| hi_Z : forall r, hisses r -> hisses (# "Z" :: r)
| hi_S : forall r, hisses r -> hisses (# "S" :: r)
| hi_SCH : forall r, hisses (# "S" :: r) -> hisses (# "S" :: # "C" :: # "H" :: r).
(** ... and letters that are all written A after an A, followed by such letters, the first of
    them S or Z. *)
Inductive only_A_then_S : ustr -> Prop :=
| as_vowel : forall c r, In c $ "AEIOU" -> only_A_then_S r -> only_A_then_S (c :: r)
| as_W : forall r, only_A_then_S r -> only_A_then_S (# "W" :: r)
| as_H : forall c r, ~ In c $ "AEIOU" -> only_A_then_S (c :: r) -> only_A_then_S (# "H" :: c :: r)
| as_hiss : forall c r, In c $ "SZ" -> hisses (c :: r) -> only_A_then_S (c :: r).
Definition nysiis_keyless (letters : ustr) : Prop :=
  letters = [] \/ exists r, letters = # "A" :: r /\ only_A_then_S r.

(** ** Metaphone
    A letter of the text (the name with the silent beginning, such as the K of KN, dropped)
    that gives nothing, in a text where no letter gives anything: anything but A-Z; a vowel after the
    first letter; and one of G, H, W, Y that repeats the letter before it, or is a G before H and
    no vowel after that, an H after G or before no vowel, or a W or Y before no vowel. *)
Definition stands (text : ustr) (i : nat) (set : ustr) : Prop :=
  exists c, nth_error text i = Some c /\ In c set.
Definition metaphone_quiet (text : ustr) (i : nat) (c : N) : Prop :=
  ~ (# "A" <= c <= # "Z")
  \/ ((0 < i)%nat /\ In c $ "AEIOU")
  \/ (In c $ "GHWY" /\
       (((0 < i)%nat /\ stands text (i - 1) [c])
        \/ (c = # "G" /\ stands text (i + 1) $ "H" /\ ~ stands text (i + 2) $ "AEIOU")
        \/ (c = # "H" /\ (((0 < i)%nat /\ stands text (i - 1) $ "G") \/ ~ stands text (i + 1) $ "AEIOU"))
        \/ (In c $ "WY" /\ ~ stands text (i + 1) $ "AEIOU"))).
