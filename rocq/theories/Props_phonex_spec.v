(** * C66: Phonex computes its rules. *)
From Verif Require Import Base UnicodeM Lib Helper Phonex BaseLemmas Spec_common Spec_rewrite Spec_phonex
  Soundex_proofs UnicodeLemmas Phonex_proofs Phonex_spec_proofs UnicodeReal Upper_ok.
Local Open Scope N_scope.

(** The code is the declarative code of the prepared name, cut or padded with 0. *)
Theorem C66_phonex_is_its_definition : forall u max s, (2 <= max)%nat -> letters_are_ascii (is_alphabetic u) s ->
  forall r, phonex_encode u max s = Ok r <->
    exists t code, phonex_prepared (ascii_letters s) t /\ phonex_code t code /\ r = pad_to max (# "0") code.
Proof.
  intros u max s Hm H r. destruct (phonex_model u max s Hm H) as (t & code & P1 & P2 & P3 & P4 & E). rewrite E. split.
  - intros X. injection X as <-. eauto.
  - intros (t' & code' & Q1 & Q2 & ->). apply P3 in Q1. subst t'. apply P4 in Q2. now subst.
Qed.

(** There is exactly one prepared name and one code. *)
Theorem C66_code_unique : forall s, letters_are_ascii (is_alphabetic latin1_only) s ->
  exists t code, phonex_prepared (ascii_letters s) t /\ phonex_code t code /\
    (forall t', phonex_prepared (ascii_letters s) t' -> t' = t) /\ (forall code', phonex_code t code' -> code' = code).
Proof.
  intros s H. destruct (phonex_model latin1_only 2 s (le_n _) H) as (t & code & P1 & P2 & P3 & P4 & _).
  exists t, code. auto.
Qed.

Example C66_nonvacuous : phonex_encode latin1_only 4 $ "Peter" = Ok $ "B360"
  /\ phonex_encode latin1_only 6 $ "Schultz" = Ok $ "S32000".
Proof. split; vm_compute; reflexivity. Qed.

(** ** Every text and every length *)
(** The name is the uppercase of the letters of the text in the Unicode tables [u];
    [LettersOK] (an ASCII character in the uppercase of a letter is one of A to Z)
    holds of the real ones ([Upper_ok.real_letters_ok]). *)
Theorem C66_every_text : forall u max s, LettersOK u ->
  forall r, phonex_encode u max s = Ok r <->
    exists t code, phonex_prepared (flat_map (to_upper u) (filter (is_alphabetic u) s)) t /\ phonex_code t code /\
      r = phonex_fitted max t code.
Proof.
  intros u max s H r. change (flat_map (to_upper u) (filter (is_alphabetic u) s)) with (soundex_clean u s).
  assert (C : capitals (soundex_clean u s)) by (intros c Hc; exact (clean_letters u s c H Hc)).
  destruct (phonex_fits_model u max s C) as (t & code & P1 & P2 & P3 & P4 & E). rewrite E. split.
  - intros X. injection X as <-. eauto.
  - intros (t' & code' & Q1 & Q2 & ->). apply P3 in Q1. subst t'. apply P4 in Q2. now subst.
Qed.
Theorem C66_every_code_unique : forall u s, LettersOK u ->
  exists t code, phonex_prepared (flat_map (to_upper u) (filter (is_alphabetic u) s)) t /\ phonex_code t code /\
    (forall t', phonex_prepared (flat_map (to_upper u) (filter (is_alphabetic u) s)) t' -> t' = t) /\
    (forall code', phonex_code t code' -> code' = code).
Proof.
  intros u s H. assert (C : capitals (soundex_clean u s)) by (intros c Hc; exact (clean_letters u s c H Hc)).
  destruct (phonex_fits_model u 0 s C) as (t & code & P1 & P2 & P3 & P4 & _). exists t, code. auto.
Qed.
Example C66_every_text_nonvacuous : LettersOK real_unicode
  /\ phonex_encode real_unicode 4 $ "Ålborg" = Ok $ "Å12"
  /\ phonex_encode real_unicode 1 $ "Ålborg" = Ok $ "Å12"
  /\ phonex_encode real_unicode 2 $ "Ålborg" = Ok $ "Å"
  /\ phonex_encode real_unicode 1 $ "Mdlbr" = Ok $ "M516".
Proof. split; [exact real_letters_ok|repeat split; vm_compute; reflexivity]. Qed.
