(** * C68: Metaphone computes its published rules. *)
From Verif Require Import Base UnicodeM Lib Helper Metaphone BaseLemmas Spec_common Spec_rewrite Spec_contextual
  Spec_metaphone Rewrite_proofs Contextual_proofs Soundex_proofs UnicodeLemmas Cologne_proofs Metaphone_proofs
  Metaphone_spec_proofs Props_metaphone.
Local Open Scope N_scope.

Lemma ascii_up_not_lower : forall c, is_ascii_lower (ascii_up c) = false.
Proof.
  intros c. unfold ascii_up. destruct (is_ascii_lower c) eqn:E; [|exact E].
  unfold is_ascii_lower in *. apply andb_true_iff in E as [E1 E2]. apply N.leb_le in E1. apply N.leb_le in E2.
  apply andb_false_iff. left. apply N.leb_gt. lia.
Qed.
Lemma local_not_lower : forall s x, In x (mt_local (map ascii_up s)) -> is_ascii_lower x = false.
Proof.
  intros s x Hx. apply mt_local_in in Hx as [Hx|[->| ->]]; [|reflexivity|reflexivity].
  apply in_map_iff in Hx as (y & <- & _). apply ascii_up_not_lower.
Qed.

(** For every ASCII text and every limit, the code is the published one and no other. *)
Theorem C68_metaphone_is_its_definition : forall u max s code, ascii_str s ->
  (metaphone_encode u max s = Ok code <-> metaphone_code max (map ascii_up s) code).
Proof.
  intros u max s code A.
  assert (Lm : length (map ascii_up s) = length s) by apply map_length.
  assert (U : str_upper u s = map ascii_up s) by now apply str_upper_ascii.
  assert (Au : ascii_str (map ascii_up s)).
  { intros x Hx. apply in_map_iff in Hx as (y & <- & Hy). apply ascii_up_lt. now apply A. }
  destruct (Nat.eq_dec (length s) 1) as [L1|L1].
  - assert (E : metaphone_encode u max s = Ok (map ascii_up s)).
    { unfold metaphone_encode. rewrite U, ascii_blen, Lm, L1 by assumption. reflexivity. }
    rewrite E. unfold metaphone_code. rewrite Lm. split.
    + intros K. injection K as <-. now left.
    + intros [[_ ->]|[K _]]; [reflexivity|contradiction].
  - assert (M : forall mx, metaphone_encode u mx s
        = let local := mt_local (map ascii_up s) in mt_loop mx local (length local) 0 0 local []).
    { intros mx. unfold metaphone_encode. rewrite U, ascii_blen, Lm by assumption.
      replace (Nat.eqb (length s) 1) with false by (symmetry; now apply Nat.eqb_neq).
      cbv zeta. rewrite ascii_blen by (now apply mt_local_ascii). reflexivity. }
    destruct (C24_total_on_ascii u None s A) as [full Hf].
    assert (Hc : metaphone_encode u max s = Ok (cut max full)).
    { destruct max as [n|]; [|exact Hf]. apply C23_max_length_is_truncation; [|exact Hf].
      rewrite U, ascii_blen, Lm by assumption. exact L1. }
    rewrite M in Hf. cbv zeta in Hf.
    destruct (mt_loop_reads _ (mt_local_ascii _ Au) (local_not_lower s) _ 0%nat 0%nat [] full eq_refl Hf) as (c2 & R & E2).
    cbn [app Nat.add] in E2, R. subst c2. rewrite Hc. unfold metaphone_code. rewrite Lm.
    rewrite mt_local_rw in R. split.
    + intros K. injection K as <-. right. split; [exact L1|].
      exists (start_rw metaphone_beginnings (map ascii_up s)), full.
      split; [now apply start_rewritten_iff|]. split; [exact R|reflexivity].
    + intros [[K _]|(_ & text & f & St & Rf & ->)]; [contradiction|].
      apply start_rewritten_iff in St. subst text. now rewrite (reads_unique _ _ _ R _ Rf).
Qed.
(** Every word has exactly one published code: the rules are complete and unambiguous. *)
Theorem C68_code_exists_unique : forall max s, ascii_str s ->
  exists code, metaphone_code max (map ascii_up s) code
               /\ forall code', metaphone_code max (map ascii_up s) code' -> code' = code.
Proof.
  intros max s A. destruct (C24_total_on_ascii latin1_only max s A) as [code Hc].
  exists code. split; [now apply (C68_metaphone_is_its_definition latin1_only)|].
  intros code' H. apply (C68_metaphone_is_its_definition latin1_only) in H; [congruence|exact A].
Qed.
Example C68_nonvacuous :
  metaphone_code (Some 4%nat) $ "KNIGHT" $ "NT" /\ metaphone_code None $ "BRIDGES" $ "BRJS"
  /\ metaphone_code (Some 4%nat) $ "X" $ "X".
Proof.
  split; [|split].
  - apply (C68_metaphone_is_its_definition latin1_only (Some 4%nat) $ "knight");
      [apply ascii_strb; reflexivity|vm_compute; reflexivity].
  - apply (C68_metaphone_is_its_definition latin1_only None $ "Bridges");
      [apply ascii_strb; reflexivity|vm_compute; reflexivity].
  - apply (C68_metaphone_is_its_definition latin1_only (Some 4%nat) $ "x");
      [apply ascii_strb; reflexivity|vm_compute; reflexivity].
Qed.
