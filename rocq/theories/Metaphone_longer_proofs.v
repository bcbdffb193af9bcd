(** * Metaphone and longer texts: proofs. *)
From Verif Require Import Base UnicodeM Lib Helper Metaphone BaseLemmas Spec_common Spec_rewrite Spec_contextual
  Spec_metaphone Rewrite_proofs Contextual_proofs Soundex_proofs UnicodeLemmas Cologne_proofs Metaphone_proofs
  Metaphone_spec_proofs Metaphone_doubled_proofs.
Local Open Scope N_scope.

Lemma sym_X : forall f l p m1 m2, sym f l p m1 m2 (# "X") = ($ "KS", 0%nat).
Proof. reflexivity. Qed.
Lemma sym_before_X : forall f l l' p m2 m2' x, sym f l p (Some (# "X")) m2 x = sym f l' p (Some (# "X")) m2' x.
Proof.
  intros. unfold sym; cbv [isin_opt opt_is isin existsb N.eqb Pos.eqb orb andb Vowel];
    repeat match goal with |- context[if ?x then _ else _] => destruct x end; reflexivity.
Qed.
Lemma sym_short : forall f l p m1 m2 x out j, x <> # "X" -> sym f l p m1 m2 x = (out, j) -> (length out <= 1)%nat.
Proof.
  intros f l p m1 m2 x out j X H. apply N.eqb_neq in X. unfold sym in H. cbv zeta in H. rewrite X in H.
  repeat match type of H with (if ?e then _ else _) = _ => destruct e end; injection H as <- _; cbn; lia.
Qed.
Lemma sym_last : forall f l p m2 x out j, sym f l p None m2 x = (out, j) -> j = 0%nat.
Proof.
  intros f l p m2 x out j H. destruct (sym_skip _ _ _ _ _ _ _ _ H) as [H1|(_ & H1 & _)]; [exact H1|discriminate].
Qed.

Section Longer.
Variables a b : ustr.
Hypothesis total : forall i, exists code, reads (a ++ b) i code.
Let k := length a.
Let t := a ++ b.
Lemma nth_a : forall i, (i < k)%nat -> nth_error t i = nth_error a i.
Proof. intros i H. unfold t, k in *. now rewrite nth_error_app1. Qed.
Lemma prev_a : forall i, (i <= k)%nat -> prev t i = prev a i.
Proof. intros i H. unfold prev. destruct (Nat.ltb_spec 0 i); [|reflexivity]. apply nth_a. lia. Qed.
Definition kept_from i code := exists kept given_up added, code = kept ++ given_up /\ reads t i (kept ++ added) /\ (length given_up <= 2)%nat.
Lemma short_kept : forall i code, (length code <= 2)%nat -> kept_from i code.
Proof. intros i code H. destruct (total i) as [c R]. now exists [], code, c. Qed.
Lemma reads_end : forall i code, reads a i code -> (k <= i)%nat -> code = [].
Proof.
  intros i code R L. assert (N0 : nth_error a i = None) by now apply nth_error_None.
  inversion R; subst; [reflexivity|congruence|congruence].
Qed.
Lemma last_code : forall code, reads a (k - 1) code -> nth_error a (k - 1) <> Some (# "X") -> (length code <= 1)%nat.
Proof.
  intros code R X. inversion R as [i H E1 E2|i x c E1 E2 E3 E4 E5 E6|i x r out j c E1 E2 E3 E4 E5 E6 E7]; subst; [cbn; lia| |].
  - apply reads_end in E4; [subst; cbn; lia|]. lia.
  - apply (letter_inv _ _ _ _ _ _ E1 E3) in E4. apply reads_end in E5; [subst c|lia].
    rewrite app_nil_r. apply sym_short in E4; [exact E4|]. congruence.
Qed.
Lemma reads_longer : forall i code, reads a i code -> (i <= k)%nat -> kept_from i code.
Proof.
  intros i code R. induction R as [i H|i x code X C P R IH|i x r out j code X C Ro G R IH]; intros L.
  - apply short_kept. cbn. lia.
  - assert (i < k)%nat. { apply nth_error_Some. congruence. }
    destruct (IH ltac:(lia)) as (p & q & q' & -> & R' & Q). exists p, q, q'. split; [reflexivity|]. split; [|exact Q].
    apply (rd_repeated t i x); [now rewrite nth_a|exact C| |exact R']. apply after_iff. rewrite prev_a by lia. now apply after_iff.
  - assert (I : (i < k)%nat). { apply nth_error_Some. congruence. }
    pose proof (letter_inv _ _ _ _ _ _ X Ro G) as E. rewrite after_iff in C.
    assert (STEP : sym (Nat.eqb i 0) (Nat.leb 4 (length t)) (prev a i) (n1 t i) (n2 t i) x = (out, j) -> (i + 1 + j <= k)%nat -> kept_from i (out ++ code)).
    { intros E' J. destruct (IH J) as (p & q & q' & -> & R' & Q). exists (out ++ p), q, q'. split; [now rewrite app_assoc|]. split; [|exact Q].
      rewrite <- app_assoc. apply (letter_step t i x out j); [now rewrite nth_a|now rewrite prev_a by lia|now rewrite prev_a by lia|exact R']. }
    destruct (N.eq_dec x (# "X")) as [->|NX].
    { apply STEP; [|]. - rewrite sym_X in *. exact E. - rewrite sym_X in E. injection E as _ <-. lia. }
    pose proof (sym_short _ _ _ _ _ _ _ _ NX E) as SH.
    destruct (Nat.eq_dec (i + 1) k) as [D1|D1].
    { assert (i = (k - 1)%nat) by lia. subst i. apply short_kept.
      enough (length (out ++ code) <= 1)%nat by lia. apply last_code; [|congruence].
      now apply (rd_letter a (k - 1) x r out j code); [..|rewrite after_iff| | |]. }
    destruct (Nat.eq_dec (i + 2) k) as [D2|D2].
    { destruct (option_map (fun y => N.eqb y (# "X")) (n1 a i)) as [[|]|] eqn:M.
      - destruct (n1 a i) as [y|] eqn:N1; [|discriminate M]. injection M as M. apply N.eqb_eq in M. subst y.
        assert (N1t : n1 t i = Some (# "X")). { unfold n1 in *. rewrite nth_a by lia. exact N1. }
        apply STEP. + rewrite N1t. rewrite <- E. apply sym_before_X.
        + destruct (sym_skip _ _ _ _ _ _ _ _ E) as [->|(_ & W & _)]; [lia|discriminate W].
      - apply short_kept. rewrite app_length. assert (j = 0%nat) as ->.
        { destruct (sym_skip _ _ _ _ _ _ _ _ E) as [->|(_ & _ & y & W & _)]; [reflexivity|].
          exfalso. unfold n2 in W. assert (V : nth_error a (i + 2) = None) by (apply nth_error_None; unfold k in *; lia). congruence. }
        replace (i + 1 + 0)%nat with (k - 1)%nat in R by lia.
        assert (length code <= 1)%nat; [|lia]. apply last_code; [exact R|]. intros W. unfold n1 in M. replace (i + 1)%nat with (k - 1)%nat in M by lia.
        rewrite W in M. discriminate M.
      - exfalso. destruct (n1 a i) as [y|] eqn:N1; [discriminate M|]. apply nth_error_None in N1. unfold k in *. lia. }
    assert (E1 : n1 t i = n1 a i) by (apply nth_a; lia). assert (E2 : n2 t i = n2 a i) by (apply nth_a; lia).
    assert (J : (i + 1 + j <= k)%nat) by (destruct (sym_skip _ _ _ _ _ _ _ _ E) as [->|(-> & _)]; lia).
    destruct (Nat.leb_spec 4 (length a)) as [G4|G4].
    { apply STEP; [|exact J]. rewrite E1, E2. replace (Nat.leb 4 (length t)) with true; [exact E|].
      symmetry. apply Nat.leb_le. unfold t. rewrite app_length. lia. }
    assert (CH : (x = # "C" /\ Nat.eqb i 0 = true /\ n1 a i = Some (# "H") /\ isin_opt (n2 a i) Vowel = true) \/
                 ~ (x = # "C" /\ Nat.eqb i 0 = true /\ n1 a i = Some (# "H") /\ isin_opt (n2 a i) Vowel = true)).
    { destruct (N.eq_dec x (# "C")); [|right; intuition congruence]. destruct (Nat.eqb i 0); [|right; intuition congruence].
      destruct (isin_opt (n2 a i) Vowel); [|right; intuition congruence].
      destruct (n1 a i) as [y|]; [|right; intuition congruence].
      destruct (N.eq_dec y (# "H")) as [->|]; [left; auto|right; intuition congruence]. }
    destruct CH as [(-> & I0 & N1 & N2)|CH].
    + (* CHA, CHE, ... : the whole code is one letter *)
      apply Nat.eqb_eq in I0. subst i. assert (K3 : k = 3%nat) by (unfold k in *; lia).
      apply short_kept. rewrite app_length.
      assert (j = 0%nat) as -> by (destruct (sym_skip _ _ _ _ _ _ _ _ E) as [->|(_ & W & _)]; [reflexivity|congruence]).
      cbn [Nat.add] in R. clear IH STEP.
      assert (length code <= 1)%nat; [|lia].
      inversion R as [i H Y1 Y2|i x' c Y1 Y2 Y3 Y4 Y5 Y6|i x' r' out' j' c Y1 Y2 Y3 Y4 Y5 Y6 Y7]; subst; [cbn; lia| |].
      * apply after_iff in Y3. assert (PV : prev a 1 = Some (# "C")) by exact X. unfold n1 in N1. cbn [Nat.add] in N1. congruence.
      * apply (letter_inv _ _ _ _ _ _ Y1 Y3) in Y4. unfold n1 in N1. cbn [Nat.add] in N1. rewrite N1 in Y1. injection Y1 as <-.
        assert (PV : prev a 1 = Some (# "C")) by exact X. rewrite PV in Y4. unfold sym in Y4. cbv [isin_opt isin existsb N.eqb Pos.eqb orb Vowel] in Y4.
        injection Y4 as <- <-. cbn [app Nat.add] in *. replace 2%nat with (k - 1)%nat in Y5 by lia. apply last_code; [exact Y5|].
        rewrite K3. cbn [Nat.sub]. unfold n2 in N2. cbn [Nat.add] in N2. intros W. rewrite W in N2. discriminate N2.
    + apply STEP; [|exact J]. rewrite E1, E2. rewrite <- E. apply sym_long. exact CH.
Qed.
End Longer.
Lemma local_longer : forall a b, (2 <= length a)%nat -> mt_local (a ++ b) = mt_local a ++ b.
Proof.
  intros [|x [|y a]] b H; cbn in H; try lia. cbn [app]. unfold mt_local. cbn [hd_error opt_is tl].
  repeat match goal with |- context[if ?e then _ else _] => destruct e end; reflexivity.
Qed.
Lemma reads_total : forall t n i, (length t <= n + i)%nat -> exists code, reads t i code.
Proof.
  intros t n. induction n as [|n IH]; intros i H; [exists []; now apply rd_end|].
  destruct (nth_error t i) as [x|] eqn:X; [|exists []; apply rd_end; now apply nth_error_None].
  assert (D : (x <> # "C" /\ prev t i = Some x) \/ (x = # "C" \/ prev t i <> Some x)).
  { destruct (N.eq_dec x (# "C")) as [->|C]; [right; now left|].
    destruct (prev t i) as [y|]; [|right; right; discriminate]. destruct (N.eq_dec y x) as [->|P]; [now left|right; right; congruence]. }
  destruct D as [[C P]|D].
  - destruct (IH (i + 1)%nat) as [code R]; [lia|]. exists code. apply (rd_repeated t i x); auto. now apply after_iff.
  - destruct (sym (Nat.eqb i 0) (Nat.leb 4 (length t)) (prev t i) (n1 t i) (n2 t i) x) as [out j] eqn:E.
    destruct (IH (i + 1 + j)%nat) as [code R]; [lia|]. exists (out ++ code). now apply (letter_step t i x out j).
Qed.
