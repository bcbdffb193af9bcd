(** * Metaphone does not tell EI from IE inside a name: proofs. *)
From Verif Require Import Base UnicodeM Lib Helper Metaphone BaseLemmas Spec_common Spec_rewrite Spec_contextual
  Spec_metaphone Spec_doubled Rewrite_proofs Contextual_proofs Soundex_proofs UnicodeLemmas Cologne_proofs Metaphone_proofs
  Metaphone_spec_proofs Metaphone_doubled_proofs.
Local Open Scope N_scope.

(** The two letters. *)
Definition ei (c : N) : Prop := c = # "E" \/ c = # "I".
Section Swap.
Variables (a b : ustr) (x y : N).
Hypothesis Ha : a <> [].
Hypothesis Hx : ei x.
Hypothesis Hy : ei y.
Hypothesis Hxy : x <> y.
Let t1 := a ++ x :: y :: b.
Let t2 := a ++ y :: x :: b.
Let k := length a.
Lemma k_pos : (0 < k)%nat.
Proof. unfold k. destruct a; [congruence|cbn; lia]. Qed.
Lemma nth_other : forall j, j <> k -> j <> S k -> nth_error t2 j = nth_error t1 j.
Proof.
  intros j H1 H2. unfold t1, t2, k in *. destruct (Nat.lt_ge_cases j (length a)) as [L|G].
  - now rewrite !nth_error_app1 by lia.
  - rewrite !nth_error_app2 by lia. destruct (j - length a)%nat as [|[|n]] eqn:E; [lia|lia|reflexivity].
Qed.
Lemma nth1_k : nth_error t1 k = Some x.
Proof. unfold t1, k. rewrite nth_error_app2, Nat.sub_diag by lia. reflexivity. Qed.
Lemma nth2_k : nth_error t2 k = Some y.
Proof. unfold t2, k. rewrite nth_error_app2, Nat.sub_diag by lia. reflexivity. Qed.
Lemma nth1_sk : nth_error t1 (S k) = Some y.
Proof. unfold t1, k. rewrite nth_error_app2 by lia. replace (S (length a) - length a)%nat with 1%nat by lia. reflexivity. Qed.
Lemma nth2_sk : nth_error t2 (S k) = Some x.
Proof. unfold t2, k. rewrite nth_error_app2 by lia. replace (S (length a) - length a)%nat with 1%nat by lia. reflexivity. Qed.
Lemma len_same : length t2 = length t1.
Proof. unfold t1, t2. rewrite !app_length. reflexivity. Qed.

(** What a letter gives depends little on E or I around it. *)
Lemma sym_after : forall l p p' m1 m2 c, ei p -> ei p' -> sym false l (Some p) m1 m2 c = sym false l (Some p') m1 m2 c.
Proof. intros l p p' m1 m2 c [->| ->] [->| ->]; reflexivity. Qed.
Lemma sym_at2 : forall f l p m1 m2 m2' c, ei m2 -> ei m2' -> sym f l p m1 (Some m2) c = sym f l p m1 (Some m2') c.
Proof.
  intros f l p m1 m2 m2' c [->| ->] [->| ->]; try reflexivity; unfold sym; cbv zeta;
    repeat match goal with |- context[opt_is m1 ?e] => destruct (opt_is m1 e) end; reflexivity.
Qed.
Lemma sym_at1 : forall f l p m1 m1' m2 m2' c, ei m1 -> ei m1' -> ei m2 -> ei m2' ->
  sym f l p (Some m1) (Some m2) c = sym f l p (Some m1') (Some m2') c.
Proof.
  intros f l p m1 m1' m2 m2' c [->| ->] [->| ->] [->| ->] [->| ->]; reflexivity.
Qed.
Lemma sym_same : forall i c, i <> k -> i <> S k -> nth_error t1 i = Some c ->
  sym (Nat.eqb i 0) (Nat.leb 4 (length t1)) (prev t1 i) (n1 t1 i) (n2 t1 i) c
  = sym (Nat.eqb i 0) (Nat.leb 4 (length t2)) (prev t2 i) (n1 t2 i) (n2 t2 i) c.
Proof.
  intros i c H1 H2 X. rewrite len_same. pose proof k_pos as Kp.
  destruct (Nat.lt_ge_cases i k) as [L|G].
  - assert (P : prev t2 i = prev t1 i). { unfold prev. destruct (Nat.ltb 0 i); [|reflexivity]. apply nth_other; lia. }
    rewrite P. destruct (Nat.eq_dec (i + 1) k) as [E|E].
    + unfold n1, n2. rewrite E. replace (i + 2)%nat with (S k) by lia. rewrite nth1_k, nth2_k, nth1_sk, nth2_sk. now apply sym_at1.
    + assert (E1 : n1 t2 i = n1 t1 i) by (apply nth_other; lia). rewrite E1.
      destruct (Nat.eq_dec (i + 2) k) as [F|F].
      * unfold n2. rewrite F, nth1_k, nth2_k. now apply sym_at2.
      * assert (E2 : n2 t2 i = n2 t1 i) by (apply nth_other; lia). now rewrite E2.
  - assert (E1 : n1 t2 i = n1 t1 i) by (apply nth_other; lia).
    assert (E2 : n2 t2 i = n2 t1 i) by (apply nth_other; lia). rewrite E1, E2.
    replace (Nat.eqb i 0) with false by (symmetry; apply Nat.eqb_neq; lia).
    destruct (Nat.eq_dec i (S (S k))) as [->|D].
    + unfold prev. replace (Nat.ltb 0 (S (S k))) with true by reflexivity. replace (S (S k) - 1)%nat with (S k) by lia.
      rewrite nth1_sk, nth2_sk. now apply sym_after.
    + assert (P : prev t2 i = prev t1 i). { unfold prev. destruct (Nat.ltb 0 i); [|reflexivity]. apply nth_other; lia. }
      now rewrite P.
Qed.
(** Inside a text a vowel is silent. *)
Lemma vowel_silent : forall t i c code, (0 < i)%nat -> nth_error t i = Some c -> ei c -> (reads t i code <-> reads t (i + 1) code).
Proof.
  intros t i c code P X E. assert (S0 : sym (Nat.eqb i 0) (Nat.leb 4 (length t)) (prev t i) (n1 t i) (n2 t i) c = ([], 0%nat)).
  { replace (Nat.eqb i 0) with false by (symmetry; apply Nat.eqb_neq; lia). destruct E as [->| ->]; reflexivity. }
  split; intros R.
  - inversion R as [j H|j c' code' X' C' P' R'|j c' r out n code' X' C' Ro G R']; subst.
    + assert (i < length t)%nat by (apply nth_error_Some; congruence). lia.
    + exact R'.
    + rewrite X in X'. injection X' as <-. pose proof (letter_inv _ _ _ _ _ _ X Ro G) as Q. rewrite S0 in Q. injection Q as <- <-.
      now rewrite Nat.add_0_r in R'.
  - assert (D : prev t i = Some c \/ prev t i <> Some c).
    { destruct (prev t i) as [d|]; [|right; discriminate]. destruct (N.eqb_spec d c) as [->|D]; [now left|right; congruence]. }
    destruct D as [D|D].
    + apply (rd_repeated t i c code X); [destruct E as [->| ->]; discriminate|now apply after_iff|exact R].
    + change code with ([] ++ code). apply (letter_step t i c [] 0 code X); [now right|exact S0|now rewrite Nat.add_0_r].
Qed.
Lemma reads_swapped : forall i code, reads t1 i code -> reads t2 i code.
Proof.
  intros i code R. pose proof k_pos as Kp. induction R as [i H|i c code X C P R IH|i c r out j code X C Ro G R IH].
  - apply rd_end. now rewrite len_same.
  - destruct (Nat.eq_dec i k) as [->|D1]; [now apply (vowel_silent t2 k y code Kp nth2_k Hy)|].
    destruct (Nat.eq_dec i (S k)) as [->|D2]; [apply (vowel_silent t2 (S k) x code); [lia|exact nth2_sk|exact Hx|exact IH]|].
    apply after_iff in P. assert (X2 : nth_error t2 i = Some c) by (now rewrite nth_other by assumption).
    destruct (Nat.eq_dec i (S (S k))) as [->|D3].
    + unfold prev in P. replace (Nat.ltb 0 (S (S k))) with true in P by reflexivity.
      replace (S (S k) - 1)%nat with (S k) in P by lia. rewrite nth1_sk in P. injection P as <-.
      apply (vowel_silent t2 (S (S k)) y code); [lia|exact X2|exact Hy|exact IH].
    + apply (rd_repeated t2 i c code X2 C); [|exact IH]. apply after_iff. rewrite <- P. unfold prev.
      destruct (Nat.ltb_spec 0 i); [apply nth_other; lia|reflexivity].
  - pose proof (letter_inv _ _ _ _ _ _ X Ro G) as Q.
    destruct (Nat.eq_dec i k) as [->|D1].
    { rewrite nth1_k in X. injection X as <-.
      replace (Nat.eqb k 0) with false in Q by (symmetry; apply Nat.eqb_neq; lia).
      assert (E : (out, j) = ([], 0%nat)) by (rewrite <- Q; destruct Hx as [->| ->]; reflexivity). injection E as -> ->.
      rewrite Nat.add_0_r in IH. cbn [app]. now apply (vowel_silent t2 k y code Kp nth2_k Hy). }
    destruct (Nat.eq_dec i (S k)) as [->|D2].
    { rewrite nth1_sk in X. injection X as <-.
      assert (E : (out, j) = ([], 0%nat)) by (rewrite <- Q; destruct Hy as [->| ->]; reflexivity). injection E as -> ->.
      rewrite Nat.add_0_r in IH. cbn [app]. apply (vowel_silent t2 (S k) x code); [lia|exact nth2_sk|exact Hx|exact IH]. }
    assert (X2 : nth_error t2 i = Some c) by (now rewrite nth_other by assumption).
    rewrite (sym_same i c D1 D2 X) in Q. rewrite after_iff in C.
    destruct (Nat.eq_dec i (S (S k))) as [->|D3].
    + assert (Dc : ei c \/ ~ ei c). { unfold ei. destruct (N.eqb_spec c (# "E")); [left; now left|]. destruct (N.eqb_spec c (# "I")); [left; now right|]. right. tauto. }
      destruct Dc as [Dc|Dc].
      * assert (E : (out, j) = ([], 0%nat)).
        { rewrite <- Q. destruct Dc as [->| ->]; reflexivity. }
        injection E as -> ->. rewrite Nat.add_0_r in IH. cbn [app]. apply (vowel_silent t2 (S (S k)) c code); [lia|exact X2|exact Dc|exact IH].
      * apply (letter_step t2 (S (S k)) c out j code X2); [right|exact Q|exact IH].
        unfold prev. replace (Nat.ltb 0 (S (S k))) with true by reflexivity. replace (S (S k) - 1)%nat with (S k) by lia.
        rewrite nth2_sk. intros [= <-]. now apply Dc.
    + apply (letter_step t2 i c out j code X2); [|exact Q|exact IH].
      assert (P : prev t2 i = prev t1 i). { unfold prev. destruct (Nat.ltb_spec 0 i); [apply nth_other; lia|reflexivity]. }
      now rewrite P.
Qed.
End Swap.
(** Two letters are enough to keep the beginning apart. *)
Lemma local_front : forall p q a, exists a', a' <> [] /\ forall r, mt_local (p :: q :: a ++ r) = a' ++ r.
Proof.
  intros p q a. unfold mt_local. cbn [hd_error opt_is tl].
  destruct (isin p _); [destruct (q =? # "N")|].
  1: exists (q :: a); now split. 1: exists (p :: q :: a); now split.
  destruct (p =? # "A"); [destruct (q =? # "E")|].
  1: exists (q :: a); now split. 1: exists (p :: q :: a); now split.
  destruct (p =? # "W"); [destruct (q =? # "R"); [|destruct (q =? # "H")]|].
  1: exists (q :: a); now split. 1: exists (# "W" :: a); now split. 1: exists (p :: q :: a); now split.
  destruct (p =? # "X"); [exists (# "S" :: q :: a)|exists (p :: q :: a)]; now split.
Qed.
Lemma metaphone_front : forall max a b code, (2 <= length a)%nat -> forall x y, ei x -> ei y -> x <> y ->
  metaphone_code max (a ++ x :: y :: b) code -> metaphone_code max (a ++ y :: x :: b) code.
Proof.
  intros max a b code L x y Hx Hy D [[L1 _]|[L1 (text & full & St & R & ->)]].
  - rewrite app_length in L1. lia.
  - right. split; [rewrite app_length; cbn [length]; lia|].
    destruct a as [|p [|q a]]; cbn [length] in L; [lia..|]. destruct (local_front p q a) as (a' & Na & Lf).
    apply start_rewritten_iff in St. rewrite <- mt_local_rw in St. cbn [app] in *. rewrite Lf in St. subst text.
    exists (a' ++ y :: x :: b), full. split; [apply start_rewritten_iff; now rewrite <- mt_local_rw, Lf|]. split; [|reflexivity].
    now apply (reads_swapped a' b x y).
Qed.
