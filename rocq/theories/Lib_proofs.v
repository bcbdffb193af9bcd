(** * Proofs about the encoder traits and CharSequence. *)
From Verif Require Import Base UnicodeM Lib Helper BaseLemmas Spec_common.
Local Open Scope N_scope.

Section Generic.
Variable enc : encoder.

Lemma ieq_defined : forall a b x,
  is_encoded_equals enc a b = Ok x <->
  exists ca cb, enc a = Ok ca /\ enc b = Ok cb /\ (x = true <-> ca = cb).
Proof.
  intros a b x. unfold is_encoded_equals. rewrite bind_Ok. split.
  - intros (ca & Ha & H). apply bind_Ok in H as (cb & Hb & H). injection H as <-.
    exists ca, cb. repeat split; auto; apply seq_eqb_eq.
  - intros (ca & cb & Ha & Hb & Hx). exists ca. split; [auto|]. rewrite Hb. cbn. f_equal.
    destruct (seq_eqb ca cb) eqn:E.
    + apply seq_eqb_eq in E. symmetry. now apply Hx.
    + apply seq_eqb_neq in E. destruct x; [|reflexivity]. exfalso. apply E. now apply Hx.
Qed.

Lemma ieq_refl : forall a c, enc a = Ok c -> is_encoded_equals enc a a = Ok true.
Proof. intros a c H. apply ieq_defined. exists c, c. repeat split; auto. Qed.
Lemma ieq_sym : forall a b x, is_encoded_equals enc a b = Ok x -> is_encoded_equals enc b a = Ok x.
Proof.
  intros a b x H. apply ieq_defined in H as (ca & cb & Ha & Hb & Hx).
  apply ieq_defined. exists cb, ca. repeat split; auto; intros E; [symmetry; now apply Hx | now apply Hx].
Qed.
Lemma ieq_trans : forall a b c,
  is_encoded_equals enc a b = Ok true -> is_encoded_equals enc b c = Ok true ->
  is_encoded_equals enc a c = Ok true.
Proof.
  intros a b c H1 H2. apply ieq_defined in H1 as (ca & cb & Ha & Hb & H1).
  apply ieq_defined in H2 as (cb' & cc & Hb' & Hc & H2).
  apply ieq_defined. exists ca, cc. repeat split; auto. intros _.
  rewrite Hb in Hb'. injection Hb' as <-. transitivity cb; [now apply H1 | now apply H2].
Qed.

(** ** difference *)
Lemma agreeing_cons : forall x y a b,
  agreeing_positions (x :: a) (y :: b)
  = ((if (x =? y)%N then 1 else 0) + agreeing_positions a b)%nat.
Proof.
  intros x y a b. unfold agreeing_positions. cbn [length seq filter nth_error].
  rewrite <- seq_shift.
  assert (H : forall l, length (filter (fun i => match nth_error (x :: a) i, nth_error (y :: b) i with
      | Some x0, Some y0 => x0 =? y0 | _, _ => false end) (map S l))
      = length (filter (fun i => match nth_error a i, nth_error b i with
      | Some x0, Some y0 => x0 =? y0 | _, _ => false end) l)).
  { induction l as [|i l IH]; [reflexivity|]. cbn [map filter nth_error].
    destruct (match nth_error a i with Some _ => _ | None => _ end); cbn [length]; now rewrite IH. }
  destruct (x =? y); cbn [length]; rewrite H; reflexivity.
Qed.
Lemma agreeing_nil_l : forall b, agreeing_positions [] b = 0%nat.
Proof. reflexivity. Qed.
Lemma agreeing_nil_r : forall a, agreeing_positions a [] = 0%nat.
Proof.
  intros a. unfold agreeing_positions. induction (seq 0 (length a)) as [|i l IH]; [auto|].
  cbn [filter]. destruct (nth_error a i); destruct i; exact IH.
Qed.
Lemma count_same_agreeing : forall a b, count_same a b = agreeing_positions a b.
Proof.
  induction a as [|x a IH]; intros b; [reflexivity|]. destruct b as [|y b].
  - rewrite agreeing_nil_r. reflexivity.
  - rewrite agreeing_cons. cbn [count_same]. rewrite IH. destruct (x =? y); reflexivity.
Qed.
Lemma agreeing_sym : forall a b, agreeing_positions a b = agreeing_positions b a.
Proof.
  induction a as [|x a IH]; intros [|y b].
  - reflexivity.
  - rewrite agreeing_nil_r. reflexivity.
  - rewrite agreeing_nil_r. reflexivity.
  - rewrite !agreeing_cons, IH, (N.eqb_sym x y). reflexivity.
Qed.
Lemma agreeing_le_l : forall a b, (agreeing_positions a b <= length a)%nat.
Proof.
  induction a as [|x a IH]; intros [|y b]; cbn [length].
  - rewrite agreeing_nil_l. lia.
  - rewrite agreeing_nil_l. lia.
  - rewrite agreeing_nil_r. lia.
  - rewrite agreeing_cons. specialize (IH b). destruct (x =? y); lia.
Qed.
Lemma agreeing_le_r : forall a b, (agreeing_positions a b <= length b)%nat.
Proof. intros. rewrite agreeing_sym. apply agreeing_le_l. Qed.
Lemma agreeing_full : forall a b, length a = length b ->
  (agreeing_positions a b = length a <-> a = b).
Proof.
  induction a as [|x a IH]; intros [|y b] L; try discriminate.
  - split; auto.
  - injection L as L. rewrite agreeing_cons. cbn [length].
    pose proof (agreeing_le_l a b). destruct (x =? y) eqn:E.
    + apply N.eqb_eq in E. subst y. split.
      * intros H0. f_equal. apply IH; lia.
      * intros H0. injection H0 as ->. assert (agreeing_positions b b = length b) by (now apply IH). lia.
    + apply N.eqb_neq in E. split; [lia|]. intros H0. injection H0. congruence.
Qed.

Lemma difference_spec : forall a b n,
  difference enc a b = Ok n <->
  exists ca cb, enc a = Ok ca /\ enc b = Ok cb /\ n = agreeing_positions ca cb.
Proof.
  intros a b n. unfold difference. rewrite bind_Ok. split.
  - intros (ca & Ha & H). apply bind_Ok in H as (cb & Hb & H). exists ca, cb.
    repeat split; auto. destruct ca as [|x ca]; [injection H as <-; reflexivity|].
    destruct cb as [|y cb]; [injection H as <-; now rewrite agreeing_nil_r|].
    injection H as <-. rewrite <- count_same_agreeing. reflexivity.
  - intros (ca & cb & Ha & Hb & ->). exists ca. split; [auto|]. rewrite Hb. cbn.
    destruct ca as [|x ca]; [reflexivity|]. destruct cb as [|y cb]; [now rewrite agreeing_nil_r|].
    rewrite <- count_same_agreeing. reflexivity.
Qed.

End Generic.

(** ** CharSequence *)
Lemma skipN_skipn : forall A (l : list A) n, skipN n l = skipn (N.to_nat n) l.
Proof.
  induction l as [|x l IH]; intros n; cbn [skipN].
  - now rewrite skipn_nil.
  - destruct (n =? 0) eqn:E.
    + apply N.eqb_eq in E. now subst.
    + apply N.eqb_neq in E. rewrite IH.
      replace (N.to_nat n) with (S (N.to_nat (n - 1))) by lia. reflexivity.
Qed.
Lemma skipn_char_indices : forall k s i,
  skipn k (char_indices_from i s) = char_indices_from (i + blen (firstn k s)) (skipn k s).
Proof.
  induction k as [|k IH]; intros s i.
  - cbn. now rewrite Nat.add_0_r.
  - destruct s as [|c s]; [reflexivity|]. cbn [char_indices_from skipn firstn blen].
    rewrite IH. f_equal. lia.
Qed.
Lemma hd_char_indices : forall i s,
  hd_error (char_indices_from i s) = match s with [] => None | c :: _ => Some (i, c) end.
Proof. intros i [|c s]; reflexivity. Qed.
Lemma slice_from_blen : forall a b, slice_from (blen a) (a ++ b) = Ok b.
Proof. intros. unfold slice_from. now rewrite split_byte_app. Qed.
Lemma slice_blen : forall a b c, slice (blen a) (blen (a ++ b)) (a ++ b ++ c) = Ok b.
Proof.
  intros. unfold slice. rewrite blen_app.
  replace (Nat.ltb (blen a + blen b) (blen a)) with false by (symmetry; apply Nat.ltb_ge; lia).
  rewrite split_byte_app. unfold slice_to.
  replace (blen a + blen b - blen a)%nat with (blen b) by lia. now rewrite split_byte_app.
Qed.
Lemma tl_skipn : forall A (l : list A), tl l = skipn 1 l.
Proof. intros A [|x l]; reflexivity. Qed.

Lemma cs_range_spec : forall s a b,
  cs_range (cs_from s) a b
  = Ok (firstn (N.to_nat b - N.to_nat a) (skipn (N.to_nat a) s)).
Proof.
  intros s a b. unfold cs_range, cs_from. cbn [cs_inner].
  rewrite !skipN_skipn, tl_skipn, !skipn_skipn. unfold char_indices.
  rewrite !skipn_char_indices, !hd_char_indices. cbn [Nat.add].
  destruct (a <? b) eqn:E.
  - apply N.ltb_lt in E.
    replace (N.to_nat (b - (a + 1)) + 1 + N.to_nat a)%nat with (N.to_nat b) by lia.
    assert (Lab : (N.to_nat a < N.to_nat b)%nat) by lia.
    revert Lab. generalize (N.to_nat a) as i. generalize (N.to_nat b) as j. clear a b E.
    intros j i Lij.
    destruct (skipn i s) as [|c t] eqn:Ei; [now rewrite firstn_nil|].
    destruct (skipn j s) as [|c' t'] eqn:Ej.
    + rewrite <- (firstn_skipn i s) at 2. rewrite slice_from_blen. rewrite Ei.
      rewrite firstn_all2; [reflexivity|]. rewrite <- Ei, skipn_length.
      assert (length (skipn j s) = 0)%nat by (now rewrite Ej). rewrite skipn_length in *. lia.
    + assert (Hs : s = firstn i s ++ firstn (j - i) (skipn i s) ++ skipn j s).
      { rewrite <- (firstn_skipn i s) at 1. f_equal.
        rewrite <- (firstn_skipn (j - i) (skipn i s)) at 1. f_equal.
        rewrite skipn_skipn. f_equal. lia. }
      assert (Hj : firstn j s = firstn i s ++ firstn (j - i) (skipn i s)).
      { replace j with (i + (j - i))%nat at 1 by lia. rewrite <- (firstn_skipn i s) at 1.
        assert (Li : length (firstn i s) = i).
        { rewrite firstn_length. assert (0 < length (skipn j s))%nat by (rewrite Ej; cbn; lia).
          rewrite skipn_length in *. lia. }
        rewrite <- Li at 1. rewrite firstn_app_2. reflexivity. }
      transitivity (slice (blen (firstn i s)) (blen (firstn i s ++ firstn (j - i) (skipn i s)))
                          (firstn i s ++ firstn (j - i) (skipn i s) ++ skipn j s)).
      { now rewrite <- Hs, <- Hj. }
      now rewrite slice_blen, Ei.
  - apply N.ltb_ge in E. replace (N.to_nat b - N.to_nat a)%nat with 0%nat by lia. reflexivity.
Qed.

Lemma cs_range_from_spec : forall s a, cs_range_from (cs_from s) a = Ok (skipn (N.to_nat a) s).
Proof.
  intros s a. unfold cs_range_from. rewrite cs_range_spec. cbn [cs_from cs_len]. f_equal.
  rewrite Nat2N.id. apply firstn_all2. rewrite skipn_length. lia.
Qed.
Lemma cs_range_full_spec : forall s, cs_range_full (cs_from s) = Ok s.
Proof.
  intros s. unfold cs_range_full. rewrite cs_range_spec. cbn [cs_from cs_len]. f_equal.
  rewrite Nat2N.id. cbn [N.to_nat skipn]. apply firstn_all2. lia.
Qed.
Lemma cs_range_to_spec : forall s b, cs_range_to (cs_from s) b = Ok (firstn (N.to_nat b) s).
Proof.
  intros s b. unfold cs_range_to. rewrite cs_range_spec. cbn [N.to_nat skipn].
  now rewrite Nat.sub_0_r.
Qed.
Lemma cs_range_incl_spec : forall p s a b, b < usize_max ->
  cs_range_incl p (cs_from s) a b
  = Ok (firstn (N.to_nat b + 1 - N.to_nat a) (skipn (N.to_nat a) s)).
Proof.
  intros p s a b H. unfold cs_range_incl, succ_usize. apply N.ltb_lt in H. rewrite H.
  cbn [bind]. rewrite cs_range_spec. do 2 f_equal. lia.
Qed.
Lemma cs_incl_max : forall p s a,
  cs_range_incl p (cs_from s) a usize_max
  = match p with Checked => Panic | Wrapping => Ok [] end.
Proof.
  intros p s a. unfold cs_range_incl, succ_usize. rewrite N.ltb_irrefl. destruct p; [reflexivity|].
  cbn [bind]. rewrite cs_range_spec. cbn. reflexivity.
Qed.
