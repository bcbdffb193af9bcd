(** * General facts about the values of Base.v (proofs only). *)
From Coq Require Import Sorting.Permutation.
From Verif Require Import Base UnicodeM.
Local Open Scope N_scope.

Lemma seq_eqb_eq : forall a b, seq_eqb a b = true <-> a = b.
Proof.
  induction a as [|x a IH]; intros [|y b]; cbn [seq_eqb]; split; intros H; try discriminate; auto.
  - apply andb_true_iff in H as [H1 H2]. apply N.eqb_eq in H1. apply IH in H2. now subst.
  - injection H as -> ->. rewrite N.eqb_refl. now apply IH.
Qed.
Lemma seq_eqb_refl : forall a, seq_eqb a a = true.
Proof. intros a. now apply seq_eqb_eq. Qed.
Lemma seq_eqb_neq : forall a b, seq_eqb a b = false <-> a <> b.
Proof.
  intros a b. rewrite <- seq_eqb_eq. destruct (seq_eqb a b); split; congruence.
Qed.
Lemma seq_eqb_sym : forall a b, seq_eqb a b = seq_eqb b a.
Proof.
  intros a b. destruct (seq_eqb a b) eqn:E.
  - apply seq_eqb_eq in E. subst. symmetry. apply seq_eqb_refl.
  - symmetry. apply seq_eqb_neq. apply seq_eqb_neq in E. congruence.
Qed.

Lemma isin_In : forall c l, isin c l = true <-> In c l.
Proof.
  intros c l. unfold isin. rewrite existsb_exists. split.
  - intros (y & Hy & E). apply N.eqb_eq in E. now subst.
  - intros H. exists c. split; auto. apply N.eqb_refl.
Qed.
Lemma isin_false : forall c l, isin c l = false <-> ~ In c l.
Proof. intros c l. rewrite <- isin_In. destruct (isin c l); split; congruence. Qed.

(** ** Lists *)
Lemma firstn_app_exact : forall A (a b : list A), firstn (length a) (a ++ b) = a.
Proof. intros. rewrite firstn_app, Nat.sub_diag, firstn_all, firstn_O, app_nil_r. reflexivity. Qed.
Lemma skipn_app_exact : forall A (a b : list A), skipn (length a) (a ++ b) = b.
Proof. intros. rewrite skipn_app, Nat.sub_diag, skipn_all. reflexivity. Qed.

Lemma skipn_skipn : forall A x y (l : list A), skipn x (skipn y l) = skipn (x + y) l.
Proof.
  intros A x y. revert x. induction y as [|y IH]; intros x l.
  - now rewrite Nat.add_0_r.
  - rewrite Nat.add_succ_r. destruct l as [|a l]; [now rewrite !skipn_nil|]. cbn [skipn]. apply IH.
Qed.

(** ** Byte lengths *)
Lemma utf8_len_pos : forall c, (1 <= utf8_len c <= 4)%nat.
Proof. intros c. unfold utf8_len. repeat destruct (_ <? _); lia. Qed.
Lemma blen_app : forall a b, blen (a ++ b) = (blen a + blen b)%nat.
Proof. induction a as [|x a IH]; intros b; cbn [blen app]; rewrite ?IH; lia. Qed.
Lemma length_le_blen : forall s, (length s <= blen s)%nat.
Proof. induction s as [|x s IH]; cbn [blen length]; [lia|]. pose proof (utf8_len_pos x). lia. Qed.
Lemma blen_zero : forall s, blen s = 0%nat -> s = [].
Proof. intros s H. pose proof (length_le_blen s). destruct s; [auto|cbn in *; lia]. Qed.
Lemma blen_rev : forall s, blen (rev s) = blen s.
Proof. induction s as [|x s IH]; cbn [rev blen]; [auto|]. rewrite blen_app, IH. cbn [blen]. lia. Qed.

Lemma ascii_utf8_len : forall c, c < 128 -> utf8_len c = 1%nat.
Proof. intros c H. unfold utf8_len. apply N.ltb_lt in H. now rewrite H. Qed.
Lemma ascii_str_cons : forall c s, ascii_str (c :: s) <-> c < 128 /\ ascii_str s.
Proof.
  intros c s. unfold ascii_str. split.
  - intros H. split; [apply H; now left | intros x Hx; apply H; now right].
  - intros [H1 H2] x [<-|Hx]; auto.
Qed.
Lemma ascii_str_app : forall a b, ascii_str (a ++ b) <-> ascii_str a /\ ascii_str b.
Proof.
  intros a b. unfold ascii_str. split.
  - intros H. split; intros c Hc; apply H, in_or_app; auto.
  - intros [Ha Hb] c Hc. apply in_app_or in Hc as [Hc|Hc]; auto.
Qed.
Lemma ascii_str_nil : ascii_str [].
Proof. intros c []. Qed.
Lemma ascii_blen : forall s, ascii_str s -> blen s = length s.
Proof.
  induction s as [|x s IH]; intros H; [auto|]. apply ascii_str_cons in H as [H1 H2].
  cbn [blen length]. rewrite (ascii_utf8_len x H1), IH by auto. reflexivity.
Qed.
Lemma ascii_str_incl : forall a b, incl a b -> ascii_str b -> ascii_str a.
Proof. intros a b H Hb c Hc. apply Hb, H, Hc. Qed.
Lemma ascii_str_rev : forall a, ascii_str a -> ascii_str (rev a).
Proof. intros a H c Hc. apply H. now apply in_rev. Qed.
Lemma ascii_str_firstn : forall n a, ascii_str a -> ascii_str (firstn n a).
Proof. intros n a H c Hc. apply H. rewrite <- (firstn_skipn n a). apply in_or_app. now left. Qed.
Lemma ascii_str_skipn : forall n a, ascii_str a -> ascii_str (skipn n a).
Proof. intros n a H c Hc. apply H. rewrite <- (firstn_skipn n a). apply in_or_app. now right. Qed.
Lemma ascii_strb : forall s, forallb (fun c => c <? 128) s = true -> ascii_str s.
Proof. intros s H c Hc. rewrite forallb_forall in H. apply N.ltb_lt. auto. Qed.

(** ** Byte slicing *)
Lemma split_byte_app : forall a b, split_byte (blen a) (a ++ b) = Some (a, b).
Proof.
  induction a as [|x a IH]; intros b; cbn [blen app].
  - destruct b; reflexivity.
  - pose proof (utf8_len_pos x). cbn [split_byte].
    destruct (utf8_len x + blen a)%nat eqn:E; [lia|]. rewrite <- E.
    replace (Nat.leb (utf8_len x) (utf8_len x + blen a)) with true
      by (symmetry; apply Nat.leb_le; lia).
    replace (utf8_len x + blen a - utf8_len x)%nat with (blen a) by lia.
    now rewrite IH.
Qed.
Lemma split_byte_spec : forall s n a b,
  split_byte n s = Some (a, b) <-> s = a ++ b /\ blen a = n.
Proof.
  split.
  - revert n a b. induction s as [|x s IH]; intros n a b; destruct n as [|n]; cbn [split_byte].
    + intros E. injection E as <- <-. auto.
    + discriminate.
    + intros E. injection E as <- <-. auto.
    + destruct (Nat.leb (utf8_len x) (S n)) eqn:L; [|discriminate].
      destruct (split_byte (S n - utf8_len x) s) as [[a' b']|] eqn:E; [|discriminate].
      intros E'. injection E' as <- <-. apply IH in E as [-> E].
      apply Nat.leb_le in L. split; [reflexivity|]. cbn [blen]. lia.
  - intros [-> <-]. apply split_byte_app.
Qed.
Lemma split_byte_ascii : forall n s, ascii_str s -> (n <= length s)%nat ->
  split_byte n s = Some (firstn n s, skipn n s).
Proof.
  intros n s H L. apply split_byte_spec. split; [now rewrite firstn_skipn|].
  rewrite ascii_blen by (now apply ascii_str_firstn). rewrite firstn_length. lia.
Qed.
Lemma split_byte_ascii_prefix : forall n s, ascii_str (firstn n s) -> (n <= length s)%nat ->
  split_byte n s = Some (firstn n s, skipn n s).
Proof.
  intros n s H L. apply split_byte_spec. split; [now rewrite firstn_skipn|].
  rewrite ascii_blen by assumption. rewrite firstn_length. lia.
Qed.
Lemma slice_to_ascii : forall n s, ascii_str s -> (n <= length s)%nat ->
  slice_to n s = Ok (firstn n s).
Proof. intros. unfold slice_to. now rewrite split_byte_ascii. Qed.
Lemma slice_from_ascii : forall n s, ascii_str s -> (n <= length s)%nat ->
  slice_from n s = Ok (skipn n s).
Proof. intros. unfold slice_from. now rewrite split_byte_ascii. Qed.
Lemma slice_ascii : forall a b s, ascii_str s -> (a <= b)%nat -> (b <= length s)%nat ->
  slice a b s = Ok (firstn (b - a) (skipn a s)).
Proof.
  intros a b s H L1 L2. unfold slice.
  replace (Nat.ltb b a) with false by (symmetry; apply Nat.ltb_ge; lia).
  rewrite split_byte_ascii by (auto; lia). apply slice_to_ascii.
  - now apply ascii_str_skipn.
  - rewrite skipn_length. lia.
Qed.
Lemma slice_to_spec : forall n s r, slice_to n s = Ok r -> exists t, s = r ++ t /\ blen r = n.
Proof.
  intros n s r H. unfold slice_to in H. destruct (split_byte n s) as [[a b]|] eqn:E; [|discriminate].
  injection H as <-. apply split_byte_spec in E as [-> E]. eauto.
Qed.
Lemma slice0_spec : forall n s r, slice 0 n s = Ok r -> exists t, s = r ++ t /\ blen r = n.
Proof.
  intros n s r H. unfold slice in H. cbn in H.
  rewrite Nat.sub_0_r in H. destruct s; now apply slice_to_spec in H.
Qed.

(** ** Prefixes *)
Lemma strip_prefix_spec : forall p s r, strip_prefix p s = Some r <-> s = p ++ r.
Proof.
  induction p as [|x p IH]; intros s r; cbn [strip_prefix].
  - split; [intros E; injection E as <-; reflexivity | intros ->; reflexivity].
  - destruct s as [|y s]; [split; discriminate|]. destruct (x =? y) eqn:E.
    + apply N.eqb_eq in E. subst y. rewrite IH. cbn. split; [intros ->; auto | intros H; injection H; auto].
    + apply N.eqb_neq in E. split; [discriminate | intros H; injection H; congruence].
Qed.
Lemma starts_with_spec : forall s p, starts_with s p = true <-> exists r, s = p ++ r.
Proof.
  intros s p. unfold starts_with. destruct (strip_prefix p s) as [r|] eqn:E.
  - apply strip_prefix_spec in E. split; eauto.
  - split; [discriminate|]. intros [r Hr]. apply strip_prefix_spec in Hr. congruence.
Qed.
Lemma ends_with_spec : forall s p, ends_with s p = true <-> exists r, s = r ++ p.
Proof.
  intros s p. unfold ends_with. rewrite starts_with_spec. split; intros [r H].
  - exists (rev r). rewrite <- (rev_involutive s), H, rev_app_distr, rev_involutive. reflexivity.
  - exists (rev r). rewrite H, rev_app_distr. reflexivity.
Qed.

(** ** Results *)
Lemma bind_Ok : forall A B (x : res A) (f : A -> res B) r,
  bind x f = Ok r <-> exists a, x = Ok a /\ f a = Ok r.
Proof.
  intros A B [a| |] f r; cbn; split; try discriminate; try (intros (a' & E & _); discriminate).
  - eauto.
  - intros (a' & E & H). injection E as ->. exact H.
Qed.
