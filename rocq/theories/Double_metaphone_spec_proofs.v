(** * Double Metaphone computes the table of Spec_double_metaphone: proofs. *)
From Verif Require Import Base UnicodeM Lib Helper DoubleMetaphone BaseLemmas Spec_common Spec_contextual
  Spec_double_metaphone Rewrite_proofs Contextual_proofs Soundex_proofs UnicodeLemmas DoubleMetaphone_proofs.
Local Open Scope Z_scope.

Section Around.
Variables (v : ustr) (i : nat) (c : N).
Hypothesis At_i : nth_error v i = Some c.
Hypothesis Asc : ascii_str v.
Hypothesis Upper : forall x, In x v -> is_ascii_lower x = false.

Definition sb (d : Z) (w : ustr) : bool := stands_atb v w (Z.of_nat i + d).

Definition sbs (d : Z) (ws : list ustr) : bool := existsb (sb d) ws.
Lemma sbs_single : forall d w, sbs d [w] = sb d w.
Proof. intros d w. unfold sbs. cbn [existsb]. apply orb_false_r. Qed.
Lemma sbs_app : forall d ws ws', sbs d (ws ++ ws') = sbs d ws || sbs d ws'.
Proof. intros d ws ws'. apply existsb_app. Qed.
Lemma sbs_cons : forall d w ws, sbs d (w :: ws) = sb d w || sbs d ws.
Proof. reflexivity. Qed.
Lemma sbs_nil : forall d, sbs d [] = false.
Proof. reflexivity. Qed.
Lemma len_v : len v = Z.of_nat (length v).
Proof. unfold len. now rewrite ascii_blen. Qed.
Lemma i_in : (i < length v)%nat.
Proof. apply nth_error_Some. now rewrite At_i. Qed.

Lemma seq_starts : forall n p w, length w = n -> (p + n <= length v)%nat ->
  seq_eqb (firstn n (skipn p v)) w = starts_with (skipn p v) w.
Proof.
  intros n p w L H. destruct (starts_with (skipn p v) w) eqn:E.
  - apply starts_with_spec in E as [r E]. rewrite E, <- L, firstn_app_exact. now apply seq_eqb_eq.
  - destruct (seq_eqb _ w) eqn:K; [|reflexivity].
    apply seq_eqb_eq in K. pose proof (proj1 (starts_with_not _ _) E (skipn n (skipn p v))) as Q.
    subst w. now rewrite firstn_skipn in Q.
Qed.
Lemma contains_abs : forall p n ws, forallb (fun w => Nat.eqb (length w) n) ws = true -> (0 < n)%nat ->
  contains v p n ws = Ok (existsb (fun w => stands_atb v w p) ws).
Proof.
  intros p n ws Hn Pn. unfold contains, stands_atb. rewrite ascii_blen by assumption.
  destruct (Z.ltb_spec p 0) as [L|L].
  - f_equal. symmetry. replace (0 <=? p) with false by (symmetry; apply Z.leb_gt; lia).
    clear Hn. induction ws; [reflexivity|exact IHws].
  - replace (0 <=? p) with true by (symmetry; apply Z.leb_le; lia). cbn [andb].
    destruct (Nat.leb_spec (Z.to_nat p + n) (length v)) as [L2|L2].
    + rewrite slice_ascii by (auto; lia). cbn [bind]. f_equal.
      replace (Z.to_nat p + n - Z.to_nat p)%nat with n by lia.
      replace (p <=? Z.of_nat (length v)) with true by (symmetry; apply Z.leb_le; lia). cbn [andb].
      revert Hn. induction ws as [|w ws IH]; cbn [forallb existsb]; [reflexivity|].
      intros Hn. apply andb_true_iff in Hn as [H1 H2]. apply Nat.eqb_eq in H1.
      rewrite (seq_starts n _ w H1 L2). now rewrite IH.
    + f_equal. symmetry. apply not_true_iff_false. intros K. apply existsb_exists in K as (w & Hw & K).
      apply andb_true_iff in K as [K1 K2]. apply Z.leb_le in K1. apply starts_with_spec in K2 as [r K2].
      rewrite forallb_forall in Hn. specialize (Hn w Hw). apply Nat.eqb_eq in Hn.
      assert (LL : length (skipn (Z.to_nat p) v) = length (w ++ r)) by now rewrite K2.
      rewrite skipn_length, app_length in LL. lia.
Qed.
Lemma contains_d : forall d n ws, forallb (fun w => Nat.eqb (length w) n) ws = true -> (0 < n)%nat ->
  contains v (Z.of_nat i + d) n ws = Ok (sbs d ws).
Proof. intros. now apply contains_abs. Qed.
Lemma here_tail : forall w, sb 0 (c :: w) = sb 1 w.
Proof.
  intros w. unfold sb, stands_atb. pose proof i_in.
  replace (0 <=? Z.of_nat i + 0) with true by (symmetry; apply Z.leb_le; lia).
  replace (0 <=? Z.of_nat i + 1) with true by (symmetry; apply Z.leb_le; lia).
  replace (Z.of_nat i + 0 <=? Z.of_nat (length v)) with true by (symmetry; apply Z.leb_le; lia).
  replace (Z.of_nat i + 1 <=? Z.of_nat (length v)) with true by (symmetry; apply Z.leb_le; lia).
  cbn [andb]. replace (Z.to_nat (Z.of_nat i + 0)) with i by lia.
  replace (Z.to_nat (Z.of_nat i + 1)) with (1 + i)%nat by lia. rewrite <- skipn_skipn.
  pose proof At_i as E. rewrite nth_skipn in E. destruct (skipn i v) as [|x r]; [discriminate|].
  injection E as ->. unfold starts_with. cbn [strip_prefix skipn]. now rewrite N.eqb_refl.
Qed.
Lemma contains_here : forall n ws, forallb (fun w => Nat.eqb (length w) n) ws = true -> (0 < n)%nat ->
  contains v (Z.of_nat i) n ws = Ok (sbs 0 ws).
Proof. intros. rewrite <- (Z.add_0_r (Z.of_nat i)). now apply contains_d. Qed.
Lemma stands_0 : forall w, stands_atb v w 0 = starts_with v w.
Proof.
  intros w. unfold stands_atb. replace (0 <=? Z.of_nat (length v)) with true by (symmetry; apply Z.leb_le; lia).
  reflexivity.
Qed.
Lemma contains_begin : forall n ws, forallb (fun w => Nat.eqb (length w) n) ws = true -> (0 < n)%nat ->
  contains v 0 n ws = Ok (existsb (starts_with v) ws).
Proof.
  intros n ws H P. rewrite contains_abs by assumption. f_equal. clear H.
  induction ws as [|w ws IH]; [reflexivity|]. cbn [existsb]. now rewrite IH, stands_0.
Qed.
Lemma sb_neg : forall d w, Z.of_nat i + d < 0 -> sb d w = false.
Proof. intros d w H. unfold sb, stands_atb. replace (0 <=? _) with false by (symmetry; apply Z.leb_gt; lia). reflexivity. Qed.

Lemma sbs_neg : forall d ws, Z.of_nat i + d < 0 -> sbs d ws = false.
Proof. intros d ws H. induction ws as [|w ws IH]; [reflexivity|]. rewrite sbs_cons, sb_neg by exact H. exact IH. Qed.
Lemma here_tails : forall ws, sbs 0 (map (cons c) ws) = sbs 1 ws.
Proof.
  intros ws. induction ws as [|w ws IH]; [reflexivity|]. cbn [map]. now rewrite !sbs_cons, here_tail, IH.
Qed.

Lemma char_at_b : forall p, char_at v p = Ok (char_b v p).
Proof.
  intros p. unfold char_at, char_b. rewrite len_v. destruct (Z.ltb_spec p 0) as [L|L].
  - replace (0 <=? p) with false by (symmetry; apply Z.leb_gt; lia). reflexivity.
  - replace (0 <=? p) with true by (symmetry; apply Z.leb_le; lia). cbn [andb].
    destruct (Z.ltb_spec p (Z.of_nat (length v))) as [L2|L2].
    + rewrite slice_from_ascii by (auto; lia). cbn [bind]. now rewrite nth_skipn.
    + f_equal. symmetry. apply nth_error_None. lia.
Qed.
Lemma at_is_abs : forall p x, at_is v p x = Ok (stands_atb v [x] p).
Proof. intros p x. unfold at_is. rewrite char_at_b. cbn [bind]. rewrite stands_letter. reflexivity. Qed.
Lemma at_is_d : forall d x, at_is v (Z.of_nat i + d) x = Ok (sb d [x]).
Proof. intros. apply at_is_abs. Qed.
Lemma at_is_begin : forall x, at_is v 0 x = Ok (starts_with v [x]).
Proof. intros x. now rewrite at_is_abs, stands_0. Qed.
Lemma up_vowel : forall x, is_ascii_lower x = false -> is_vowel (Some (ascii_low x)) true = isin x $ "AEIOUY".
Proof.
  intros x E. cbn [is_vowel]. unfold is_ascii_lower in E. unfold ascii_low. destruct (is_ascii_upper x) eqn:U.
  - unfold is_ascii_upper in U. unfold isin. cbn [existsb andb].
    apply andb_true_iff in U as [U1 U2]. apply N.leb_le in U1. apply N.leb_le in U2.
    assert (forall k, (x + 32 =? k + 32)%N = (x =? k)%N) as Q.
    { intros q. destruct (N.eqb_spec x q) as [->|D]; [apply N.eqb_refl|]. apply N.eqb_neq. lia. }
    change 97%N with (65 + 32)%N. change 101%N with (69 + 32)%N. change 105%N with (73 + 32)%N.
    change 111%N with (79 + 32)%N. change 117%N with (85 + 32)%N. change 121%N with (89 + 32)%N. rewrite !Q.
    rewrite !orb_false_r, !orb_assoc. reflexivity.
  - transitivity false; [|symmetry; apply isin_false; intros K; cbn [In] in K;
      repeat (destruct K as [<-|K]; [discriminate|]); destruct K].
    apply orb_false_iff. split; [apply isin_false; intros K; cbn [In] in K;
      repeat (destruct K as [<-|K]; [discriminate|]); destruct K|].
    cbn [andb]. apply N.eqb_neq. intros ->. discriminate.
Qed.
Lemma at_vowel_d : forall d, at_vowel v (Z.of_nat i + d) = Ok (holdsb v i (VowelAt d)).
Proof.
  intros d. unfold at_vowel, VowelAt. rewrite char_at_b, at_letters. cbn [bind].
  destruct (char_b v (Z.of_nat i + d)) as [x|] eqn:E; [|reflexivity]. cbn [option_map].
  rewrite up_vowel; [reflexivity|]. apply Upper. unfold char_b in E. destruct (_ <? 0); [discriminate|].
  eapply nth_error_In. exact E.
Qed.
Lemma vowel_neg : forall d, Z.of_nat i + d < 0 -> holdsb v i (VowelAt d) = false.
Proof.
  intros d H. unfold VowelAt. rewrite at_letters. unfold char_b.
  replace (_ <? 0) with true by (symmetry; apply Z.ltb_lt; lia). reflexivity.
Qed.
Lemma somewhere_contains : forall s w, somewhereb s w = contains_str s w.
Proof. intros s w. induction s as [|x s IH]; [reflexivity|]. cbn [somewhereb contains_str]. now rewrite IH. Qed.
Lemma contains_letter : forall s x, contains_str s [x] = existsb (fun y => N.eqb y x) s.
Proof.
  intros s x. induction s as [|y s IH]; [reflexivity|]. cbn [contains_str existsb]. rewrite IH. f_equal.
  unfold starts_with. cbn [strip_prefix]. rewrite N.eqb_sym. now destruct (_ =? _)%N.
Qed.
Lemma existsb_orb : forall (f g : N -> bool) s, existsb (fun x => f x || g x) s = existsb f s || existsb g s.
Proof.
  intros f g s. induction s as [|x s IH]; [reflexivity|]. cbn [existsb]. rewrite IH.
  destruct (f x), (g x), (existsb f s), (existsb g s); reflexivity.
Qed.
Lemma slavo_b : is_slavo_germanic v = holdsb v i SlavoGermanic.
Proof.
  unfold is_slavo_germanic, SlavoGermanic. cbn [holdsb existsb].
  change somewhereb with contains_str. rewrite orb_false_r, !contains_letter, existsb_orb, !orb_assoc. reflexivity.
Qed.

Lemma last_b : (Z.of_nat i =? len v - 1) = holdsb v i Last.
Proof.
  rewrite len_v. cbn [holdsb Last]. pose proof i_in. destruct (Nat.eqb_spec (length v) (i + 1 + 0)) as [E|E].
  - apply Z.eqb_eq. lia.
  - apply Z.eqb_neq. lia.
Qed.
Lemma last1_b : (Z.of_nat i + 1 =? len v - 1) = holdsb v i (Follow 1).
Proof.
  rewrite len_v. cbn [holdsb]. destruct (Nat.eqb_spec (length v) (i + 1 + 1)) as [E|E].
  - apply Z.eqb_eq. lia.
  - apply Z.eqb_neq. lia.
Qed.
Lemma len4_b : (len v =? 4) = holdsb v i (Both (Long 4) (Not (Long 5))).
Proof.
  rewrite len_v. cbn [holdsb]. destruct (Z.eqb_spec (Z.of_nat (length v)) 4) as [E|E].
  - replace (length v) with 4%nat by lia. reflexivity.
  - symmetry. destruct (Nat.leb_spec 4 (length v)); [|reflexivity]. cbn [andb]. apply negb_false_iff, Nat.leb_le. lia.
Qed.
Lemma finish_b : forall w, w <> [] -> (length w <= length v)%nat ->
  stands_atb v w (len v - Z.of_nat (length w)) = ends_with v w.
Proof.
  intros w Hw L. rewrite len_v. destruct (ends_with v w) eqn:E.
  - apply ends_with_spec in E as [r E]. apply stands_at_iff. exists r, []. rewrite app_nil_r. split; [exact E|].
    rewrite E, app_length. lia.
  - apply not_true_iff_false. intros K. apply stands_at_iff in K as (a & b & K & La).
    assert (LL : length v = (length a + (length w + length b))%nat) by (rewrite K, !app_length; reflexivity).
    destruct b; [|cbn [length] in LL; lia]. rewrite app_nil_r in K.
    pose proof (proj1 (ends_with_not _ _) E a). contradiction.
Qed.
Lemma ends_too_long : forall w, (length v < length w)%nat -> ends_with v w = false.
Proof. intros w L. apply ends_with_not. intros r E. rewrite E, app_length in L. lia. Qed.
Lemma finish2_b : forall x y p q,
  pure (1 <? len v) &&! contains v (len v - 2) 2 [[x; y]; [p; q]]
  = Ok (ends_with v [x; y] || (ends_with v [p; q] || false)).
Proof.
  intros x y p q. rewrite len_v. destruct (Z.ltb_spec 1 (Z.of_nat (length v))) as [L|L].
  - cbn [pure andr bind]. rewrite contains_abs by (reflexivity || lia). cbn [existsb].
    rewrite <- (finish_b [x; y]), <- (finish_b [p; q]) by (discriminate || cbn; lia). rewrite len_v. reflexivity.
  - cbn [pure andr bind]. rewrite !ends_too_long by (cbn; lia). reflexivity.
Qed.
Lemma finish1_b : forall x y,
  pure (0 <? len v) &&! contains v (len v - 1) 1 [[x]; [y]] = Ok (ends_with v [x] || (ends_with v [y] || false)).
Proof.
  intros x y. rewrite len_v. destruct (Z.ltb_spec 0 (Z.of_nat (length v))) as [L|L].
  - cbn [pure andr bind]. rewrite contains_abs by (reflexivity || lia). cbn [existsb].
    rewrite <- (finish_b [x]), <- (finish_b [y]) by (discriminate || cbn; lia). rewrite len_v. reflexivity.
  - cbn [pure andr bind]. rewrite !ends_too_long by (cbn; lia). reflexivity.
Qed.
Lemma l0_b : pure (3 <=? len v) &&! pure (Z.of_nat i =? len v - 3) = Ok (holdsb v i (Follow 2)).
Proof.
  rewrite len_v. cbn [holdsb pure andr bind]. destruct (Z.leb_spec 3 (Z.of_nat (length v))) as [L|L].
  - unfold pure. f_equal. destruct (Nat.eqb_spec (length v) (i + 1 + 2)); [apply Z.eqb_eq|apply Z.eqb_neq]; lia.
  - f_equal. symmetry. apply Nat.eqb_neq. lia.
Qed.
Lemma van_b : contains v 0 4 [$ "VAN"; $ "VON"] = Ok false.
Proof.
  unfold contains. cbn [Z.ltb Z.compare Z.to_nat Nat.add]. destruct (Nat.leb_spec 4 (blen v)) as [L|L]; [|reflexivity].
  rewrite ascii_blen in L by assumption. rewrite slice_ascii by (auto; lia). cbn [bind]. f_equal.
  apply not_true_iff_false. intros K. apply existsb_exists in K as (w & Hw & K). apply seq_eqb_eq in K.
  assert (LL : length (firstn (4 - 0) (skipn 0 v)) = 4%nat) by (rewrite firstn_length, skipn_length; lia).
  rewrite K in LL. destruct Hw as [<-|[<-|[]]]; discriminate.
Qed.
Lemma at_sb : forall d ws, holdsb v i (At d ws) = sbs d ws.
Proof. reflexivity. Qed.
Lemma both_b : forall a b, holdsb v i (Both a b) = holdsb v i a && holdsb v i b.
Proof. reflexivity. Qed.
Lemma either_b : forall a b, holdsb v i (Either a b) = holdsb v i a || holdsb v i b.
Proof. reflexivity. Qed.
Lemma not_b : forall a, holdsb v i (Not a) = negb (holdsb v i a).
Proof. reflexivity. Qed.
Lemma begins_b : forall ws, holdsb v i (Begins ws) = existsb (starts_with v) ws.
Proof. reflexivity. Qed.
Lemma finishes_b : forall ws, holdsb v i (Finishes ws) = existsb (ends_with v) ws.
Proof. reflexivity. Qed.
Lemma precede_b : forall n, holdsb v i (Precede n) = Nat.leb n i.
Proof. reflexivity. Qed.
Lemma pure_b : forall b, pure b = Ok b.
Proof. reflexivity. Qed.
Lemma andr_b : forall a b, andr (Ok a) (Ok b) = Ok (a && b).
Proof. intros [] b; reflexivity. Qed.
Lemma orr_b : forall a b, orr (Ok a) (Ok b) = Ok (a || b).
Proof. intros [] b; reflexivity. Qed.
Lemma notr_b : forall a, notr (Ok a) = Ok (negb a).
Proof. intros a; reflexivity. Qed.
Lemma no_letter_after_last : forall x w, holdsb v i Last = true -> sb 1 (x :: w) = false.
Proof.
  intros x w E. cbn in E. apply Nat.eqb_eq in E. unfold sb. apply not_true_iff_false. intros K.
  apply stands_at_iff in K as (a & b & K & L). rewrite K, !app_length in E. cbn [length] in E. lia.
Qed.
End Around.

Definition heard (x : list app_op * nat) : sound :=
  (flat_map op_primary (fst x), flat_map op_alternate (fst x), snd x).

Section Handlers.
Variables (v : ustr) (i : nat).
Hypothesis Asc : ascii_str v.
Hypothesis Upper : forall x, In x v -> is_ascii_lower x = false.
End Handlers.

Ltac dm_model v i Asc Upper Hc :=
  unfold contains_array;
  change (Z.of_nat i - 1) with (Z.of_nat i + -1); change (Z.of_nat i - 2) with (Z.of_nat i + -2);
  change (Z.of_nat i - 3) with (Z.of_nat i + -3); change (Z.of_nat i - 4) with (Z.of_nat i + -4);
  rewrite ?(van_b v Asc);
  repeat first [
     rewrite (contains_d v i Asc) by (reflexivity || lia)
   | rewrite (contains_here v i Asc) by (reflexivity || lia)
   | rewrite (contains_begin v Asc) by (reflexivity || lia) ];
  rewrite ?(at_is_d v i Asc), ?(at_vowel_d v i Asc Upper), ?(at_is_begin v Asc),
          ?(last_b v i _ Hc Asc), ?(last1_b v i Asc), ?(len4_b v i Asc), ?sbs_single;
  cbn [existsb].
Ltac dm_spec v i :=
  unfold doubled; unfold all_of, any_of, Second, First, EarlierThan, After, Before, Next, Here, same, two, nothing, skipping;
  cbn [run];
  rewrite ?(both_b v i), ?(either_b v i), ?(not_b v i);
  rewrite ?(both_b v i), ?(either_b v i), ?(not_b v i), ?(at_sb v i), ?(begins_b v i), ?(finishes_b v i), ?(precede_b v i);
  unfold letters; cbn [existsb map]; rewrite ?sbs_single.
Ltac dm_guards i :=
  repeat match goal with
  | |- context[Z.of_nat i <? ?n] => first [
       replace (Z.of_nat i <? n) with true by (symmetry; apply Z.ltb_lt; lia)
     | replace (Z.of_nat i <? n) with false by (symmetry; apply Z.ltb_ge; lia) ]
  | |- context[?n <? Z.of_nat i] => first [
       replace (n <? Z.of_nat i) with true by (symmetry; apply Z.ltb_lt; lia)
     | replace (n <? Z.of_nat i) with false by (symmetry; apply Z.ltb_ge; lia) ]
  | |- context[Z.of_nat i =? ?n] => first [
       replace (Z.of_nat i =? n) with true by (symmetry; apply Z.eqb_eq; lia)
     | replace (Z.of_nat i =? n) with false by (symmetry; apply Z.eqb_neq; lia) ]
  | |- context[Nat.leb ?n i] => first [
       replace (Nat.leb n i) with true by (symmetry; apply Nat.leb_le; lia)
     | replace (Nat.leb n i) with false by (symmetry; apply Nat.leb_gt; lia) ]
  end.
Ltac dm_negs v i :=
  repeat match goal with
  | |- context[sb v i (Z.neg ?p) ?w] => replace (sb v i (Z.neg p) w) with false by (symmetry; apply sb_neg; lia)
  | |- context[sbs v i (Z.neg ?p) ?w] => replace (sbs v i (Z.neg p) w) with false by (symmetry; apply sbs_neg; lia)
  | |- context[holdsb v i (VowelAt (Z.neg ?p))] =>
      replace (holdsb v i (VowelAt (Z.neg p))) with false by (symmetry; apply vowel_neg; lia)
  end.
(** Words starting at the letter itself, as words following it. *)
Ltac dm_here v i Hc :=
  rewrite ?(here_tail v i _ Hc);
  repeat match goal with
  | |- context[sbs v i 0 ?ws] => let tails := eval cbn in (map (@tl N) ws) in
      replace (sbs v i 0 ws) with (sbs v i 1 tails) by (symmetry; apply (here_tails v i _ Hc tails))
  end; rewrite ?sbs_single.
Ltac dm_expand := rewrite ?sbs_cons, ?sbs_nil.
Ltac dm_simp := cbn [andb orb negb bind andr orr notr pure rmap heard flat_map fst snd done ac ac2 astr astr2 then_skip_if
   op_primary op_alternate opt_or app].
Ltac dm_bools v i :=
  repeat (dm_simp; try reflexivity; match goal with
  | |- context[if ?b then _ else _] => match b with
    | context[sb v i ?d ?w] => destruct (sb v i d w)
    | context[sbs v i ?d ?w] => destruct (sbs v i d w)
    | context[holdsb v i ?c] => destruct (holdsb v i c)
    | context[starts_with v ?w] => destruct (starts_with v w)
    | context[ends_with v ?w] => destruct (ends_with v w)
    end
  | |- context[sb v i ?d ?w] => destruct (sb v i d w)
  | |- context[sbs v i ?d ?w] => destruct (sbs v i d w)
  | |- context[holdsb v i ?c] => destruct (holdsb v i c)
  | |- context[starts_with v ?w] => destruct (starts_with v w)
  | |- context[ends_with v ?w] => destruct (ends_with v w)
  end); dm_simp; try reflexivity.

Section Run.
Variables (v : ustr) (i : nat).
Hypothesis Asc : ascii_str v.
Hypothesis Upper : forall x, In x v -> is_ascii_lower x = false.
Lemma cases_i : i = 0%nat \/ i = 1%nat \/ i = 2%nat \/ i = 3%nat \/ (4 <= i)%nat.
Proof. lia. Qed.

Lemma run_d : nth_error v i = Some (# "D") -> rmap heard (handle_d v (Z.of_nat i)) = Ok (run v i rule_d).
Proof.
  intros Hc. unfold handle_d, rule_d. dm_model v i Asc Upper Hc. dm_spec v i. dm_here v i Hc.
  dm_bools v i.
Qed.
End Run.
