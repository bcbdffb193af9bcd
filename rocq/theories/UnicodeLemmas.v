(** * Facts about the Unicode functions on ASCII text (proofs only). *)
From Verif Require Import Base UnicodeM Lib BaseLemmas Spec_common Soundex_proofs.
Local Open Scope N_scope.

Ltac nbool :=
  repeat match goal with
  | |- context[?a <? ?b] => first
      [ replace (a <? b) with true by (symmetry; apply N.ltb_lt; lia)
      | replace (a <? b) with false by (symmetry; apply N.ltb_ge; lia) ]
  | |- context[?a <=? ?b] => first
      [ replace (a <=? b) with true by (symmetry; apply N.leb_le; lia)
      | replace (a <=? b) with false by (symmetry; apply N.leb_gt; lia) ]
  | |- context[?a =? ?b] => first
      [ replace (a =? b) with true by (symmetry; apply N.eqb_eq; lia)
      | replace (a =? b) with false by (symmetry; apply N.eqb_neq; lia) ]
  end.

Lemma is_ascii_lower_iff : forall c, is_ascii_lower c = true <-> 97 <= c <= 122.
Proof. intros c. unfold is_ascii_lower. rewrite andb_true_iff, !N.leb_le. lia. Qed.
Lemma is_ascii_upper_iff : forall c, is_ascii_upper c = true <-> 65 <= c <= 90.
Proof. intros c. unfold is_ascii_upper. rewrite andb_true_iff, !N.leb_le. lia. Qed.
Lemma is_ascii_alpha_iff : forall c, is_ascii_alpha c = true <-> 65 <= c <= 90 \/ 97 <= c <= 122.
Proof.
  intros c. unfold is_ascii_alpha. rewrite orb_true_iff, is_ascii_upper_iff, is_ascii_lower_iff. lia.
Qed.
Lemma ascii_up_cases : forall c,
  (97 <= c <= 122 /\ ascii_up c = c - 32) \/ (~ 97 <= c <= 122 /\ ascii_up c = c).
Proof.
  intros c. unfold ascii_up. destruct (is_ascii_lower c) eqn:E.
  - apply is_ascii_lower_iff in E. auto.
  - right. split; [|reflexivity]. rewrite <- is_ascii_lower_iff. congruence.
Qed.
Lemma ascii_low_cases : forall c,
  (65 <= c <= 90 /\ ascii_low c = c + 32) \/ (~ 65 <= c <= 90 /\ ascii_low c = c).
Proof.
  intros c. unfold ascii_low. destruct (is_ascii_upper c) eqn:E.
  - apply is_ascii_upper_iff in E. auto.
  - right. split; [|reflexivity]. rewrite <- is_ascii_upper_iff. congruence.
Qed.
Lemma ascii_up_lt : forall c, c < 128 -> ascii_up c < 128.
Proof. intros c H. destruct (ascii_up_cases c) as [[? ->]|[? ->]]; lia. Qed.
Lemma ascii_low_lt : forall c, c < 128 -> ascii_low c < 128.
Proof. intros c H. destruct (ascii_low_cases c) as [[? ->]|[? ->]]; lia. Qed.
Lemma ascii_up_up : forall c, ascii_up (ascii_up c) = ascii_up c.
Proof.
  intros c. destruct (ascii_up_cases c) as [[? E]|[? E]]; rewrite E; [|exact E].
  destruct (ascii_up_cases (c - 32)) as [[? E']|[? E']]; [lia|exact E'].
Qed.
Lemma ascii_low_up : forall c, ascii_low (ascii_up c) = ascii_low c.
Proof.
  intros c. destruct (ascii_up_cases c) as [[? E]|[? E]]; rewrite E; [|reflexivity].
  destruct (ascii_low_cases (c - 32)) as [[? ->]|[? ->]]; [|lia].
  destruct (ascii_low_cases c) as [[? ->]|[? ->]]; lia.
Qed.

Lemma to_lower_ascii : forall u c, c < 128 -> to_lower u c = [ascii_low c].
Proof.
  intros u c H. unfold to_lower, ascii_low. nbool.
  destruct (is_ascii_upper c); [reflexivity|]. nbool. reflexivity.
Qed.
Lemma str_upper_ascii : forall u s, ascii_str s -> str_upper u s = map ascii_up s.
Proof.
  intros u s H. unfold str_upper. induction s as [|c s IH]; [reflexivity|].
  apply ascii_str_cons in H as [H1 H2]. cbn [flat_map map].
  rewrite to_upper_ascii, IH by assumption. reflexivity.
Qed.

(** ** str_lower *)
Lemma str_lower_no_sigma : forall u s b, ~ In 931 s -> str_lower_aux u b s = flat_map (to_lower u) s.
Proof.
  intros u. induction s as [|c s IH]; intros b H; [reflexivity|]. cbn [str_lower_aux flat_map].
  rewrite IH by (intros K; apply H; now right).
  replace (c =? 931) with false; [reflexivity|]. symmetry. apply N.eqb_neq. intros ->. apply H. now left.
Qed.
Lemma ascii_no_sigma : forall s, ascii_str s -> ~ In 931 s.
Proof. intros s H K. apply H in K. lia. Qed.
Lemma str_lower_ascii : forall u s, ascii_str s -> str_lower u s = map ascii_low s.
Proof.
  intros u s H. unfold str_lower. rewrite str_lower_no_sigma by (now apply ascii_no_sigma).
  induction s as [|c s IH]; [reflexivity|]. apply ascii_str_cons in H as [H1 H2]. cbn [flat_map map].
  rewrite to_lower_ascii, IH by assumption. reflexivity.
Qed.
Lemma cased_up : forall u c, cased u (ascii_up c) = cased u c.
Proof.
  intros u c. destruct (ascii_up_cases c) as [[? E]|[? E]]; rewrite E; [|reflexivity].
  unfold cased, latin1_alphabetic. nbool.
  replace (is_ascii_alpha (c - 32)) with true by (symmetry; apply is_ascii_alpha_iff; lia).
  replace (is_ascii_alpha c) with true by (symmetry; apply is_ascii_alpha_iff; lia). reflexivity.
Qed.
Lemma case_ignorable_up : forall u c, case_ignorable u (ascii_up c) = case_ignorable u c.
Proof.
  intros u c. destruct (ascii_up_cases c) as [[? E]|[? E]]; rewrite E; [|reflexivity].
  unfold case_ignorable, isin. nbool. cbn [existsb]. nbool. reflexivity.
Qed.
Lemma citc_up : forall u s, case_ignorable_then_cased u (map ascii_up s) = case_ignorable_then_cased u s.
Proof.
  intros u. induction s as [|c s IH]; [reflexivity|]. cbn [map case_ignorable_then_cased].
  now rewrite case_ignorable_up, cased_up, IH.
Qed.
Lemma to_lower_ascii_up : forall u c, to_lower u (ascii_up c) = to_lower u c.
Proof.
  intros u c. destruct (ascii_up_cases c) as [[H E]|[H E]].
  - rewrite !to_lower_ascii by (rewrite ?E; lia). now rewrite ascii_low_up.
  - now rewrite E.
Qed.
Lemma sigma_up : forall c, (ascii_up c =? 931) = (c =? 931).
Proof.
  intros c. destruct (ascii_up_cases c) as [[H E]|[H E]]; rewrite E; [|reflexivity]. nbool. reflexivity.
Qed.
(** ASCII case changes do not influence the lowercase form. *)
Lemma str_lower_ascii_up : forall u s, str_lower u (map ascii_up s) = str_lower u s.
Proof.
  intros u s. unfold str_lower. change (@nil N) with (map ascii_up []) at 1.
  generalize (@nil N) as b. induction s as [|c s IH]; intros b; [reflexivity|].
  cbn [map str_lower_aux]. rewrite sigma_up, !citc_up, to_lower_ascii_up.
  change (ascii_up c :: map ascii_up b) with (map ascii_up (c :: b)). now rewrite IH.
Qed.

Lemma is_lowercase_ascii : forall u c, c < 128 -> is_lowercase u c = is_ascii_lower c.
Proof.
  intros u c H. unfold is_lowercase. nbool. now rewrite !orb_false_r.
Qed.
Lemma is_whitespace_ascii : forall u c, c < 128 ->
  is_whitespace u c = ((9 <=? c) && (c <=? 13)) || (c =? 32).
Proof. intros u c H. unfold is_whitespace. nbool. now rewrite !orb_false_r. Qed.
Lemma ascii_str_map_up : forall s, ascii_str s -> ascii_str (map ascii_up s).
Proof. intros s H c Hc. apply in_map_iff in Hc as (x & <- & Hx). apply ascii_up_lt, H, Hx. Qed.
Lemma ascii_str_map_low : forall s, ascii_str s -> ascii_str (map ascii_low s).
Proof. intros s H c Hc. apply in_map_iff in Hc as (x & <- & Hx). apply ascii_low_lt, H, Hx. Qed.
Lemma ascii_str_filter : forall f s, ascii_str s -> ascii_str (filter f s).
Proof. intros f s H c Hc. apply filter_In in Hc as [Hc _]. now apply H. Qed.
Lemma to_lower_nonempty : forall u c, UnicodeOK u -> to_lower u c <> [].
Proof.
  intros u c H. unfold to_lower. destruct (c <? 256).
  - repeat (match goal with |- context[if ?b then _ else _] => destruct b end); discriminate.
  - apply (hi_lower_nonempty u H).
Qed.
