(** * Small and capital letters in every script: proofs. *)
From Verif Require Import Base UnicodeM Lib Helper MatchRating BaseLemmas Spec_common Spec_doubled Spec_bm_engine UnicodeLemmas UnicodeReal
  Soundex_proofs Spec_case.
Local Open Scope N_scope.

(** ** What holds of every table *)
Section Any.
Variable u : Unicode.
(** A function of texts computed character by character. *)
Variable A : Type.
Variable F : ustr -> list A.
Hypothesis F0 : F [] = [].
Hypothesis Fapp : forall a b, F (a ++ b) = F a ++ F b.
Lemma through_upper : forall s, (forall c, In c s -> F (to_upper u c) = F [c]) -> F (str_upper u s) = F s.
Proof.
  induction s as [|c s IH]; intros H; [reflexivity|]. change (c :: s) with ([c] ++ s). unfold str_upper. cbn [flat_map app].
  rewrite !Fapp. rewrite (H c) by now left. change (c :: s) with ([c] ++ s). rewrite Fapp. f_equal. apply IH. intros x Hx. apply H. now right.
Qed.
Lemma through_lower : forall s, (forall c, In c s -> c <> 931 -> F (to_lower u c) = F [c]) -> F [962] = F [931] -> F [963] = F [931] ->
  forall b, F (str_lower_aux u b s) = F s.
Proof.
  induction s as [|c s IH]; intros H H1 H2 b; [reflexivity|]. cbn [str_lower_aux]. rewrite Fapp. change (c :: s) with ([c] ++ s).
  rewrite Fapp. f_equal; [|apply IH; auto; intros x Hx; apply H; now right].
  destruct (N.eqb_spec c 931) as [->|Nc]; [destruct (_ && _); assumption|]. apply H; [now left|exact Nc].
Qed.
End Any.

(** White space: its own capital; the capital of something else has none. *)
Definition spaces_stay (u : Unicode) (f : N -> ustr) : Prop :=
  forall c, if is_whitespace u c then f c = [c] else f c <> [] /\ forall x, In x (f c) -> is_whitespace u x = false.
Lemma trim_start_map : forall u f s, spaces_stay u f -> trim_start u (flat_map f s) = flat_map f (trim_start u s).
Proof.
  intros u f s W. induction s as [|c s IH]; [reflexivity|]. cbn [flat_map trim_start]. specialize (W c). destruct (is_whitespace u c) eqn:E.
  - rewrite W. cbn [app trim_start]. now rewrite E.
  - destruct W as [W1 W2]. cbn [flat_map]. destruct (f c) as [|x l]; [now elim W1|]. cbn [app trim_start]. now rewrite (W2 x) by now left.
Qed.
Lemma rev_flat_map : forall (f : N -> ustr) s, rev (flat_map f s) = flat_map (fun c => rev (f c)) (rev s).
Proof.
  intros f. induction s as [|c s IH]; [reflexivity|]. cbn [flat_map rev]. rewrite rev_app_distr, IH, flat_map_app. cbn [flat_map]. now rewrite app_nil_r.
Qed.
Lemma spaces_stay_rev : forall u f, spaces_stay u f -> spaces_stay u (fun c => rev (f c)).
Proof.
  intros u f W c. specialize (W c). destruct (is_whitespace u c); [now rewrite W|]. destruct W as [W1 W2]. split.
  - intros E. apply W1. rewrite <- (rev_involutive (f c)), E. reflexivity.
  - intros x Hx. apply W2. now apply in_rev.
Qed.
Lemma trim_upper : forall u s, spaces_stay u (to_upper u) -> trim u (str_upper u s) = str_upper u (trim u s).
Proof.
  intros u s W. unfold trim, str_upper. rewrite trim_start_map by exact W. rewrite rev_flat_map, trim_start_map by now apply spaces_stay_rev.
  rewrite rev_flat_map. apply flat_map_ext. intros c. apply rev_involutive.
Qed.
Lemma count_stay : forall u f s, spaces_stay u f ->
  (length (filter (fun c => negb (is_whitespace u c)) s) <= length (filter (fun c => negb (is_whitespace u c)) (flat_map f s)))%nat.
Proof.
  intros u f s W. induction s as [|c s IH]; [apply le_n|]. cbn [flat_map filter]. rewrite filter_app, app_length. specialize (W c).
  destruct (is_whitespace u c) eqn:E; cbn [negb]; [lia|]. destruct W as [W1 W2]. destruct (f c) as [|x l]; [now elim W1|].
  cbn [filter length]. rewrite (W2 x) by now left. cbn [negb length]. lia.
Qed.
Lemma several_upper : forall u s, spaces_stay u (to_upper u) -> several (is_whitespace u) s -> several (is_whitespace u) (str_upper u s).
Proof. intros u s W H. unfold several in *. pose proof (count_stay u (to_upper u) s W). unfold str_upper. lia. Qed.
Lemma several_lower : forall u s, spaces_stay u (to_lower u) -> is_whitespace u 962 = false -> is_whitespace u 963 = false ->
  several (is_whitespace u) s -> several (is_whitespace u) (str_lower u s).
Proof.
  intros u s W H1 H2 H. unfold several, str_lower in *. revert H. generalize 2%nat. generalize (@nil N). revert s.
  assert (G : forall s b, (length (filter (fun c => negb (is_whitespace u c)) s) <= length (filter (fun c => negb (is_whitespace u c)) (str_lower_aux u b s)))%nat).
  { induction s as [|c s IH]; intros b; [apply le_n|]. cbn [str_lower_aux filter]. rewrite filter_app, app_length. specialize (IH (c :: b)).
    destruct (N.eqb_spec c 931) as [->|_].
    - assert (Z : forall x, is_whitespace u x = false -> length (filter (fun c => negb (is_whitespace u c)) [x]) = 1%nat) by (intros x Hx; cbn [filter]; now rewrite Hx).
      destruct (_ && _); rewrite Z by assumption; destruct (negb (is_whitespace u 931)); cbn [length]; lia.
    - specialize (W c). destruct (is_whitespace u c) eqn:E; cbn [negb]; [lia|]. destruct W as [W1 W2]. destruct (to_lower u c) as [|x l]; [now elim W1|].
      cbn [filter length]. rewrite (W2 x) by now left. cbn [negb length]. lia. }
  intros s b n H. specialize (G s b). lia.
Qed.
Lemma lower_twice : forall u s, LowerOK u -> str_lower u (str_lower u s) = str_lower u s.
Proof.
  intros u s (L & L1 & L2).
  assert (St : forall b s, forall x, In x (str_lower_aux u b s) -> to_lower u x = [x] /\ x <> 931).
  { intros b t. revert b. induction t as [|c t IH]; intros b x H; [destruct H|]. cbn [str_lower_aux] in H. apply in_app_or in H as [H|H]; [|exact (IH _ _ H)].
    destruct (c =? 931); [|exact (L c x H)]. destruct (_ && _); destruct H as [<-|[]]; (split; [assumption|discriminate]). }
  unfold str_lower at 1. rewrite str_lower_no_sigma.
  - assert (K : forall t, (forall x, In x t -> to_lower u x = [x]) -> flat_map (to_lower u) t = t).
    { induction t as [|x t IH]; intros H; [reflexivity|]. cbn [flat_map]. rewrite (H x) by now left. cbn [app]. f_equal. apply IH. intros y Hy. apply H. now right. }
    apply K. intros x Hx. now apply (St [] s).
  - intros H. now destruct (St [] s 931 H).
Qed.

(** ** What holds of the real tables *)
Definition upper_changed : list N := map N.of_nat (seq 0 256) ++ flat_map expand upper_runs ++ map fst upper_special.
Definition lower_changed : list N := map N.of_nat (seq 0 256) ++ flat_map expand lower_runs ++ map fst lower_special.
Lemma low_listed : forall c, c < 256 -> In c (map N.of_nat (seq 0 256)).
Proof. intros c H. apply in_map_iff. exists (N.to_nat c). split; [lia|]. apply in_seq. lia. Qed.
Lemma map_unchanged : forall sp runs c, forallb (fun r : run => let '(_, _, step, _) := r in negb (step =? 0)) runs = true ->
  ~ In c (flat_map expand runs ++ map fst sp) -> case_map sp runs c = [c].
Proof.
  intros sp runs c Z H. unfold case_map. destruct (special c sp) as [v|] eqn:S1.
  - exfalso. apply H, in_or_app. right. apply special_In in S1. apply in_map_iff. now exists (c, v).
  - destruct (find (run_has c) runs) as [r|] eqn:F; [|reflexivity]. exfalso. apply find_some in F as [F1 F2]. apply H, in_or_app. left. apply in_flat_map.
    exists r. split; [exact F1|]. apply run_has_expand; [|exact F2]. rewrite forallb_forall in Z. specialize (Z r F1). destruct r as [[[? ?] st] ?].
    destruct (N.eqb_spec st 0); [discriminate Z|assumption].
Qed.
Lemma upper_unchanged : forall c, ~ In c upper_changed -> to_upper real_unicode c = [c].
Proof.
  intros c H. unfold to_upper. destruct (N.ltb_spec c 256) as [L|L]; [exfalso; apply H, in_or_app; left; now apply low_listed|].
  apply map_unchanged; [vm_compute; reflexivity|]. intros I. apply H, in_or_app. now right.
Qed.
Lemma lower_unchanged : forall c, ~ In c lower_changed -> to_lower real_unicode c = [c].
Proof.
  intros c H. unfold to_lower. destruct (N.ltb_spec c 256) as [L|L]; [exfalso; apply H, in_or_app; left; now apply low_listed|].
  apply map_unchanged; [vm_compute; reflexivity|]. intros I. apply H, in_or_app. now right.
Qed.
Lemma upper_by_table : forall (P : N -> bool), (forall c, to_upper real_unicode c = [c] -> P c = true) -> forallb P upper_changed = true -> forall c, P c = true.
Proof.
  intros P H C c. rewrite forallb_forall in C. destruct (in_dec N.eq_dec c upper_changed) as [I|I]; [now apply C|]. now apply H, upper_unchanged.
Qed.
Lemma lower_by_table : forall (P : N -> bool), (forall c, to_lower real_unicode c = [c] -> P c = true) -> forallb P lower_changed = true -> forall c, P c = true.
Proof.
  intros P H C c. rewrite forallb_forall in C. destruct (in_dec N.eq_dec c lower_changed) as [I|I]; [now apply C|]. now apply H, lower_unchanged.
Qed.
Theorem real_upper_twice : forall c, str_upper real_unicode (to_upper real_unicode c) = to_upper real_unicode c.
Proof.
  intros c. apply seq_eqb_eq. revert c. apply upper_by_table; [|vm_compute; reflexivity]. intros c E. rewrite E. unfold str_upper. cbn [flat_map]. rewrite E. cbn [app]. apply seq_eqb_refl.
Qed.
Theorem real_clean_upper : forall c, ~ In c marked_capitals -> soundex_clean real_unicode (to_upper real_unicode c) = soundex_clean real_unicode [c].
Proof.
  intros c H. assert (K : forall c, isin c marked_capitals || seq_eqb (soundex_clean real_unicode (to_upper real_unicode c)) (soundex_clean real_unicode [c]) = true).
  { apply upper_by_table; [|vm_compute; reflexivity]. intros x E. rewrite E, seq_eqb_refl. apply orb_true_r. }
  specialize (K c). apply orb_true_iff in K as [K|K]; [apply isin_In in K; contradiction|now apply seq_eqb_eq].
Qed.
Theorem real_upper_lower : forall c, ~ In c other_capitals -> str_upper real_unicode (to_lower real_unicode c) = str_upper real_unicode [c].
Proof.
  intros c H. assert (K : forall c, isin c other_capitals || seq_eqb (str_upper real_unicode (to_lower real_unicode c)) (str_upper real_unicode [c]) = true).
  { apply lower_by_table; [|vm_compute; reflexivity]. intros x E. rewrite E, seq_eqb_refl. apply orb_true_r. }
  specialize (K c). apply orb_true_iff in K as [K|K]; [apply isin_In in K; contradiction|now apply seq_eqb_eq].
Qed.
Theorem real_clean_lower : forall c, ~ In c other_capitals -> soundex_clean real_unicode (to_lower real_unicode c) = soundex_clean real_unicode [c].
Proof.
  intros c H. assert (K : forall c, isin c other_capitals || seq_eqb (soundex_clean real_unicode (to_lower real_unicode c)) (soundex_clean real_unicode [c]) = true).
  { apply lower_by_table; [|vm_compute; reflexivity]. intros x E. rewrite E, seq_eqb_refl. apply orb_true_r. }
  specialize (K c). apply orb_true_iff in K as [K|K]; [apply isin_In in K; contradiction|now apply seq_eqb_eq].
Qed.
(** One capital, of the same small letters; no sigma. *)
Theorem real_lower_upper : forall c, ~ In c lost_small -> exists x, to_upper real_unicode c = [x] /\ x <> 931 /\ to_lower real_unicode x = to_lower real_unicode c.
Proof.
  intros c H. assert (K : forall c, isin c lost_small || match to_upper real_unicode c with [x] => negb (x =? 931) && seq_eqb (to_lower real_unicode x) (to_lower real_unicode c) | _ => false end = true).
  { apply upper_by_table; [|vm_compute; reflexivity]. intros x E. rewrite E, seq_eqb_refl, andb_true_r. destruct (N.eqb_spec x 931) as [->|]; [reflexivity|apply orb_true_r]. }
  specialize (K c). apply orb_true_iff in K as [K|K]; [apply isin_In in K; contradiction|]. destruct (to_upper real_unicode c) as [|x [|]]; [discriminate K| |discriminate K].
  apply andb_true_iff in K as [K1 K2]. exists x. split; [reflexivity|]. split; [now apply N.eqb_neq, negb_true_iff|now apply seq_eqb_eq].
Qed.
Definition staysb (f : N -> ustr) (c : N) : bool :=
  if is_whitespace real_unicode c then seq_eqb (f c) [c] else match f c with [] => false | l => forallb (fun x => negb (is_whitespace real_unicode x)) l end.
Lemma staysb_ok : forall f, (forall c, staysb f c = true) -> spaces_stay real_unicode f.
Proof.
  intros f H c. specialize (H c). unfold staysb in H. destruct (is_whitespace real_unicode c); [now apply seq_eqb_eq|]. destruct (f c) as [|y l]; [discriminate H|].
  split; [discriminate|]. intros x Hx. rewrite forallb_forall in H. now apply negb_true_iff, H.
Qed.
Lemma stays_same : forall f c, f c = [c] -> staysb f c = true.
Proof. intros f c E. unfold staysb. rewrite E. destruct (is_whitespace real_unicode c) eqn:W; [apply seq_eqb_refl|]. cbn [forallb]. now rewrite W. Qed.
Theorem real_upper_spaces : spaces_stay real_unicode (to_upper real_unicode).
Proof. apply staysb_ok, upper_by_table; [intros c; apply stays_same|vm_compute; reflexivity]. Qed.
Theorem real_lower_spaces : spaces_stay real_unicode (to_lower real_unicode).
Proof. apply staysb_ok, lower_by_table; [intros c; apply stays_same|vm_compute; reflexivity]. Qed.
