(** * The model of Caverphone runs the passes of Spec_caverphone. *)
From Verif Require Import Base UnicodeM Lib Helper Caverphone BaseLemmas Spec_common Spec_rewrite Spec_caverphone
  Soundex_proofs Rewrite_proofs Caverphone_proofs.
Local Open Scope N_scope.

Definition computes (p : pass) (f : ustr -> ustr) : Prop := forall s s', pass_done p s s' <-> s' = f s.

Lemma starts_computes : forall p q, computes (Starts p q) (replace_start p q).
Proof.
  intros p q s s'.
  assert (E : replace_start p q s = start_rw [(p, q)] s).
  { unfold replace_start, start_rw, starts_with. cbn [find fst].
    destruct (strip_prefix p s) as [r|] eqn:E; [|reflexivity].
    apply strip_prefix_spec in E. subst s. now rewrite skipn_app_exact. }
  rewrite E, <- start_rewritten_iff. split; [intros H; now inversion H|now constructor].
Qed.
Lemma ends_computes : forall p q, computes (Ends p q) (fun t => replace_end t p q).
Proof.
  intros p q s s'.
  assert (E : replace_end s p q = end_rw [(p, q)] s).
  { unfold replace_end, end_rw. cbn [find fst]. destruct (ends_with s p); reflexivity. }
  rewrite E, <- end_rewritten_iff. split; [intros H; now inversion H|now constructor].
Qed.

Lemma replace_aux_skip : forall p q a s, replace_aux p q (length a) (a ++ s) = replace_aux p q 0 s.
Proof.
  intros p q a s. induction a as [|c a IH]; [reflexivity|]. cbn [app length replace_aux]. exact IH.
Qed.
Lemma all_replaced_iff : forall p q, p <> [] -> forall s s', all_replaced p q s s' <-> s' = replace p q s.
Proof.
  intros p q Hp s s'. unfold replace. split.
  - intros H. induction H as [|r r' _ IH|c r r' Hn _ IH].
    + reflexivity.
    + destruct p as [|x p]; [congruence|]. cbn [app replace_aux].
      replace (starts_with (x :: p ++ r) (x :: p)) with true
        by (symmetry; apply starts_with_spec; exists r; reflexivity).
      cbn [length Nat.sub]. rewrite Nat.sub_0_r, replace_aux_skip. now rewrite IH.
    + cbn [replace_aux]. replace (starts_with (c :: r) p) with false; [now rewrite IH|].
      symmetry. now apply starts_with_not.
  - intros ->. remember (length s) as n eqn:En. assert (L : (length s <= n)%nat) by lia. clear En.
    revert s L. induction n as [|n IH]; intros s L.
    { destruct s; [|cbn in L; lia]. constructor. }
    destruct s as [|c r]; [constructor|]. cbn [replace_aux].
    destruct (starts_with (c :: r) p) eqn:E.
    + apply starts_with_spec in E as [t Et]. destruct p as [|x p]; [congruence|].
      cbn [app] in Et. injection Et as -> ->. cbn [length Nat.sub]. rewrite Nat.sub_0_r, replace_aux_skip.
      change (x :: p ++ t) with ((x :: p) ++ t). apply ar_hit, IH. cbn [length] in L. rewrite app_length in L. lia.
    + apply ar_skip; [now apply starts_with_not|]. apply IH. cbn [length] in L. lia.
Qed.
Lemma all_computes : forall p q, p <> [] -> computes (All p q) (replace p q).
Proof.
  intros p q Hp s s'. rewrite <- (all_replaced_iff p q Hp). split; [intros H; now inversion H|now constructor].
Qed.

Lemma lower_vowel_iff : forall c, is_vowel (Some c) false = true <-> lower_vowel c.
Proof. intros c. unfold is_vowel, lower_vowel. now rewrite orb_false_r, isin_In. Qed.
Lemma lower_vowel_not : forall c, is_vowel (Some c) false = false <-> ~ lower_vowel c.
Proof. intros c. rewrite <- lower_vowel_iff. destruct (is_vowel (Some c) false); intuition congruence. Qed.

Lemma replace_char_const : forall (f : N -> N) s i, replace_char_aux (fun _ c => f c) i s = map f s.
Proof. intros f s. induction s as [|c r IH]; intros i; [reflexivity|]. cbn [replace_char_aux map]. now rewrite IH. Qed.
Lemma replace_char_first : forall s i, (0 < i)%nat ->
  replace_char_aux (fun i c => if Nat.eqb i 0 && is_vowel (Some c) false then # "A" else c) i s = s.
Proof.
  intros s. induction s as [|c r IH]; intros i Hi; [reflexivity|]. cbn [replace_char_aux].
  replace (Nat.eqb i 0) with false by (symmetry; apply Nat.eqb_neq; lia). cbn [andb]. f_equal. apply IH. lia.
Qed.
Lemma initial_computes : computes InitialVowel first_vowel_to_A.
Proof.
  intros s s'. unfold first_vowel_to_A, replace_char. destruct s as [|c r].
  - split; [intros H; inversion H; reflexivity|]. intros ->. apply pd_no_initial. discriminate.
  - cbn [replace_char_aux]. rewrite replace_char_first by lia. cbn [Nat.eqb andb].
    destruct (is_vowel (Some c) false) eqn:E.
    + apply lower_vowel_iff in E. split.
      * intros H; inversion H; subst; [reflexivity|]. now destruct (H0 c r eq_refl).
      * intros ->. now apply pd_initial.
    + apply lower_vowel_not in E. split.
      * intros H; inversion H; subst; [contradiction|reflexivity].
      * intros ->. apply pd_no_initial. intros c0 r0 X. injection X as <- <-. exact E.
Qed.
Lemma vowels_computes : computes Vowels vowels_to_3.
Proof.
  intros s s'. unfold vowels_to_3, replace_char.
  rewrite (replace_char_const (fun c => if is_vowel (Some c) false then # "3" else c)). split.
  - intros H; inversion H as [| | | | |s0 s0' F|]; subst. clear H. induction F as [|c d r r' Hc _ IH]; [reflexivity|].
    cbn [map]. f_equal; [|exact IH]. destruct Hc as [[V ->]|[V ->]].
    + apply lower_vowel_iff in V. now rewrite V.
    + apply lower_vowel_not in V. now rewrite V.
  - intros ->. apply pd_vowels. induction s as [|c r IH]; constructor; [|exact IH].
    destruct (is_vowel (Some c) false) eqn:E; [left|right]; split; auto.
    + now apply lower_vowel_iff.
    + now apply lower_vowel_not.
Qed.

Lemma compact_run : forall chars c k r, isin c chars = true ->
  compact_upper_aux chars (Some c) (repeat c k ++ r) = compact_upper_aux chars (Some c) r.
Proof.
  intros chars c k r H. induction k as [|k IH]; [reflexivity|]. cbn [repeat app compact_upper_aux].
  now rewrite H, N.eqb_refl.
Qed.
Lemma compact_other : forall chars c r, (forall x, r <> c :: x) ->
  compact_upper_aux chars (Some c) r = compact_upper_aux chars None r.
Proof.
  intros chars c [|d r] H; [reflexivity|]. cbn [compact_upper_aux].
  assert (c <> d) by (intros ->; now apply (H r)). apply N.eqb_neq in H0. rewrite H0. reflexivity.
Qed.
Lemma runs_computes : forall l, (forall c, In c l -> is_ascii_lower c = true) ->
  computes (Runs l) (fun t => replace_compact_all_to_uppercase t l).
Proof.
  intros l Hl.
  assert (G : forall s s', runs_raised l s s' <-> s' = compact_upper_aux l None s).
  { intros s s'. split.
    - intros H. induction H as [|c r r' Hn _ IH|c k r r' Hi Hn _ IH].
      + reflexivity.
      + cbn [compact_upper_aux]. apply isin_false in Hn. rewrite Hn. now rewrite IH.
      + cbn [repeat app compact_upper_aux]. assert (Hb := proj2 (isin_In c l) Hi). rewrite Hb.
        rewrite (compact_run l c k r Hb), (compact_other l c r Hn), <- IH. unfold ascii_up. now rewrite (Hl c Hi).
    - intros ->. remember (length s) as n eqn:En. assert (L : (length s <= n)%nat) by lia. clear En.
      revert s L. induction n as [|n IH]; intros s L.
      { destruct s; [|cbn in L; lia]. constructor. }
      destruct s as [|c r]; [constructor|]. destruct (isin c l) eqn:E.
      + assert (Sp : exists k t, r = repeat c k ++ t /\ forall x, t <> c :: x).
        { clear L. induction r as [|d r IHr]; [exists 0%nat, []; split; [reflexivity|discriminate]|].
          destruct (N.eqb_spec d c) as [->|Hd].
          - destruct IHr as (k & t & -> & Ht). exists (S k), t. split; [reflexivity|exact Ht].
          - exists 0%nat, (d :: r). split; [reflexivity|]. intros x X. congruence. }
        destruct Sp as (k & t & -> & Ht). cbn [compact_upper_aux]. rewrite E, (compact_run l c k t E), (compact_other l c t Ht).
        assert (Hi := proj1 (isin_In c l) E). unfold ascii_up. rewrite (Hl c Hi).
        apply (rr_run l c k t); [exact Hi|exact Ht|]. apply IH. cbn [length] in L. rewrite app_length in L. lia.
      + cbn [compact_upper_aux]. rewrite E. apply rr_other; [now apply isin_false|]. apply IH. cbn [length] in L. lia. }
  intros s s'. unfold replace_compact_all_to_uppercase. rewrite <- G.
  split; [intros H; now inversion H|now constructor].
Qed.

Lemma passes_compute : forall ps fs, Forall2 computes ps fs ->
  forall s s', passes_done ps s s' <-> s' = run_passes fs s.
Proof.
  intros ps fs F. induction F as [|p f ps fs Hp _ IH]; intros s s'.
  - split; [intros H; now inversion H|intros ->; constructor].
  - unfold run_passes. cbn [fold_left]. fold (run_passes fs (f s)). split.
    + intros H; inversion H as [|p0 ps0 s0 t s0' P1 P2]; subst. apply Hp in P1. subst t. now apply IH.
    + intros ->. apply (ps_more p ps s (f s)); [now apply Hp|now apply IH].
Qed.

Ltac rules := repeat (apply Forall2_cons; [
   first [apply starts_computes | apply ends_computes | apply all_computes; discriminate
         | apply initial_computes | apply vowels_computes
         | apply runs_computes; intros c Hc; cbn in Hc; intuition (subst; reflexivity)] |]);
   apply Forall2_nil.
Lemma rules1 : Forall2 computes caverphone1_rules caverphone1_passes.
Proof. unfold caverphone1_rules, caverphone1_passes. rules. Qed.
Lemma rules2 : Forall2 computes caverphone2_rules caverphone2_passes.
Proof. unfold caverphone2_rules, caverphone2_passes. rules. Qed.
