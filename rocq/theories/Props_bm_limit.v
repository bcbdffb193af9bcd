(** * C84: the limit on the number of phonemes, and the size of Beider-Morse codes. *)
From Verif Require Import Base UnicodeM Lib RulesParser DaitchMokotoff BmLanguages BmRegex BmRule BmEngine BmEmbedded BmDefault MiniRegex UnicodeReal BaseLemmas
  Dm_proofs Spec_bm Bm_set_proofs Spec_bm_engine Bm_engine_proofs Bm_recursion_proofs Spec_bm_file Bm_config_proofs Spec_bm_name Bm_name_proofs Props_bm_engine Props_bm_config
  Spec_bm_all Bm_all_proofs Props_bm_all Bm_standard_proofs Bm_depth_proofs Props_bm_standard Spec_bm_alphabet Props_bm_alphabet Spec_bm_limit.
Local Open Scope nat_scope.

Section Words.
Variable rx : RegexEngine.
Variable x : rates.

Lemma combinations_length : forall b e, length (combinations b e) <= length b * length e.
Proof.
  intros b e. induction b as [|p b IH]; [cbn; lia|]. rewrite combinations_cons, app_length. cbn [length].
  assert (C : length (combos1 p e) <= length e).
  { unfold combos1. clear. induction e as [|r e IH]; [cbn; lia|]. cbn [flat_map]. rewrite app_length. cbv zeta in *. destruct (no_language _); cbn [length]; lia. }
  lia.
Qed.
Lemma combined_all : forall b e m b', length (combinations b e) <= m -> combined b e m b' <-> distinct_of (combinations b e) b'.
Proof.
  intros b e m b' M. split.
  - intros (n & D & A & [B|B]); [|now rewrite B in D]. pose proof (pset_of_list_length (firstn n (combinations b e))) as G.
    rewrite <- (proj1 (distinct_of_iff _ _) D), B in G. rewrite firstn_length in G. rewrite firstn_all2 in D by lia. exact D.
  - intros D. exists (length (combinations b e)). rewrite firstn_all. split; [exact D|]. split; [|now right].
    apply distinct_of_iff in D. subst b'. pose proof (pset_of_list_length (combinations b e)). lia.
Qed.
Lemma chosen_within : forall rules t i r, rules_within x rules -> chosen rx rules t i (Some r) ->
  length (bm_phoneme r) <= choices x ^ length (bm_pattern r) /\ forall p, In p (bm_phoneme r) -> length (ph_text p) <= growth x * length (bm_pattern r).
Proof. intros rules t i r (_ & _ & W) C. apply chosen_in_table in C as (c & rs & A & B). now apply (W c rs). Qed.
Lemma chosen_advances : forall rules t i r, chosen rx rules t i (Some r) -> i + length (bm_pattern r) <= length t.
Proof.
  intros rules t i r C. inversion C as [pre r' post E N A|]; subst. destruct A as (bf & af & -> & <- & _). rewrite !app_length. lia.
Qed.

(** ** Lengths of the phonemes *)
Definition short (n : nat) (b : list Phoneme) : Prop := forall p, In p b -> length (ph_text p) <= n.
Lemma combined_short : forall b e m b' n y, combined b e m b' -> short n b -> (forall p, In p e -> length (ph_text p) <= y) -> short (n + y) b'.
Proof.
  intros b e m b' n y (z & D & _ & _) B E p H. apply distinct_of_iff in D. subst b'. apply pset_of_list_In in H. apply firstn_In_ in H. unfold combinations in H.
  apply in_flat_map in H as (q & Hq & H). apply in_flat_map in H as (r & Hr & H). cbv zeta in H.
  destruct (no_language _); [destruct H|destruct H as [<-|[]]]. cbn [ph_text]. rewrite app_length. apply B in Hq. apply E in Hr. lia.
Qed.
Lemma short_mono : forall n m b, n <= m -> short n b -> short m b.
Proof. intros n m b L B p H. apply B in H. lia. Qed.
Lemma main_scan_short : forall rules m t, rules_within x rules -> forall i b b', main_scan rx rules m t i b b' ->
  i <= length t -> short (growth x * i) b -> short (growth x * length t) b'.
Proof.
  intros rules m t W i b b' H. induction H as [i b H|i b r b1 b' H1 H2 H3 H4 IH|i b b' H1 H2 H3 IH]; intros I B.
  - now replace (length t) with i by lia.
  - destruct (chosen_within _ _ _ _ W H2) as [_ E]. apply IH; [exact (chosen_advances _ _ _ _ H2)|]. rewrite Nat.mul_add_distr_l. eapply combined_short; eassumption.
  - apply IH; [lia|]. eapply short_mono; [|exact B]. nia.
Qed.
Lemma final_scan_short : forall rules m t, rules_within x rules -> forall i b b', final_scan rx rules m t i b b' ->
  i <= length t -> short (growth x * i) b -> short (growth x * length t) b'.
Proof.
  intros rules m t W i b b' H. induction H as [i b H|i b r b1 b' H1 H2 H3 H4 IH|i b c b1 b' H1 H2 D H3 IH]; intros I B.
  - now replace (length t) with i by lia.
  - destruct (chosen_within _ _ _ _ W H2) as [_ E]. apply IH; [exact (chosen_advances _ _ _ _ H2)|]. rewrite Nat.mul_add_distr_l. eapply combined_short; eassumption.
  - assert (I' : i < length t) by (apply nth_error_Some; congruence). apply IH; [lia|].
    intros p Hp. apply distinct_of_iff in D. subst b1. apply pset_of_list_In in Hp. apply in_map_iff in Hp as (q & <- & Hq). cbn [ph_text]. rewrite app_length. cbn [length].
    apply B in Hq. destruct W as (_ & W & _). nia.
Qed.
Lemma contributions_short : forall rules m ps cs n, rules_within x rules -> contributions rx rules m ps cs ->
  short n ps -> short (growth x * n) (map snd cs).
Proof.
  intros rules m ps cs n W C. induction C as [|p ps q cs F C IH]; intros B y Hy; [destruct Hy|]. rewrite map_app, in_app_iff, map_map in Hy. destruct Hy as [Hy|Hy].
  - rewrite map_id in Hy. apply (final_scan_short _ _ _ W _ _ _ F) in Hy; [|lia|intros z [<-|[]]; cbn; lia]. pose proof (B p (or_introl eq_refl)). nia.
  - apply IH; [|exact Hy]. intros z Hz. apply B. now right.
Qed.
Lemma final_step_short : forall rules m b b' n, rules_within x rules -> final_step rx rules m b b' -> short n b -> short (growth x * n) b'.
Proof.
  intros rules m b b' n W [[_ ->]|(_ & _ & cs & C & H)] B p Hp; [apply B in Hp; destruct W as (_ & W & _); nia|]. apply H in Hp.
  destruct (proj1 (collected_texts cs (ph_text p)) (ex_intro _ _ Hp)) as (q & Hq & <-). apply (contributions_short _ _ _ _ _ W C B). now apply in_map.
Qed.

(** ** Limits *)
Lemma power_positive : forall n, 1 <= choices x -> 1 <= choices x ^ n.
Proof. intros n K. assert (choices x ^ n <> 0) by (apply Nat.pow_nonzero; lia). lia. Qed.
Lemma combined_limit : forall b e m m' b' n, length e <= choices x ^ n -> length b * choices x ^ n <= m -> length b * choices x ^ n <= m' ->
  combined b e m b' -> combined b e m' b' /\ length b' <= length b * choices x ^ n.
Proof.
  intros b e m m' b' n E M M' C. pose proof (combinations_length b e). assert (length b * length e <= length b * choices x ^ n) by (apply Nat.mul_le_mono_l; exact E).
  apply combined_all in C; [|lia]. split; [apply combined_all; [lia|exact C]|]. apply distinct_of_iff in C. subst b'.
  pose proof (pset_of_list_length (combinations b e)). lia.
Qed.
Lemma power_split : forall n i j b, 1 <= choices x -> i <= j -> j <= n -> b * choices x ^ (j - i) * choices x ^ (n - j) = b * choices x ^ (n - i).
Proof. intros n i j b K I J. rewrite <- Nat.mul_assoc, <- Nat.pow_add_r. f_equal. f_equal. lia. Qed.
Lemma power_less : forall n i j b, 1 <= choices x -> i <= j -> j <= n -> b * choices x ^ (j - i) <= b * choices x ^ (n - i).
Proof.
  intros n i j b K I J. apply Nat.mul_le_mono_l. apply Nat.pow_le_mono_r; lia.
Qed.
Lemma main_scan_limit : forall rules m m' t, rules_within x rules -> forall i b b', main_scan rx rules m t i b b' ->
  i <= length t -> length b * choices x ^ (length t - i) <= m -> length b * choices x ^ (length t - i) <= m' -> main_scan rx rules m' t i b b'.
Proof.
  intros rules m m' t W i b b' H. induction H as [i b H|i b r b1 b' H1 H2 H3 H4 IH|i b b' H1 H2 H3 IH]; intros I M M'; pose proof (proj1 W) as K.
  - now apply ms_end.
  - destruct (chosen_within _ _ _ _ W H2) as [E _]. pose proof (chosen_advances _ _ _ _ H2) as A.
    replace (length (bm_pattern r)) with (i + length (bm_pattern r) - i) in E by lia.
    pose proof (power_less (length t) i (i + length (bm_pattern r)) (length b) K ltac:(lia) A) as Q.
    destruct (combined_limit b (bm_phoneme r) m m' b1 (i + length (bm_pattern r) - i) E ltac:(lia) ltac:(lia) H3) as [C B]. eapply ms_rule; [exact H1|exact H2|exact C|].
    pose proof (power_split (length t) i (i + length (bm_pattern r)) (length b) K ltac:(lia) A) as Q'.
    apply (Nat.mul_le_mono_r _ _ (choices x ^ (length t - (i + length (bm_pattern r))))) in B. apply IH; [exact A|lia|lia].
  - eapply ms_skip; [exact H1|exact H2|].
    assert (Z : length b * choices x ^ (length t - (i + 1)) <= length b * choices x ^ (length t - i)) by (apply Nat.mul_le_mono_l, Nat.pow_le_mono_r; lia).
    apply IH; lia.
Qed.
Lemma final_scan_limit : forall rules m m' t, rules_within x rules -> forall i b b', final_scan rx rules m t i b b' ->
  i <= length t -> length b * choices x ^ (length t - i) <= m -> length b * choices x ^ (length t - i) <= m' -> final_scan rx rules m' t i b b'.
Proof.
  intros rules m m' t W i b b' H. induction H as [i b H|i b r b1 b' H1 H2 H3 H4 IH|i b c b1 b' H1 H2 D H3 IH]; intros I M M'; pose proof (proj1 W) as K.
  - now apply fs_end.
  - destruct (chosen_within _ _ _ _ W H2) as [E _]. pose proof (chosen_advances _ _ _ _ H2) as A.
    replace (length (bm_pattern r)) with (i + length (bm_pattern r) - i) in E by lia.
    pose proof (power_less (length t) i (i + length (bm_pattern r)) (length b) K ltac:(lia) A) as Q.
    destruct (combined_limit b (bm_phoneme r) m m' b1 (i + length (bm_pattern r) - i) E ltac:(lia) ltac:(lia) H3) as [C B]. eapply fs_rule; [exact H1|exact H2|exact C|].
    pose proof (power_split (length t) i (i + length (bm_pattern r)) (length b) K ltac:(lia) A) as Q'.
    apply (Nat.mul_le_mono_r _ _ (choices x ^ (length t - (i + length (bm_pattern r))))) in B. apply IH; [exact A|lia|lia].
  - assert (I' : i < length t) by (apply nth_error_Some; congruence).
    eapply fs_keep; [exact H1|exact H2|exact D|].
    assert (B : length b1 <= length b).
    { apply distinct_of_iff in D. subst b1. etransitivity; [apply pset_of_list_length|]. now rewrite map_length. }
    assert (Z : length b1 * choices x ^ (length t - (i + 1)) <= length b * choices x ^ (length t - i)) by (apply Nat.mul_le_mono; [exact B|apply Nat.pow_le_mono_r; lia]).
    apply IH; lia.
Qed.
Lemma contributions_limit : forall rules m m' ps cs n, rules_within x rules -> short n ps -> choices x ^ n <= m -> choices x ^ n <= m' ->
  contributions rx rules m ps cs -> contributions rx rules m' ps cs.
Proof.
  intros rules m m' ps cs n W B M M' C. induction C as [|p ps q cs F C IH]; [constructor|]. constructor.
  - assert (X : choices x ^ length (ph_text p) <= choices x ^ n) by (apply Nat.pow_le_mono_r; [destruct W; lia|]; apply B; now left).
    apply (final_scan_limit _ m m' _ W _ _ _ F); cbn [start length]; rewrite ?Nat.sub_0_r; lia.
  - apply IH. intros y Hy. apply B. now right.
Qed.
Lemma final_step_limit : forall rules m m' b b' n, rules_within x rules -> short n b -> choices x ^ n <= m -> choices x ^ n <= m' ->
  final_step rx rules m b b' -> final_step rx rules m' b b'.
Proof.
  intros rules m m' b b' n W B M M' [H|(N & S & cs & C & H)]; [now left|]. right. split; [exact N|]. split; [exact S|]. exists cs. split; [|exact H].
  exact (contributions_limit _ _ _ _ _ _ W B M M' C).
Qed.
End Words.

(** ** The phonemes of a word *)
(** No phoneme is longer than the growth of the three steps allows. *)
Theorem C84_phoneme_length : forall rx x1 x2 x3 main f1 f2 max languages text b,
  rules_within x1 main -> rules_within x2 f1 -> rules_within x3 f2 ->
  word_phonemes rx main f1 f2 max languages text b -> forall p, In p b -> length (ph_text p) <= growth x3 * (growth x2 * (growth x1 * length text)).
Proof.
  intros rx x1 x2 x3 main f1 f2 max languages text b W W1 W2 (b1 & b2 & A & B & C).
  apply (final_step_short rx x3 _ _ _ _ _ W2 C). apply (final_step_short rx x2 _ _ _ _ _ W1 B).
  apply (main_scan_short rx x1 _ _ _ W _ _ _ A); [lia|]. intros p [<-|[]]. cbn. lia.
Qed.
(** A limit that the number of choices cannot reach changes nothing. *)
Theorem C84_word : forall rx x1 x2 x3 main f1 f2 m m' languages text b,
  rules_within x1 main -> rules_within x2 f1 -> rules_within x3 f2 ->
  enough x1 x2 x3 (length text) m -> enough x1 x2 x3 (length text) m' ->
  word_phonemes rx main f1 f2 m languages text b -> word_phonemes rx main f1 f2 m' languages text b.
Proof.
  intros rx x1 x2 x3 main f1 f2 m m' languages text b W W1 W2 (M1 & M2 & M3) (N1 & N2 & N3) (b1 & b2 & A & B & C).
  assert (S1 : short (growth x1 * length text) b1).
  { apply (main_scan_short rx x1 _ _ _ W _ _ _ A); [lia|]. intros p [<-|[]]. cbn. lia. }
  assert (S2 : short (growth x2 * (growth x1 * length text)) b2) by (now apply (final_step_short rx x2 _ _ _ _ _ W1 B)).
  exists b1, b2. split; [|split].
  - apply (main_scan_limit rx x1 main m m' text W 0 _ _ A); cbn [start length]; rewrite ?Nat.sub_0_r; lia.
  - exact (final_step_limit rx x2 f1 m m' b1 b2 _ W1 S1 M2 N2 B).
  - exact (final_step_limit rx x3 f2 m m' b2 b _ W2 S2 M3 N3 C).
Qed.

(** ** The code of a value *)
Lemma total_kept : forall n ws ks, kept n ws ks -> total ks <= total ws /\ length ks <= length ws.
Proof.
  intros n ws ks H. assert (Q : forall w s, kept_as n w s -> length s <= length w).
  { intros w s A. destruct n; cbn in A; try (subst; lia). destruct A as [_ [->|(p & ->)]]; [lia|]. rewrite !app_length. lia. }
  induction H as [|w s ws ks A B H IH|w s ws ks A B H IH]; unfold total in *; cbn [fold_right length]; [lia| |]; try apply Q in A; lia.
Qed.
Lemma join_length : forall ws, length (join $ " " ws) = total ws + (length ws - 1).
Proof.
  induction ws as [|w ws IH]; [reflexivity|]. destruct ws as [|w' ws]; [cbn; lia|].
  change (join $ " " (w :: w' :: ws)) with (w ++ $ " " ++ join $ " " (w' :: ws)). rewrite !app_length, IH.
  change (total (w :: w' :: ws)) with (length w + total (w' :: ws)). cbn [length]. change (length $ " ") with 1. lia.
Qed.
Lemma enough_mono : forall x1 x2 x3 n n' m, 1 <= choices x1 -> 1 <= choices x2 -> 1 <= choices x3 -> n <= n' -> enough x1 x2 x3 n' m -> enough x1 x2 x3 n m.
Proof.
  intros x1 x2 x3 n n' m K1 K2 K3 L (A & B & C).
  assert (choices x1 ^ n <= choices x1 ^ n') by (apply Nat.pow_le_mono_r; lia).
  assert (choices x2 ^ (growth x1 * n) <= choices x2 ^ (growth x1 * n')) by (apply Nat.pow_le_mono_r; [lia|]; now apply Nat.mul_le_mono_l).
  assert (choices x3 ^ (growth x2 * (growth x1 * n)) <= choices x3 ^ (growth x2 * (growth x1 * n'))) by (apply Nat.pow_le_mono_r; [lia|]; now apply Nat.mul_le_mono_l, Nat.mul_le_mono_l).
  unfold enough. lia.
Qed.
Section Values.
Variable u : Unicode.
Variable rx : RegexEngine.
Hypothesis L : LowerOK u.

Lemma encode_text_limit : forall e x1 x2 x3 m m' r f1 f2 languages text,
  table_ok r -> table_ok f1 -> table_ok f2 -> rules_within x1 r -> rules_within x2 f1 -> rules_within x3 f2 ->
  enough x1 x2 x3 (length text) m -> enough x1 x2 x3 (length text) m' ->
  encode_text rx (with_limit e m) r f1 f2 languages text = encode_text rx (with_limit e m') r f1 f2 languages text.
Proof.
  intros e x1 x2 x3 m m' r f1 f2 languages text T T1 T2 W W1 W2 M M'.
  destruct (encode_text_spec rx (with_limit e m) r f1 f2 languages text T T1 T2) as (b & E & H).
  destruct (encode_text_spec rx (with_limit e m') r f1 f2 languages text T T1 T2) as (b' & E' & H').
  rewrite E, E'. cbn [with_limit pe_max_phonemes] in H, H'.
  apply (C84_word rx x1 x2 x3 r f1 f2 m m' languages text b W W1 W2 M M') in H.
  now rewrite (word_phonemes_unique _ _ _ _ _ _ _ _ _ H H').
Qed.
(** Two limits that the number of choices in the text that is looked at cannot reach give the same
    result (also the same panic), for every value and every languages. *)
Theorem C84_large_limits : forall e x1 x2 x3 m m', tables_ok e -> engine_within x1 x2 x3 e ->
  forall v, enough x1 x2 x3 (length (looked_at u v)) m -> enough x1 x2 x3 (length (looked_at u v)) m' ->
  bm_encode u rx (with_limit e m) v = bm_encode u rx (with_limit e m') v
  /\ forall languages, bm_encode_with_languages u rx (with_limit e m) v languages = bm_encode_with_languages u rx (with_limit e m') v languages.
Proof.
  intros e x1 x2 x3 m m' T (W1 & W2 & W3) v M M'.
  enough (G : forall languages, bm_encode_with_languages u rx (with_limit e m) v languages = bm_encode_with_languages u rx (with_limit e m') v languages)
    by (split; [exact (G _)|exact G]).
  revert M M'. pattern v. apply (part_induction u). clear v. intros v IH M M' languages.
  destruct (rules_get (pe_rules e) (pe_name_type e, Rules_, rules_language languages)) as [r|] eqn:E0.
  2:{ rewrite !(encode_equation u rx L). unfold level. cbn [with_limit pe_rules pe_lang pe_name_type pe_rule_type pe_concat]. now rewrite E0. }
  destruct (rules_get (pe_rules e) (pe_name_type e, pe_rule_type e, $ "common")) as [f1|] eqn:E1.
  2:{ rewrite !(encode_equation u rx L). unfold level. cbn [with_limit pe_rules pe_lang pe_name_type pe_rule_type pe_concat]. now rewrite E0, E1. }
  destruct (rules_get (pe_rules e) (pe_name_type e, pe_rule_type e, rules_language languages)) as [f2|] eqn:E2.
  2:{ rewrite !(encode_equation u rx L). unfold level. cbn [with_limit pe_rules pe_lang pe_name_type pe_rule_type pe_concat]. now rewrite E0, E1, E2. }
  pose proof (W1 _ _ E0) as V1. pose proof (W2 _ eq_refl) as V2. pose proof (W3 _ _ _ E0 E2) as V3.
  assert (Mono : forall n limit, n <= length (looked_at u v) -> enough x1 x2 x3 (length (looked_at u v)) limit -> enough x1 x2 x3 n limit)
    by (intros n limit; apply enough_mono; [apply V1|apply V2|apply V3]).
  rewrite !(encode_equation u rx L).
  rewrite (level_ext u rx L (with_limit e m) (bm_encode u rx (with_limit e m)) (bm_encode u rx (with_limit e m'))).
  2:{ intros s P. unfold bm_encode. cbn [with_limit pe_lang].
      assert (X : length (looked_at u s) <= length (looked_at u v)).
      { destruct P as [P1 P2]. rewrite (prepared_looked_at u v) in P2. unfold looked_at at 1. rewrite map_length, lowered_fixed by exact P1. lia. }
      apply IH; [exact P|now apply Mono|now apply Mono]. }
  unfold level. cbn [with_limit pe_rules pe_lang pe_name_type pe_rule_type pe_concat]. rewrite E0, E1, E2.
  cbn [unwrap bind]. cbv zeta. destruct (generic_prefix (pe_name_type e) (prepared u v)) as [[c rr]|]; [reflexivity|].
  assert (G : forall text, length text <= length (looked_at u v) ->
    encode_text rx (with_limit e m) r f1 f2 languages text = encode_text rx (with_limit e m') r f1 f2 languages text).
  { intros text X. apply (encode_text_limit e x1 x2 x3); try assumption; [exact (T _ _ E0)|exact (T _ _ E1)|exact (T _ _ E2)|now apply Mono|now apply Mono]. }
  rewrite prepared_looked_at. pose proof (split_ws_total u (looked_at u v) []) as Tot. fold (split_whitespace u (looked_at u v)) in Tot. cbn [length Nat.add] in Tot.
  set (ws := split_whitespace u (looked_at u v)) in *.
  destruct (negb (pe_concat e) && negb (Nat.eqb (length ws) 1)) eqn:B; [reflexivity|].
  destruct (pe_concat e); cbn [bind].
  - apply G. rewrite join_length.
    destruct (total_kept (pe_name_type e) ws (words2 (pe_name_type e) ws)) as [Q1 Q2]; [|lia]. apply words2_kept; [|reflexivity].
    intros w Hw I. pose proof (words_of_chars u (looked_at u v) ws w 32 (split_words_of u (looked_at u v)) Hw I). pose proof (space_ws u). congruence.
  - destruct ws as [|w ws']; [reflexivity|]. cbn [hd_error unwrap bind]. apply G. cbn [total fold_right length] in Tot. fold (total ws') in Tot. lia.
Qed.

(** ** How long a code is *)
Lemma parts_short : forall n s, length s <= n -> parts_within n s.
Proof. intros n s H a w b E _. rewrite E, !app_length in H. lia. Qed.
Lemma parts_mono : forall n m s, n <= m -> parts_within n s -> parts_within m s.
Proof. intros n m s H P a w b E F. specialize (P a w b E F). lia. Qed.
Lemma parts_sep : forall n a c b, In c $ "|()-" -> parts_within n a -> parts_within n b -> parts_within n (a ++ c :: b).
Proof.
  intros n a c b S A B p w q E F. rewrite app_assoc in E. apply app_eq_app in E as (z & [[E1 E2]|[E1 E2]]).
  - apply (A p w z); [now rewrite app_assoc|exact F].
  - destruct z as [|c' z]; [apply (A p w []); [now rewrite app_nil_r in *|exact F]|]. injection E2 as <- E2.
    apply app_eq_app in E1 as (y & [[E1 E3]|[E1 E3]]).
    + destruct y as [|c' y]; [cbn [app] in E3; subst w; elim (F c); [now left|exact S]|]. injection E3 as <- E3.
      apply (B y w q); [now rewrite E2, E3, app_assoc|exact F].
    + subst w. elim (F c); [apply in_elt|exact S].
Qed.
Lemma parts_join : forall n c ws, In c $ "|()-" -> (forall w, In w ws -> parts_within n w) -> parts_within n (join [c] ws).
Proof.
  intros n c ws S. induction ws as [|w ws IH]; intros H; [apply parts_short; cbn; lia|]. destruct ws as [|w' ws]; [apply H; now left|].
  change (join [c] (w :: w' :: ws)) with (w ++ c :: join [c] (w' :: ws)). apply parts_sep; [exact S|apply H; now left|]. apply IH. intros z Hz. apply H. now right.
Qed.
(** The parts of a code between separators: at most as long as the text times the growth of the rules. *)
Theorem C84_code_length : forall e x1 x2 x3, engine_within x1 x2 x3 e -> forall languages v code, name_code u rx e languages v code ->
  parts_within (growth x3 * (growth x2 * (growth x1 * length (looked_at u v)))) code.
Proof.
  intros e x1 x2 x3 (W1 & W2 & W3).
  set (bound := fun n => growth x3 * (growth x2 * (growth x1 * n))).
  assert (BM : forall n n', n <= n' -> bound n <= bound n') by (intros n n' H; unfold bound; now apply Nat.mul_le_mono_l, Nat.mul_le_mono_l, Nat.mul_le_mono_l).
  assert (TC : forall LS text code, text_code rx e LS text code -> parts_within (bound (length text)) code).
  { intros LS text code (m & f1 & f2 & b & (l & _ & G1 & G2 & G3) & W & ->). apply parts_join; [now left|].
    intros w Hw. apply in_map_iff in Hw as (p & <- & Hp). apply parts_short.
    exact (C84_phoneme_length rx x1 x2 x3 m f1 f2 _ LS text b (W1 _ _ G1) (W2 _ G2) (W3 _ _ _ G1 G3) W p Hp). }
  assert (LK : forall v s, lowered u s -> length s <= length (looked_at u v) -> length (looked_at u s) <= length (looked_at u v)).
  { intros v s P H. unfold looked_at at 1. now rewrite map_length, lowered_fixed by exact P. }
  assert (LI : forall v s, incl s (looked_at u v) -> lowered u s).
  { intros v s I. apply lowered_incl with (looked_at u v); [exact I|]. rewrite <- prepared_looked_at. now apply prepared_lowered. }
  enough (G : forall n languages v code, name_code u rx e languages v code -> length (looked_at u v) <= n -> parts_within (bound n) code)
    by (intros languages v code H; exact (G _ _ _ _ H (le_n _))).
  intros n. fix IH 4. intros languages v code H. destruct H as [languages v c r cc rc T P Hc Hr|languages v ws codes T P C W Ln F|languages v w code P C W T|languages v ws ks code P C W K T]; intros X.
  - apply generic_prefix_prefixed in P. apply generic_prefix_shorter in P as (P1 & P2 & P3 & P4).
    pose proof (IH _ _ _ Hc) as I1. pose proof (IH _ _ _ Hr) as I2. clear IH.
    assert (A1 : parts_within (bound n) cc) by (apply I1; etransitivity; [apply (LK v); [now apply (LI v)|lia]|exact X]).
    assert (A2 : parts_within (bound n) rc) by (apply I2; etransitivity; [apply (LK v); [now apply (LI v)|lia]|exact X]).
    assert (N0 : parts_within (bound n) []) by (apply parts_short; cbn; lia).
    apply (parts_sep _ [] (# "(")); [cbn; tauto|exact N0|]. apply (parts_sep _ rc (# ")")); [cbn; tauto|exact A2|].
    apply (parts_sep _ [] (# "-")); [cbn; tauto|exact N0|]. apply (parts_sep _ [] (# "(")); [cbn; tauto|exact N0|].
    apply (parts_sep _ cc (# ")")); [cbn; tauto|exact A1|exact N0].
  - assert (Y : forall w, In w ws -> lowered u w /\ length w <= length (looked_at u v)).
    { intros w Hw. apply words_of_split in W. subst ws. split; [apply (LI v); intros z Hz; eapply words_chars; eassumption|].
      apply words_shorter in Hw; [lia|exact Ln]. }
    clear W Ln. apply parts_join; [cbn; tauto|]. induction F as [|w c ws codes Nw F IHF]; intros z Hz; [destruct Hz|]. destruct Hz as [<-|Hz].
    + destruct (Y w (or_introl eq_refl)) as [Y1 Y2]. apply (IH _ _ _ Nw). etransitivity; [apply (LK v); [exact Y1|exact Y2]|exact X].
    + apply IHF; [|exact Hz]. intros w' Hw'. apply Y. now right.
  - clear IH. apply TC in T. eapply parts_mono; [|exact T]. apply BM. apply words_of_split in W.
    pose proof (split_ws_total u (looked_at u v) []) as Tot. fold (split_whitespace u (looked_at u v)) in Tot. rewrite W in Tot. cbn in Tot. lia.
  - clear IH. apply TC in T. eapply parts_mono; [|exact T]. apply BM. rewrite join_length. apply total_kept in K as [K1 K2]. apply words_of_split in W.
    pose proof (split_ws_total u (looked_at u v) []) as Tot. fold (split_whitespace u (looked_at u v)) in Tot. rewrite W in Tot. cbn [length Nat.add] in Tot. lia.
Qed.
End Values.

(** ** Every engine that was built *)
Definition rule_most (r : BmRule) : nat := length (bm_phoneme r) + fold_right (fun p n => length (ph_text p) + n) 0 (bm_phoneme r).
Definition map_most (m : RuleMap) : nat := fold_right (fun kv n => fold_right (fun r n => rule_most r + n) 0 (snd kv) + n) 0 m.
Definition most (R : Rules) : nat := fold_right (fun kv n => map_most (snd kv) + n) 1 R.
Lemma sum_In : forall (A : Type) (f : A -> nat) l z x, In x l -> f x <= fold_right (fun y n => f y + n) z l.
Proof. intros A f l z x. induction l as [|y l IH]; intros H; [destruct H|]. cbn [fold_right]. destruct H as [<-|H]; [lia|]. apply IH in H. lia. Qed.
Lemma rules_get_In : forall R key m, rules_get R key = Some m -> exists key', In (key', m) R.
Proof.
  induction R as [|[k' v] R IH]; intros key m H; [discriminate|]. cbn [rules_get] in H. destruct (rk_eqb k' key).
  - injection H as <-. exists k'. now left.
  - apply IH in H as (k2 & H). exists k2. now right.
Qed.
Lemma most_positive : forall R, 1 <= most R.
Proof. intros R. unfold most. induction R as [|y R IH]; cbn [fold_right]; lia. Qed.
Lemma most_within : forall R key m, table_ok m -> rules_get R key = Some m -> rules_within {| choices := most R; growth := most R |} m.
Proof.
  intros R key m T G. pose proof (most_positive R) as P. split; [exact P|]. split; [exact P|]. intros c rs r I J. cbn [choices growth].
  apply rules_get_In in G as (key' & G). assert (Q : rule_most r <= most R).
  { pose proof (sum_In _ rule_most rs 0 r J) as Q1. pose proof (sum_In _ (fun kv => fold_right (fun r n => rule_most r + n) 0 (snd kv)) m 0 (c, rs) I) as Q2.
    pose proof (sum_In _ (fun kv => map_most (snd kv)) R 1 (key', m) G) as Q3. cbn [snd] in *. unfold most, map_most in *. lia. }
  assert (N : 1 <= length (bm_pattern r)).
  { destruct (T c rs r I J) as [H _]. destruct (bm_pattern r); [discriminate|cbn; lia]. }
  split.
  - assert (most R ^ 1 <= most R ^ length (bm_pattern r)) by (apply Nat.pow_le_mono_r; lia). rewrite Nat.pow_1_r in *. unfold rule_most in Q. lia.
  - intros p Hp. pose proof (sum_In _ (fun p => length (ph_text p)) (bm_phoneme r) 0 p Hp). unfold rule_most in Q. cbv beta in *. nia.
Qed.
Definition limited (s : settings) (m : nat) : settings :=
  {| s_name_type := s_name_type s; s_rule_type := s_rule_type s; s_concat := s_concat s; s_max_phonemes := m |}.
Lemma build_limited : forall c s m e, builder_build (told c (limited s m)) = Ok e ->
  forall m', builder_build (told c (limited s m')) = Ok (with_limit e m') /\ with_limit e m = e.
Proof.
  intros c s m e H m'. unfold builder_build, told, limited in *. cbn [bb_name_type bb_config bb_rule_type bb_concat bb_max_phonemes s_name_type s_rule_type s_concat s_max_phonemes] in *.
  destruct (nt_assoc _ _) as [lng|]; [|discriminate H]. cbn [unwrap bind] in *. apply Ok_inj in H. subst e. now split.
Qed.
Lemma same_limits : forall u rx c s v M, LowerOK u -> (forall m e, builder_build (told c (limited s m)) = Ok e -> tables_ok e) ->
  (forall m e, builder_build (told c (limited s m)) = Ok e -> exists x1 x2 x3, engine_within x1 x2 x3 e /\ forall limit, M <= limit -> enough x1 x2 x3 (length (looked_at u v)) limit) ->
  forall m m' e e', M <= m -> M <= m' -> builder_build (told c (limited s m)) = Ok e -> builder_build (told c (limited s m')) = Ok e' ->
  bm_encode u rx e v = bm_encode u rx e' v /\ forall languages, bm_encode_with_languages u rx e v languages = bm_encode_with_languages u rx e' v languages.
Proof.
  intros u rx c s v M L T W m m' e e' H H' E E'. destruct (W m e E) as (x1 & x2 & x3 & A & B).
  destruct (build_limited _ _ _ _ E m') as [D1 D2]. rewrite D1 in E'. apply Ok_inj in E'. subst e'. 
  pose proof (C84_large_limits u rx L e x1 x2 x3 m m' (T _ _ E) A v (B m H) (B m' H')) as G.
  rewrite D2 in G. exact G.
Qed.
(** With the rules of any directory, for every value: limits above some number all give the same result. *)
Theorem C84_directory : forall u rx d depth c s v, LowerOK u -> config_new u rx d depth = Ok (ROk c) ->
  exists M, forall m m' e e', M <= m -> M <= m' -> builder_build (told c (limited s m)) = Ok e -> builder_build (told c (limited s m')) = Ok e' ->
    bm_encode u rx e v = bm_encode u rx e' v /\ forall languages, bm_encode_with_languages u rx e v languages = bm_encode_with_languages u rx e' v languages.
Proof.
  intros u rx d depth c s v L C. set (x := {| choices := most (cf_rules c); growth := most (cf_rules c) |}). set (n := length (looked_at u v)).
  exists (choices x ^ n + choices x ^ (growth x * n) + choices x ^ (growth x * (growth x * n))).
  apply same_limits; [exact L|intros m e; apply (built_tables_ok u rx d depth); exact C|].
  intros m e E. exists x, x, x. split; [|intros limit H; fold n; unfold enough; lia].
  pose proof (built_tables_ok u rx d depth c _ e C E) as T.
  assert (R : pe_rules e = cf_rules c).
  { unfold builder_build, told in E. cbn [bb_name_type bb_config bb_rule_type bb_concat bb_max_phonemes] in E.
    destruct (nt_assoc _ _); [|discriminate E]. cbn [unwrap bind] in E. apply Ok_inj in E. now subst e. }
  split; [|split].
  - intros l rules G. pose proof (T _ _ G). rewrite R in G. now apply (most_within _ _ _ H G).
  - intros rules G. pose proof (T _ _ G). rewrite R in G. now apply (most_within _ _ _ H G).
  - intros l m' rules _ G. pose proof (T _ _ G). rewrite R in G. now apply (most_within _ _ _ H G).
Qed.

(** ** The rules in the crate *)
Definition rule_within_b (x : rates) (r : BmRule) : bool :=
  Nat.leb (length (bm_phoneme r)) (choices x ^ length (bm_pattern r))
  && forallb (fun p => Nat.leb (length (ph_text p)) (growth x * length (bm_pattern r))) (bm_phoneme r).
Definition map_within_b (x : rates) (m : RuleMap) : bool := forallb (fun kv => forallb (rule_within_b x) (snd kv)) m.
Lemma map_within : forall x m, 1 <= choices x -> 1 <= growth x -> map_within_b x m = true -> rules_within x m.
Proof.
  intros x m K G H. split; [exact K|]. split; [exact G|]. intros c rs r I J. unfold map_within_b in H. rewrite forallb_forall in H. specialize (H _ I).
  cbn [snd] in H. rewrite forallb_forall in H. specialize (H _ J). apply andb_true_iff in H as [H1 H2]. apply Nat.leb_le in H1. split; [exact H1|].
  intros p Hp. rewrite forallb_forall in H2. now apply Nat.leb_le, H2.
Qed.
Definition main_rates (n : NameType) : rates := match n with Generic => {| choices := 5; growth := 2 |} | _ => {| choices := 4; growth := 2 |} end.
Definition common_rates (n : NameType) (t : RuleType) : rates :=
  match n, t with _, RtExact => {| choices := 1; growth := 1 |} | Sephardic, _ => {| choices := 4; growth := 1 |} | _, _ => {| choices := 3; growth := 1 |} end.
Definition final_rates (n : NameType) (t : RuleType) : rates :=
  match n, t with Generic, RtApprox => {| choices := 4; growth := 1 |} | Ashkenazi, RtApprox => {| choices := 4; growth := 2 |} | _, _ => {| choices := 1; growth := 1 |} end.
(** How many characters a part of a code has at most for each character of the text. *)
Definition growth_of (n : NameType) (t : RuleType) : nat := match n, t with Ashkenazi, RtApprox => 4 | _, _ => 2 end.
(** A limit that is no limit, for each character of the text. *)
Definition choices_of (t : RuleType) : nat := match t with RtApprox => 16 | RtExact => 5 end.
Definition default_within_b (R : Rules) (n : NameType) (t : RuleType) : bool :=
  match rules_get R (n, Rules_, $ "any"), rules_get R (n, rt_private t, $ "common"), rules_get R (n, rt_private t, $ "any") with
  | Some m, Some f1, Some f2 => map_within_b (main_rates n) m && map_within_b (common_rates n t) f1 && map_within_b (final_rates n t) f2
  | _, _, _ => false
  end.
Lemma default_within : forall u c, config_default u plain_engine 2 = Ok c -> forall n t, default_within_b (cf_rules c) n t = true.
Proof.
  intros u c C n t.
  assert (T : match config_default u plain_engine 2 with Ok c => forallb (fun k => default_within_b (cf_rules c) (fst k) (snd k)) all_kinds | _ => true end = true)
    by (vm_compute; reflexivity).
  rewrite C in T. rewrite forallb_forall in T. exact (T (n, t) (all_kinds_In n t)).
Qed.

Lemma default_engine_within : forall u rx depth c s e, standard rx -> config_default u rx depth = Ok c -> builder_build (told c s) = Ok e ->
  engine_within (main_rates (s_name_type s)) (common_rates (s_name_type s) (s_rule_type s)) (final_rates (s_name_type s) (s_rule_type s)) e.
Proof.
  intros u rx depth c s e S C E. pose proof (default_within u c (default_same u rx depth c S C) (s_name_type s) (s_rule_type s)) as O.
  assert (HE : pe_rules e = cf_rules c /\ pe_name_type e = s_name_type s /\ pe_rule_type e = rt_private (s_rule_type s)).
  { unfold builder_build, told in E. cbn [bb_name_type bb_config bb_rule_type bb_concat bb_max_phonemes] in E.
    destruct (nt_assoc _ _); [|discriminate E]. cbn [unwrap bind] in E. apply Ok_inj in E. subst e. cbn. tauto. }
  destruct HE as (E1 & E2 & E3). unfold default_within_b in O.
  destruct (rules_get (cf_rules c) (s_name_type s, Rules_, $ "any")) as [m|] eqn:G1; [|discriminate O].
  destruct (rules_get (cf_rules c) (s_name_type s, rt_private (s_rule_type s), $ "common")) as [f1|] eqn:G2; [|discriminate O].
  destruct (rules_get (cf_rules c) (s_name_type s, rt_private (s_rule_type s), $ "any")) as [f2|] eqn:G3; [|discriminate O].
  apply andb_true_iff in O as [O O3]. apply andb_true_iff in O as [O1 O2].
  apply map_within in O1; [|destruct (s_name_type s); cbn; lia|destruct (s_name_type s); cbn; lia].
  apply map_within in O2; [|destruct (s_name_type s), (s_rule_type s); cbn; lia|destruct (s_name_type s), (s_rule_type s); cbn; lia].
  apply map_within in O3; [|destruct (s_name_type s), (s_rule_type s); cbn; lia|destruct (s_name_type s), (s_rule_type s); cbn; lia].
  assert (A : forall l r, rules_get (pe_rules e) (pe_name_type e, Rules_, l) = Some r -> l = $ "any").
  { intros l r H. rewrite E1, E2 in H. exact (default_language u rx depth c (s_name_type s) l r C H). }
  split; [|split].
  - intros l rules H. pose proof (A _ _ H). subst l. assert (Q : Some m = Some rules) by (rewrite <- G1, <- E1, <- E2; exact H). injection Q as <-. exact O1.
  - intros rules H. assert (Q : Some f1 = Some rules) by (rewrite <- G2, <- E1, <- E2, <- E3; exact H). injection Q as <-. exact O2.
  - intros l r rules H0 H. pose proof (A _ _ H0). subst l. assert (Q : Some f2 = Some rules) by (rewrite <- G3, <- E1, <- E2, <- E3; exact H). injection Q as <-. exact O3.
Qed.
(** With the rules in the crate no part of a code between separators is longer than twice the text that is looked
    at (four times with the approximate Ashkenazi rules). *)
Theorem C84_default_length : forall u rx depth c s e v code, LowerOK u -> standard rx -> config_default u rx depth = Ok c ->
  builder_build (told c s) = Ok e -> bm_encode u rx e v = Ok code ->
  parts_within (growth_of (s_name_type s) (s_rule_type s) * length (looked_at u v)) code.
Proof.
  intros u rx depth c s e v code L S C E K. pose proof (default_tables_ok u rx depth c s e C E) as TO. apply (C48_encode u rx L e TO) in K.
  apply (C84_code_length u rx L e _ _ _ (default_engine_within u rx depth c s e S C E)) in K. eapply parts_mono; [|exact K].
  destruct (s_name_type s), (s_rule_type s); cbn [growth_of growth main_rates common_rates final_rates]; lia.
Qed.
(** With them a limit of 16 to the length of the text (5 with the exact rules) is no limit. *)
Theorem C84_default_limits : forall u rx depth c s v m m' e e', LowerOK u -> standard rx -> config_default u rx depth = Ok c ->
  choices_of (s_rule_type s) ^ length (looked_at u v) <= m -> choices_of (s_rule_type s) ^ length (looked_at u v) <= m' ->
  builder_build (told c (limited s m)) = Ok e -> builder_build (told c (limited s m')) = Ok e' ->
  bm_encode u rx e v = bm_encode u rx e' v /\ forall languages, bm_encode_with_languages u rx e v languages = bm_encode_with_languages u rx e' v languages.
Proof.
  intros u rx depth c s v m m' e e' L S C. apply same_limits; [exact L|intros x y; apply (default_tables_ok u rx depth); exact C|].
  intros z y E. exists (main_rates (s_name_type s)), (common_rates (s_name_type s) (s_rule_type s)), (final_rates (s_name_type s) (s_rule_type s)).
  split; [exact (default_engine_within u rx depth c _ y S C E)|]. intros limit H. set (n := length (looked_at u v)) in *.
  assert (P : forall a b, 1 <= a -> a <= b -> a ^ n <= b ^ n) by (intros a b _ Q; now apply Nat.pow_le_mono_l).
  assert (Q : forall a b x, a ^ b <= x -> x ^ n <= limit -> a ^ (b * n) <= limit).
  { intros a b x0 X Y. rewrite Nat.pow_mul_r. etransitivity; [apply Nat.pow_le_mono_l; exact X|exact Y]. }
  unfold enough. destruct (s_rule_type s) eqn:Et, (s_name_type s); cbn [choices_of choices growth main_rates common_rates final_rates] in *; rewrite ?Nat.mul_1_l, ?Nat.pow_1_l.
  all: repeat split; try (apply (Q _ _ _ (le_n _)); cbn; exact H).
  all: try (etransitivity; [apply (P _ 16); lia|exact H]).
  all: try (etransitivity; [apply (P _ 5); lia|exact H]).
  all: try (apply (Q _ 2 16); [cbn; lia|exact H]).
  all: try (pose proof (P 1 16 (le_n _) ltac:(lia)); pose proof (P 1 5 (le_n _) ltac:(lia)); rewrite ?Nat.pow_1_l in *; lia).
Qed.

(** ** Raising the limit *)
(** Raising the limit does not only add alternatives: with the generic approximate rules in the crate, the
    default limit of 20 and the limit 21 give "xxgeoue" twenty alternatives each, but different ones; with the
    exact rules and a limit of 1 the only alternative of "xx" is not among those with a limit of 2. *)
Definition alternatives (code : ustr) : list ustr := split_on (# "|") code.
Definition loses (c : ConfigFiles) (s : settings) (m m' : nat) (v a : ustr) : bool :=
  match builder_build (told c (limited s m)), builder_build (told c (limited s m')) with
  | Ok e, Ok e' => match bm_encode real_unicode mini_engine e v, bm_encode real_unicode mini_engine e' v with
                   | Ok code, Ok code' => existsb (seq_eqb a) (alternatives code) && negb (existsb (seq_eqb a) (alternatives code'))
                   | _, _ => false end
  | _, _ => false
  end.
Lemma default_loses : forall c, config_default real_unicode plain_engine 2 = Ok c ->
  loses c (setting Generic RtApprox true) 20 21 $ "xxgeoue" $ "gzgziiD" = true
  /\ loses c (setting Generic RtExact true) 1 2 $ "xx" $ "ksks" = true.
Proof.
  intros c C. assert (T : match config_default real_unicode plain_engine 2 with
    | Ok c => loses c (setting Generic RtApprox true) 20 21 $ "xxgeoue" $ "gzgziiD" && loses c (setting Generic RtExact true) 1 2 $ "xx" $ "ksks"
    | _ => true end = true) by (vm_compute; reflexivity).
  rewrite C in T. now apply andb_true_iff in T.
Qed.
Lemma loses_spec : forall rx depth c s m m' v a, standard rx -> config_default real_unicode rx depth = Ok c -> loses c s m m' v a = true ->
  exists e e' code code', builder_build (told c (limited s m)) = Ok e /\ builder_build (told c (limited s m')) = Ok e'
    /\ bm_encode real_unicode rx e v = Ok code /\ bm_encode real_unicode rx e' v = Ok code'
    /\ In a (alternatives code) /\ ~ In a (alternatives code').
Proof.
  intros rx depth c s m m' v a S C H. unfold loses in H.
  destruct (builder_build (told c (limited s m))) as [e| |] eqn:E; [|discriminate H|discriminate H].
  destruct (builder_build (told c (limited s m'))) as [e'| |] eqn:E'; [|discriminate H|discriminate H].
  pose proof (proj1 (C78_default_codes real_unicode rx mini_engine S mini_plain depth (told c (limited s m)) e C E v)) as M.
  pose proof (proj1 (C78_default_codes real_unicode rx mini_engine S mini_plain depth (told c (limited s m')) e' C E' v)) as M'.
  rewrite M, M' in H. clear M M'. exists e, e'. revert H. generalize (bm_encode real_unicode rx e v), (bm_encode real_unicode rx e' v). clear.
  intros r r' H. destruct r as [code| |]; [|discriminate H|discriminate H]. destruct r' as [code'| |]; [|discriminate H|discriminate H].
  exists code, code'. split; [reflexivity|]. split; [reflexivity|]. split; [reflexivity|]. split; [reflexivity|].
  apply andb_true_iff in H as [H1 H2]. split.
  - apply existsb_exists in H1 as (x & I & J). apply seq_eqb_eq in J. now subst x.
  - intros I. apply negb_true_iff in H2. assert (X : existsb (seq_eqb a) (alternatives code') = true) by (apply existsb_exists; exists a; split; [exact I|apply seq_eqb_refl]). congruence.
Qed.
Theorem C84_raising_refuted : forall rx depth c, standard rx -> config_default real_unicode rx depth = Ok c ->
  forall s m m' v a, In (s, m, m', v, a)
     [(setting Generic RtApprox true, 20, 21, $ "xxgeoue", $ "gzgziiD"); (setting Generic RtExact true, 1, 2, $ "xx", $ "ksks")] ->
  exists e e' code code', builder_build (told c (limited s m)) = Ok e /\ builder_build (told c (limited s m')) = Ok e'
    /\ bm_encode real_unicode rx e v = Ok code /\ bm_encode real_unicode rx e' v = Ok code'
    /\ In a (alternatives code) /\ ~ In a (alternatives code').
Proof.
  intros rx depth c S C s m m' v a I. destruct (default_loses c (default_same _ rx depth c S C)) as [L1 L2].
  apply (loses_spec rx depth); [exact S|exact C|]. destruct I as [I|[I|[]]]; injection I as <- <- <- <- <-; [exact L1|exact L2].
Qed.

(** ** Examples *)
(** The hypotheses of the theorems about the rules in the crate are met by [C83_nonvacuous]. The bounds are of use:
    a limit of 25 is no limit for a text of two letters and the exact rules, and lengths do double ("x" gives "ks"). *)
Example C84_nonvacuous : forall c, config_default real_unicode mini_engine 2 = Ok c ->
  exists e, builder_build (told c (limited (setting Generic RtExact true) 25)) = Ok e
    /\ exists code, bm_encode real_unicode mini_engine e $ "xx" = Ok code /\ (1 < length (alternatives code)) /\ In $ "ksks" (alternatives code)
      /\ forall m' e', 25 <= m' -> builder_build (told c (limited (setting Generic RtExact true) m')) = Ok e' ->
           bm_encode real_unicode mini_engine e' $ "xx" = Ok code.
Proof.
  intros c C. pose proof (default_same _ mini_engine 2 c mini_plain C) as P.
  assert (T : match config_default real_unicode plain_engine 2 with
    | Ok c => match builder_build (told c (limited (setting Generic RtExact true) 25)) with
              | Ok e => match bm_encode real_unicode mini_engine e $ "xx" with
                        | Ok code => Nat.ltb 1 (length (alternatives code)) && existsb (seq_eqb $ "ksks") (alternatives code) | _ => false end
              | _ => false end
    | _ => true end = true) by (vm_compute; reflexivity).
  rewrite P in T. destruct (builder_build (told c (limited (setting Generic RtExact true) 25))) as [e| |] eqn:E; [|discriminate T|discriminate T].
  exists e. split; [reflexivity|].
  pose proof (fun m' e' H E' => C84_default_limits real_unicode mini_engine 2 c (setting Generic RtExact true) $ "xx" 25 m' e e' real_lower_ok mini_plain C (le_n 25) H E E') as G.
  revert T G. generalize (bm_encode real_unicode mini_engine e $ "xx"). clear. intros r T G. destruct r as [code| |]; [|discriminate T|discriminate T].
  exists code. split; [reflexivity|]. apply andb_true_iff in T as [T1 T2]. apply Nat.ltb_lt in T1. split; [exact T1|]. split.
  - apply existsb_exists in T2 as (x & I & J). apply seq_eqb_eq in J. now subst x.
  - intros m' e' H E'. symmetry. exact (proj1 (G m' e' H E')).
Qed.
