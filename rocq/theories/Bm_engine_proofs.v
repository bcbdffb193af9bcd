(** * Beider-Morse engine: lemmas. *)
From Verif Require Import Base UnicodeM Lib Helper RulesParser DaitchMokotoff BmLanguages BmRegex BmRule BmEngine
  BaseLemmas Spec_common Lib_proofs Soundex_proofs UnicodeLemmas Cologne_proofs Dm_proofs Spec_bm Bm_set_proofs Spec_bm_engine.
Local Open Scope N_scope.

(** ** Sets of phonemes *)
Lemma pset_insert_iff : forall x l ph, psorted l ->
  In ph (pset_insert x l) <-> In ph l \/ (ph = x /\ ~ In (ph_text x) (map ph_text l)).
Proof.
  intros x l ph. unfold psorted. induction l as [|z l IH]; intros S; cbn [pset_insert].
  - cbn. intuition.
  - destruct S as [S1 S2]. rewrite ph_cmp_text. destruct (str_cmp (ph_text x) (ph_text z)) eqn:E; cbn [In map].
    + apply str_cmp_eq in E. rewrite E. intuition.
    + assert (N : ~ (ph_text z = ph_text x \/ In (ph_text x) (map ph_text l))).
      { intros [K|K]; [rewrite K in E; apply str_cmp_irrefl in E; assumption|].
        apply S1 in K. apply str_lt_lex in K. pose proof (str_cmp_trans _ _ _ E K) as T. now apply str_cmp_irrefl in T. }
      intuition.
    + rewrite IH by assumption.
      assert (N : ph_text z <> ph_text x).
      { intros K. rewrite K in E. apply str_cmp_gt in E. now apply str_cmp_irrefl in E. }
      intuition.
Qed.
Lemma pset_of_list_snoc : forall l x, pset_of_list (l ++ [x]) = pset_insert x (pset_of_list l).
Proof. intros. unfold pset_of_list. now rewrite fold_left_app. Qed.
Lemma pset_of_list_texts : forall l t, In t (map ph_text (pset_of_list l)) <-> In t (map ph_text l).
Proof.
  intros l t. induction l as [|x l IH] using rev_ind; [reflexivity|].
  rewrite pset_of_list_snoc, map_app, in_app_iff. rewrite pset_insert_texts. cbn [map In]. rewrite IH. intuition.
Qed.
Lemma first_of_snoc : forall l x ph, first_of (l ++ [x]) ph <->
  first_of l ph \/ (ph = x /\ ~ In (ph_text x) (map ph_text l)).
Proof.
  intros l x ph. split.
  - intros (pre & post & E & H). destruct post as [|y post] using rev_ind.
    + apply app_inj_tail in E as [-> <-]. right. split; [reflexivity|]. intros K. apply in_map_iff in K as (q & K1 & K2).
      now apply (H q).
    + clear IHpost. rewrite app_comm_cons, app_assoc in E. apply app_inj_tail in E as [-> <-]. left. now exists pre, post.
  - intros [(pre & post & -> & H)|[-> H]].
    + exists pre, (post ++ [x]). rewrite <- app_assoc. now split.
    + exists l, []. split; [reflexivity|]. intros q Hq K. apply H. rewrite <- K. now apply in_map.
Qed.
Lemma pset_of_list_distinct : forall l, distinct_of l (pset_of_list l).
Proof.
  intros l. split; [apply pset_of_list_sorted|]. intros ph. induction l as [|x l IH] using rev_ind.
  - split; [intros []|]. intros ([|? ?] & post & E & _); discriminate.
  - rewrite pset_of_list_snoc, first_of_snoc, pset_insert_iff by apply pset_of_list_sorted.
    rewrite IH, pset_of_list_texts. reflexivity.
Qed.
Lemma psorted_ext : forall a b, psorted a -> psorted b -> (forall x, In x a <-> In x b) -> a = b.
Proof.
  unfold psorted. induction a as [|x a IH]; intros b Ha Hb E.
  - destruct b as [|y b]; [reflexivity|]. destruct (proj2 (E y) (or_introl eq_refl)).
  - destruct b as [|y b]; [destruct (proj1 (E x) (or_introl eq_refl))|].
    cbn [map] in Ha, Hb. destruct Ha as [A1 A2], Hb as [B1 B2].
    assert (IrrL : forall t, ~ lex_lt t t) by (intros t K; apply str_lt_lex in K; now apply str_cmp_irrefl in K).
    assert (x = y) as ->.
    { destruct (proj1 (E x) (or_introl eq_refl)) as [K|K]; [now symmetry|].
      destruct (proj2 (E y) (or_introl eq_refl)) as [K'|K']; [assumption|].
      apply (in_map ph_text) in K. apply (in_map ph_text) in K'. apply B1 in K. apply A1 in K'.
      apply str_lt_lex in K. apply str_lt_lex in K'. pose proof (str_cmp_trans _ _ _ K K') as T.
      now apply str_cmp_irrefl in T. }
    f_equal. apply IH; [assumption|assumption|]. intros z. split; intros H.
    + destruct (proj1 (E z) (or_intror H)) as [<-|K]; [|assumption].
      apply (in_map ph_text) in H. apply A1 in H. now apply IrrL in H.
    + destruct (proj2 (E z) (or_intror H)) as [<-|K]; [|assumption].
      apply (in_map ph_text) in H. apply B1 in H. now apply IrrL in H.
Qed.
Lemma distinct_of_iff : forall l b, distinct_of l b <-> b = pset_of_list l.
Proof.
  intros l b. split; [|intros ->; apply pset_of_list_distinct].
  intros [S H]. destruct (pset_of_list_distinct l) as [S' H']. apply psorted_ext; [assumption|assumption|].
  intros x. now rewrite H, H'.
Qed.
Lemma shared_restrict : forall a b, shared a b = restrict_to a b.
Proof. intros [| |l] [| |m]; reflexivity. Qed.
Lemma no_language_empty : forall a, no_language a = ls_is_empty a.
Proof. intros [| |[|x l]]; reflexivity. Qed.

(** ** Combining *)
Definition combos1 (l : Phoneme) (e : PhonemeList) : list Phoneme :=
  flat_map (fun r => let languages := shared (ph_languages l) (ph_languages r) in
    if no_language languages then [] else [{| ph_text := ph_text l ++ ph_text r; ph_languages := languages |}]) e.
(** The inner loop: [done] are the pairs used so far. *)
Lemma apply_inner_spec : forall max l e done acc acc' stop,
  acc = pset_of_list done -> (length acc < max)%nat \/ acc = [] ->
  pb_apply_inner l e max acc = (acc', stop) ->
  if stop then exists n, acc' = pset_of_list (done ++ firstn n (combos1 l e)) /\ length acc' = max
  else acc' = pset_of_list (done ++ combos1 l e) /\ ((length acc' < max)%nat \/ acc' = []).
Proof.
  intros max l e. induction e as [|r e IH]; intros done acc acc' stop A L H; cbn [pb_apply_inner] in H.
  - injection H as <- <-. cbn [combos1 flat_map]. rewrite app_nil_r. auto.
  - unfold combos1. cbn [flat_map]. fold (combos1 l e).
    rewrite shared_restrict, no_language_empty.
    destruct (ls_is_empty (restrict_to (ph_languages l) (ph_languages r))) eqn:E; cbn [negb] in H; cbn [app].
    + exact (IH done acc acc' stop A L H).
    + set (x := ph_join l r (restrict_to (ph_languages l) (ph_languages r))) in *.
      destruct (Nat.ltb (length acc) max) eqn:LT.
      * apply Nat.ltb_lt in LT. pose proof (pset_insert_length x acc) as PL.
        assert (A' : pset_insert x acc = pset_of_list (done ++ [x])) by (now rewrite pset_of_list_snoc, A).
        destruct (Nat.leb max (length (pset_insert x acc))) eqn:LE.
        -- apply Nat.leb_le in LE. injection H as <- <-. exists 1%nat. cbn [firstn]. split; [exact A'|lia].
        -- apply Nat.leb_gt in LE. pose proof (IH (done ++ [x]) _ acc' stop A' (or_introl LE) H) as K.
           destruct stop.
           ++ destruct K as (n & K1 & K2). exists (S n). cbn [firstn]. rewrite <- app_assoc in K1. auto.
           ++ rewrite <- app_assoc in K. exact K.
      * apply Nat.ltb_ge in LT. destruct L as [L| ->]; [lia|]. cbn [length] in LT.
        destruct (Nat.leb max (length (@nil Phoneme))) eqn:LE; [|apply Nat.leb_gt in LE; cbn in LE; lia].
        injection H as <- <-. exists 0%nat. cbn [firstn length]. rewrite app_nil_r. split; [exact A|lia].
Qed.
Lemma combinations_cons : forall l b e, combinations (l :: b) e = combos1 l e ++ combinations b e.
Proof. reflexivity. Qed.
Lemma apply_outer_spec : forall max e b done acc,
  acc = pset_of_list done -> (length acc < max)%nat \/ acc = [] ->
  exists n, pb_apply_outer b e max acc = pset_of_list (done ++ firstn n (combinations b e))
    /\ (length (pb_apply_outer b e max acc) = max
        \/ firstn n (combinations b e) = combinations b e
           /\ ((length (pb_apply_outer b e max acc) < max)%nat \/ pb_apply_outer b e max acc = [])).
Proof.
  intros max e. induction b as [|l b IH]; intros done acc A L; cbn [pb_apply_outer].
  - exists 0%nat. cbn [firstn combinations flat_map]. rewrite app_nil_r. auto.
  - destruct (pb_apply_inner l e max acc) as [acc' stop] eqn:H.
    pose proof (apply_inner_spec max l e done acc acc' stop A L H) as K. rewrite combinations_cons. destruct stop.
    + destruct K as (n & K1 & K2). exists (Nat.min n (length (combos1 l e))). rewrite firstn_app.
      replace (firstn (Nat.min n (length (combos1 l e))) (combos1 l e)) with (firstn n (combos1 l e)).
      2: { destruct (Nat.le_gt_cases n (length (combos1 l e))); [now rewrite Nat.min_l|].
           rewrite Nat.min_r by lia. rewrite !firstn_all2 by lia. reflexivity. }
      replace (Nat.min n (length (combos1 l e)) - length (combos1 l e))%nat with 0%nat by lia. cbn [firstn]. rewrite app_nil_r.
      auto.
    + destruct K as (K1 & K2). destruct (IH (done ++ combos1 l e) acc' K1 K2) as (n & N1 & N2).
      exists (length (combos1 l e) + n)%nat. rewrite firstn_app_2. rewrite <- app_assoc in N1. split; [exact N1|].
      destruct N2 as [N2|[N2 N3]]; [now left|]. right. rewrite N2. auto.
Qed.
Lemma pb_apply_combined : forall b e max, combined b e max (pb_apply b e max).
Proof.
  intros b e max. unfold pb_apply.
  destruct (apply_outer_spec max e b [] [] eq_refl (or_intror eq_refl)) as (n & N1 & N2). exists n.
  split; [now apply distinct_of_iff|]. destruct N2 as [N2|[N2 [N3|N3]]]; (split; [|auto]); [lia|lia|rewrite N3; cbn; lia].
Qed.
Lemma pb_apply_length : forall b e max, (length (pb_apply b e max) <= max)%nat.
Proof. intros b e max. destruct (pb_apply_combined b e max) as (n & _ & H & _). exact H. Qed.
Lemma pb_apply_sorted : forall b e max, psorted (pb_apply b e max).
Proof. intros b e max. destruct (pb_apply_combined b e max) as (n & H & _). exact (proj1 H). Qed.

(** The limit determines the result. *)
Lemma fold_insert_length_mono : forall l s, (length s <= length (fold_left (fun s x => pset_insert x s) l s))%nat.
Proof.
  induction l as [|x l IH]; intros s; cbn [fold_left]; [lia|]. specialize (IH (pset_insert x s)).
  assert (length s <= length (pset_insert x s))%nat; [|lia]. clear. induction s as [|z s IH]; cbn [pset_insert length]; [lia|].
  destruct (ph_cmp x z); cbn [length]; lia.
Qed.
Lemma pset_insert_same_length : forall x s, length (pset_insert x s) = length s -> pset_insert x s = s.
Proof.
  intros x. induction s as [|z s IH]; cbn [pset_insert length]; [discriminate|].
  destruct (ph_cmp x z); cbn [length]; intros H; [reflexivity|lia|]. f_equal. apply IH. lia.
Qed.
Lemma pset_insert_grows : forall x s, (length s <= length (pset_insert x s))%nat.
Proof. intros x. induction s as [|z s IH]; cbn [pset_insert length]; [lia|]. destruct (ph_cmp x z); cbn [length]; lia. Qed.
Lemma fold_insert_same_length : forall l s,
  length (fold_left (fun s x => pset_insert x s) l s) = length s -> fold_left (fun s x => pset_insert x s) l s = s.
Proof.
  induction l as [|x l IH]; intros s H; cbn [fold_left] in *; [reflexivity|].
  pose proof (pset_insert_grows x s) as G. pose proof (fold_insert_length_mono l (pset_insert x s)) as M.
  assert (E : pset_insert x s = s) by (apply pset_insert_same_length; lia). rewrite E in *. now apply IH.
Qed.
Lemma prefix_sets_eq : forall (l : list Phoneme) n m, (n <= m)%nat ->
  (length (pset_of_list (firstn m l)) <= length (pset_of_list (firstn n l)))%nat ->
  pset_of_list (firstn m l) = pset_of_list (firstn n l).
Proof.
  intros l n m H L. replace (firstn m l) with (firstn n l ++ firstn (m - n) (skipn n l)) in *.
  - unfold pset_of_list in *. rewrite fold_left_app in *. apply fold_insert_same_length.
    pose proof (fold_insert_length_mono (firstn (m - n) (skipn n l)) (fold_left (fun s x => pset_insert x s) (firstn n l) [])). lia.
  - rewrite <- (firstn_skipn n (firstn m l)). rewrite firstn_firstn, Nat.min_l by lia. rewrite firstn_skipn_comm. now replace (n + (m - n))%nat with m by lia.
Qed.
Lemma combined_unique : forall b e max b1 b2, combined b e max b1 -> combined b e max b2 -> b1 = b2.
Proof.
  intros b e max b1 b2 (n & E1 & L1 & C1) (m & E2 & L2 & C2).
  apply distinct_of_iff in E1. apply distinct_of_iff in E2.
  destruct (Nat.le_ge_cases n m) as [H|H].
  - destruct C1 as [C1|C1].
    + subst b1 b2. symmetry. apply prefix_sets_eq; [assumption|lia].
    + assert (F : firstn m (combinations b e) = combinations b e).
      { apply (f_equal (@length Phoneme)) in C1. rewrite firstn_length in C1. apply firstn_all2. lia. }
      now rewrite E1, E2, C1, F.
  - destruct C2 as [C2|C2].
    + subst b1 b2. apply prefix_sets_eq; [assumption|lia].
    + assert (F : firstn n (combinations b e) = combinations b e).
      { apply (f_equal (@length Phoneme)) in C2. rewrite firstn_length in C2. apply firstn_all2. lia. }
      now rewrite E1, E2, C2, F.
Qed.

(** ** Matching *)
Lemma app_cut : forall (t b p a : ustr) i, length b = i -> t = b ++ p ++ a ->
  firstn i t = b /\ firstn (length p) (skipn i t) = p /\ skipn (i + length p) t = a.
Proof.
  intros t b p a i <- ->. split; [apply firstn_app_exact|]. rewrite skipn_app_exact. split; [apply firstn_app_exact|].
  rewrite Nat.add_comm, <- skipn_skipn, skipn_app_exact, skipn_app_exact. reflexivity.
Qed.
Lemma matches_spec : forall rx r t i, bm_pattern_length_char r = length (bm_pattern r) ->
  exists b, pattern_and_context_matches rx r (cs_from t) i = Ok b /\ (b = true <-> rule_applies rx r t i).
Proof.
  intros rx r t i HL. unfold pattern_and_context_matches. cbn [cs_from cs_len]. rewrite HL.
  destruct (N.ltb_spec (N.of_nat (length t)) (N.of_nat (i + length (bm_pattern r)))) as [LT|GE].
  - exists false. split; [reflexivity|]. split; [discriminate|]. intros (b & a & -> & <- & _). rewrite !app_length in LT. lia.
  - rewrite cs_range_spec, cs_range_from_spec, cs_range_to_spec. cbn [bind]. rewrite !Nat2N.id.
    replace (i + length (bm_pattern r) - i)%nat with (length (bm_pattern r)) by lia.
    assert (T : t = firstn i t ++ firstn (length (bm_pattern r)) (skipn i t) ++ skipn (i + length (bm_pattern r)) t).
    { rewrite (Nat.add_comm i), <- skipn_skipn, firstn_skipn, firstn_skipn. reflexivity. }
    destruct (seq_eqb (firstn (length (bm_pattern r)) (skipn i t)) (bm_pattern r)) eqn:E; cbn [negb].
    + apply seq_eqb_eq in E. rewrite E in T.
      assert (LF : length (firstn i t) = i) by (rewrite firstn_length; lia).
      destruct (context_is_match rx (bm_right r) (skipn (i + length (bm_pattern r)) t)) eqn:R; cbn [negb].
      * eexists. split; [reflexivity|]. split.
        -- intros L. exists (firstn i t), (skipn (i + length (bm_pattern r)) t). auto.
        -- intros (b & a & E2 & L2 & K1 & K2). destruct (app_cut t b _ a i L2 E2) as (-> & _ & _). exact K1.
      * exists false. split; [reflexivity|]. split; [discriminate|]. intros (b & a & E2 & L2 & K1 & K2).
        destruct (app_cut t b _ a i L2 E2) as (_ & _ & E3). rewrite E3 in R. congruence.
    + exists false. split; [reflexivity|]. split; [discriminate|]. intros (b & a & E2 & L2 & K1 & K2).
      destruct (app_cut t b _ a i L2 E2) as (_ & E3 & _). rewrite E3, seq_eqb_refl in E. discriminate.
Qed.
Lemma first_match_spec : forall rx t i rules, (forall r, In r rules -> bm_pattern_length_char r = length (bm_pattern r)) ->
  (exists pre r post, rules = pre ++ r :: post /\ (forall x, In x pre -> ~ rule_applies rx x t i) /\ rule_applies rx r t i
     /\ first_match rx rules (cs_from t) i = Ok (Some r))
  \/ ((forall x, In x rules -> ~ rule_applies rx x t i) /\ first_match rx rules (cs_from t) i = Ok None).
Proof.
  intros rx t i. induction rules as [|r rules IH]; intros H; cbn [first_match].
  - right. split; [intros x []|reflexivity].
  - destruct (matches_spec rx r t i (H r (or_introl eq_refl))) as (b & E & K). rewrite E. cbn [bind]. destruct b.
    + left. exists [], r, rules. split; [reflexivity|]. split; [intros x []|]. split; [now apply K|reflexivity].
    + assert (NA : ~ rule_applies rx r t i) by (intros C; apply K in C; discriminate).
      destruct IH as [(pre & r' & post & E1 & E2 & E3 & E4)|[E2 E4]]; [intros x Hx; apply H; now right| |].
      * left. exists (r :: pre), r', post. split; [now rewrite E1|]. split; [|now split]. intros x [<-|Hx]; auto.
      * right. split; [|assumption]. intros x [<-|Hx]; auto.
Qed.
Lemma assoc_In : forall A k (l : list (N * A)) v, assoc k l = Some v -> In (k, v) l.
Proof.
  intros A k. induction l as [|[k' v'] l IH]; intros v H; cbn [assoc] in H; [discriminate|].
  destruct (k' =? k) eqn:E; [apply N.eqb_eq in E; injection H as ->; subst; now left|right; auto].
Qed.
Lemma hd_skipn : forall (t : ustr) i, hd_error (skipn i t) = nth_error t i.
Proof. induction t as [|c t IH]; intros [|i]; try reflexivity. cbn [skipn nth_error]. apply IH. Qed.
Lemma candidates_ok : forall rules t i r, table_ok rules -> In r (candidates rules t i) ->
  bm_pattern_length_char r = length (bm_pattern r) /\ (1 <= length (bm_pattern r))%nat.
Proof.
  intros rules t i r T H. unfold candidates in H. destruct (nth_error t i) as [c|]; [|destruct H].
  destruct (assoc c rules) as [l|] eqn:A; [|destruct H]. apply assoc_In in A. destruct (T c l r A H) as [K1 K2].
  split; [exact K2|]. destruct (bm_pattern r); [discriminate|cbn; lia].
Qed.
Lemma invoke_spec : forall rx rules t b i max, table_ok rules -> (i < length t)%nat ->
  (exists r, chosen rx rules t i (Some r) /\ (1 <= length (bm_pattern r))%nat /\ In r (candidates rules t i)
     /\ invoke rx rules (cs_from t) b i max = Ok (pb_apply b (bm_phoneme r) max, (i + length (bm_pattern r))%nat, true))
  \/ (chosen rx rules t i None /\ invoke rx rules (cs_from t) b i max = Ok (b, (i + 1)%nat, false)).
Proof.
  intros rx rules t b i max T L. unfold invoke. rewrite cs_range_from_spec. cbn [bind]. rewrite Nat2N.id, hd_skipn.
  destruct (nth_error t i) as [c|] eqn:C; [|apply nth_error_None in C; lia]. cbn [unwrap bind].
  pose proof (candidates_ok rules t i) as CO. unfold candidates in CO. rewrite C in CO.
  destruct (assoc c rules) as [l|] eqn:A.
  - destruct (first_match_spec rx t i l) as [(pre & r & post & E1 & E2 & E3 & E4)|[E2 E4]].
    + intros r Hr. now apply CO.
    + left. exists r. rewrite E4. cbn [bind].
      assert (Hr : In r l) by (rewrite E1; apply in_app_iff; right; now left).
      destruct (CO r T Hr) as [K1 K2].
      split; [apply (chosen_some rx rules t i pre r post); [unfold candidates; now rewrite C, A|assumption|assumption]|].
      split; [exact K2|]. split; [unfold candidates; now rewrite C, A|]. now rewrite K1.
    + right. rewrite E4. cbn [bind]. split; [|reflexivity]. apply chosen_none. unfold candidates. now rewrite C, A.
  - right. cbn [bind]. split; [|reflexivity]. apply chosen_none. unfold candidates. rewrite C, A. intros x [].
Qed.

(** ** Loops *)
Lemma main_loop_spec : forall rx rules max t, table_ok rules -> forall fuel i b, (length t - i <= fuel)%nat ->
  exists b', main_loop rx fuel rules (cs_from t) b i max = Ok b' /\ main_scan rx rules max t i b b'.
Proof.
  intros rx rules max t T. induction fuel as [|fuel IH]; intros i b L; cbn [main_loop]; cbn [cs_from cs_len]; fold (cs_from t).
  - destruct (N.ltb_spec (N.of_nat i) (N.of_nat (length t))); [lia|]. exists b. split; [reflexivity|]. apply ms_end. lia.
  - destruct (N.ltb_spec (N.of_nat i) (N.of_nat (length t))) as [LT|GE].
    2: { exists b. split; [reflexivity|]. apply ms_end. lia. }
    change {| cs_inner := t; cs_len := N.of_nat (length t) |} with (cs_from t).
    destruct (invoke_spec rx rules t b i max T) as [(r & C & P & _ & E)|[C E]]; [lia| |]; rewrite E; cbn [bind].
    + destruct (IH (i + length (bm_pattern r))%nat (pb_apply b (bm_phoneme r) max)) as (b' & E' & S'); [lia|].
      exists b'. split; [exact E'|]. eapply ms_rule; [lia|exact C|apply pb_apply_combined|exact S'].
    + destruct (IH (i + 1)%nat b) as (b' & E' & S'); [lia|]. exists b'. split; [exact E'|]. apply ms_skip; [lia|exact C|exact S'].
Qed.
Lemma firstn1_skipn : forall (t : ustr) i c, nth_error t i = Some c -> firstn 1 (skipn i t) = [c].
Proof.
  intros t i c H. rewrite <- hd_skipn in H. destruct (skipn i t); [discriminate|]. injection H as ->. reflexivity.
Qed.
Lemma final_loop_spec : forall rx rules max t, table_ok rules -> forall fuel i b, (length t - i <= fuel)%nat ->
  exists b', final_loop rx fuel rules (cs_from t) b i max = Ok b' /\ final_scan rx rules max t i b b'.
Proof.
  intros rx rules max t T. induction fuel as [|fuel IH]; intros i b L; cbn [final_loop]; cbn [cs_from cs_len]; fold (cs_from t).
  - destruct (N.ltb_spec (N.of_nat i) (N.of_nat (length t))); [lia|]. exists b. split; [reflexivity|]. apply fs_end. lia.
  - destruct (N.ltb_spec (N.of_nat i) (N.of_nat (length t))) as [LT|GE].
    2: { exists b. split; [reflexivity|]. apply fs_end. lia. }
    change {| cs_inner := t; cs_len := N.of_nat (length t) |} with (cs_from t).
    destruct (invoke_spec rx rules t b i max T) as [(r & C & P & _ & E)|[C E]]; [lia| |]; rewrite E; cbn [bind].
    + destruct (IH (i + length (bm_pattern r))%nat (pb_apply b (bm_phoneme r) max)) as (b' & E' & S'); [lia|].
      exists b'. split; [exact E'|]. eapply fs_rule; [lia|exact C|apply pb_apply_combined|exact S'].
    + rewrite cs_range_spec. cbn [bind]. rewrite !Nat2N.id. replace (i + 1 - i)%nat with 1%nat by lia.
      destruct (nth_error t i) as [c|] eqn:NE; [|apply nth_error_None in NE; lia].
      rewrite (firstn1_skipn t i c NE).
      destruct (IH (i + 1)%nat (pb_append b [c])) as (b' & E' & S'); [lia|]. exists b'. split; [exact E'|].
      eapply fs_keep; [exact NE|exact C|apply pset_of_list_distinct|exact S'].
Qed.

(** ** The scans are functions *)
Lemma chosen_unique : forall rx rules t i a b, chosen rx rules t i a -> chosen rx rules t i b -> a = b.
Proof.
  intros rx rules t i a b H K. destruct H as [pre r post E A R|A]; destruct K as [pre' r' post' E' A' R'|A'].
  - f_equal. rewrite E in E'. clear E. revert pre' E' A'. induction pre as [|x pre IH]; intros [|x' pre'] E' A'; cbn [app] in E'.
    + now injection E'.
    + injection E' as -> _. elim (A' x' (or_introl eq_refl) R).
    + injection E' as -> _. elim (A r' (or_introl eq_refl) R').
    + injection E' as -> E'. apply IH with pre'; [intros y Hy; apply A; now right|exact E'|intros y Hy; apply A'; now right].
  - elim (A' r); [|assumption]. rewrite E. apply in_app_iff. right. now left.
  - elim (A r'); [|assumption]. rewrite E'. apply in_app_iff. right. now left.
  - reflexivity.
Qed.
Lemma main_scan_unique : forall rx rules max t i b b1, main_scan rx rules max t i b b1 ->
  forall b2, main_scan rx rules max t i b b2 -> b1 = b2.
Proof.
  intros rx rules max t i b b1 H. induction H as [i b L|i b r bb b' L C CB S IH|i b b' L C S IH]; intros b2 K.
  - inversion K as [? ? L'|? ? ? ? ? L'|? ? ? L']; subst; [reflexivity|lia|lia].
  - inversion K as [? ? L'|? ? r' bb' ? L' C' CB' S'|? ? ? L' C' S']; subst; [lia| |].
    + pose proof (chosen_unique _ _ _ _ _ _ C C') as E. injection E as <-.
      rewrite <- (combined_unique _ _ _ _ _ CB CB') in S'. now apply IH.
    + pose proof (chosen_unique _ _ _ _ _ _ C C') as E. discriminate.
  - inversion K as [? ? L'|? ? r' bb' ? L' C' CB' S'|? ? ? L' C' S']; subst; [lia| |].
    + pose proof (chosen_unique _ _ _ _ _ _ C C') as E. discriminate.
    + now apply IH.
Qed.
Lemma final_scan_unique : forall rx rules max t i b b1, final_scan rx rules max t i b b1 ->
  forall b2, final_scan rx rules max t i b b2 -> b1 = b2.
Proof.
  intros rx rules max t i b b1 H. induction H as [i b L|i b r bb b' L C CB S IH|i b c bk b' NE C DK S IH]; intros b2 K.
  - inversion K as [? ? L'|? ? ? ? ? L'|? ? ? ? ? NE' C' DK' S']; subst; [reflexivity|lia|]. apply nth_error_None in L. congruence.
  - inversion K as [? ? L'|? ? r' bb' ? L' C' CB' S'|? ? ? ? ? L' C' DK' S']; subst; [lia| |].
    + pose proof (chosen_unique _ _ _ _ _ _ C C') as E. injection E as <-.
      rewrite <- (combined_unique _ _ _ _ _ CB CB') in S'. now apply IH.
    + pose proof (chosen_unique _ _ _ _ _ _ C C') as E. discriminate.
  - inversion K as [? ? L'|? ? r' bb' ? L' C' CB' S'|? ? c' bk' ? NE' C' DK' S']; subst.
    + apply nth_error_None in L'. congruence.
    + pose proof (chosen_unique _ _ _ _ _ _ C C') as E. discriminate.
    + rewrite NE in NE'. injection NE' as <-. apply distinct_of_iff in DK. apply distinct_of_iff in DK'. subst bk bk'. now apply IH.
Qed.

(** ** Sizes and order *)
Lemma combined_length : forall b e max b', combined b e max b' -> (length b' <= max)%nat.
Proof. intros b e max b' (n & _ & H & _). exact H. Qed.
Lemma combined_sorted : forall b e max b', combined b e max b' -> psorted b'.
Proof. intros b e max b' (n & H & _). exact (proj1 H). Qed.
Lemma main_scan_length : forall rx rules max t i b b', main_scan rx rules max t i b b' ->
  (length b <= Nat.max 1 max)%nat -> (length b' <= Nat.max 1 max)%nat.
Proof.
  intros rx rules max t i b b' H. induction H as [i b L|i b r bb b' L C CB S IH|i b b' L C S IH]; intros K; auto.
  apply IH. apply combined_length in CB. lia.
Qed.
Lemma main_scan_sorted : forall rx rules max t i b b', main_scan rx rules max t i b b' -> psorted b -> psorted b'.
Proof.
  intros rx rules max t i b b' H. induction H as [i b L|i b r bb b' L C CB S IH|i b b' L C S IH]; intros K; auto.
  apply IH. now apply combined_sorted in CB.
Qed.
Lemma final_scan_length : forall rx rules max t i b b', final_scan rx rules max t i b b' ->
  (length b <= Nat.max 1 max)%nat -> (length b' <= Nat.max 1 max)%nat.
Proof.
  intros rx rules max t i b b' H. induction H as [i b L|i b r bb b' L C CB S IH|i b c bk b' NE C DK S IH]; intros K; auto.
  - apply IH. apply combined_length in CB. lia.
  - apply IH. apply distinct_of_iff in DK. subst bk. pose proof (pset_of_list_length (map (fun p => {| ph_text := ph_text p ++ [c]; ph_languages := ph_languages p |}) b)) as G.
    rewrite map_length in G. lia.
Qed.
Lemma final_scan_sorted : forall rx rules max t i b b', final_scan rx rules max t i b b' -> psorted b -> psorted b'.
Proof.
  intros rx rules max t i b b' H. induction H as [i b L|i b r bb b' L C CB S IH|i b c bk b' NE C DK S IH]; intros K; auto.
  - apply IH. now apply combined_sorted in CB.
  - apply IH. exact (proj1 DK).
Qed.

(** ** Merging *)
Lemma merge_spec : forall langs news acc, psorted acc ->
  psorted (merge_phonemes langs news acc)
  /\ (length (merge_phonemes langs news acc) <= length acc + length news)%nat
  /\ forall x, In x (map ph_text (merge_phonemes langs news acc)) <-> In x (map ph_text acc) \/ In x (map ph_text news).
Proof.
  intros langs. unfold merge_phonemes. induction news as [|n news IH]; intros acc S; cbn [fold_left map length In].
  - split; [assumption|]. split; [lia|]. intros x. tauto.
  - destruct (pset_get n acc) as [old|] eqn:G.
    + apply pset_get_some in G as [G1 G2].
      assert (P : map ph_text (pset_replace (ph_merge_with_language old langs) acc) = map ph_text acc).
      { apply pset_replace_present; [|assumption]. cbn [ph_merge_with_language ph_text]. apply in_map_iff. now exists old. }
      destruct (IH (pset_replace (ph_merge_with_language old langs) acc)) as (I1 & I2 & I3); [unfold psorted; now rewrite P|].
      split; [assumption|]. apply (f_equal (@length ustr)) in P as PL. rewrite !map_length in PL. split; [lia|].
      intros x. rewrite I3, P. assert (In (ph_text n) (map ph_text acc)) by (rewrite <- G2; now apply in_map).
      intuition congruence.
    + destruct (IH (pset_insert n acc)) as (I1 & I2 & I3); [now apply pset_insert_sorted|].
      split; [assumption|]. pose proof (pset_insert_length n acc). split; [lia|].
      intros x. rewrite I3, pset_insert_texts. intuition congruence.
Qed.

(** The final rules, phoneme by phoneme. *)
Lemma apply_final_phonemes_spec : forall rx rules max, table_ok rules -> forall ps acc, psorted acc ->
  exists b, apply_final_phonemes rx rules max ps acc = Ok b /\ psorted b
    /\ (length b <= length acc + length ps * Nat.max 1 max)%nat
    /\ forall x, In x (map ph_text b) <-> In x (map ph_text acc)
         \/ exists p q, In p ps /\ final_scan rx rules max (ph_text p) 0 (start (ph_languages p)) q /\ In x (map ph_text q).
Proof.
  intros rx rules max T. induction ps as [|p ps IH]; intros acc S; cbn [apply_final_phonemes].
  - exists acc. split; [reflexivity|]. split; [assumption|]. split; [lia|]. intros x. split; [tauto|]. intros [H|(p & q & [] & _)]. assumption.
  - destruct (final_loop_spec rx rules max (ph_text p) T (length (ph_text p)) 0 (pb_empty (ph_languages p))) as (q & E & FS); [lia|].
    rewrite E. cbn [bind]. destruct (merge_spec (ph_languages p) q acc S) as (M1 & M2 & M3).
    destruct (IH _ M1) as (b & E' & I1 & I2 & I3). exists b. split; [exact E'|]. split; [assumption|].
    pose proof (final_scan_length _ _ _ _ _ _ _ FS) as LQ. cbn [pb_empty length] in LQ. specialize (LQ ltac:(lia)).
    split; [cbn [length]; lia|]. intros x. rewrite I3, M3. split.
    + intros [[H|H]|(p' & q' & H1 & H2 & H3)]; [now left| |].
      * right. exists p, q. split; [now left|]. now split.
      * right. exists p', q'. split; [now right|]. now split.
    + intros [H|(p' & q' & [<-|H1] & H2 & H3)]; [auto| |].
      * left. right. now rewrite (final_scan_unique _ _ _ _ _ _ _ FS _ H2).
      * right. exists p', q'. now repeat split.
Qed.

(** ** Languages of the merged phonemes *)
Lemma psorted_In_text : forall l x y, psorted l -> In x l -> In y l -> ph_text x = ph_text y -> x = y.
Proof.
  unfold psorted. induction l as [|z l IH]; intros x y S Hx Hy E; [destruct Hx|]. cbn [map] in S. destruct S as [S1 S2].
  assert (N : forall w, In w l -> ph_text z <> ph_text w).
  { intros w Hw C. specialize (S1 (ph_text w) (in_map ph_text _ _ Hw)). apply str_lt_lex in S1. rewrite C in S1. now apply str_cmp_irrefl in S1. }
  destruct Hx as [<-|Hx], Hy as [<-|Hy]; [reflexivity| | |now apply IH].
  - now elim (N y Hy).
  - symmetry in E. now elim (N x Hx).
Qed.
Lemma collected_snoc : forall cs L n x, collected (cs ++ [(L, n)]) x =
  if seq_eqb (ph_text n) x then Some (match collected cs x with Some l => ls_merge l L | None => ph_languages n end)
  else collected cs x.
Proof.
  intros cs L n x. unfold collected. rewrite filter_app. cbn [filter snd].
  destruct (seq_eqb (ph_text n) x).
  - destruct (filter _ cs) as [|[L0 n0] rest]; [reflexivity|]. cbn [app]. rewrite fold_left_app. reflexivity.
  - now rewrite app_nil_r.
Qed.
Lemma pset_insert_absent : forall x l, ~ In (ph_text x) (map ph_text l) -> forall y, In y (pset_insert x l) <-> y = x \/ In y l.
Proof.
  intros x. induction l as [|z l IH]; intros H y; cbn [pset_insert].
  - cbn. intuition.
  - rewrite ph_cmp_text. destruct (str_cmp (ph_text x) (ph_text z)) eqn:E; cbn [In].
    + apply str_cmp_eq in E. elim H. left. now symmetry.
    + intuition.
    + rewrite IH by (intros K; apply H; now right). intuition.
Qed.
Lemma pset_replace_present_In : forall x l, psorted l -> In (ph_text x) (map ph_text l) ->
  forall y, In y (pset_replace x l) <-> y = x \/ (In y l /\ ph_text y <> ph_text x).
Proof.
  intros x. unfold psorted. induction l as [|z l IH]; intros S H y; [destruct H|]. cbn [map] in S. destruct S as [S1 S2].
  cbn [pset_replace]. rewrite ph_cmp_text. destruct (str_cmp (ph_text x) (ph_text z)) eqn:E; cbn [In].
  - apply str_cmp_eq in E. split.
    + intros [<-|K]; [now left|]. right. split; [now right|]. intros C.
      apply (in_map ph_text), S1, str_lt_lex in K. rewrite C, E in K. now apply str_cmp_irrefl in K.
    + intros [->|[[<-|K] C]]; [now left|congruence|now right].
  - exfalso. destruct H as [H|H]; [rewrite H, str_cmp_refl in E; discriminate|]. apply S1, str_lt_lex in H.
    pose proof (str_cmp_trans _ _ _ E H) as C. now apply str_cmp_irrefl in C.
  - assert (NZ : ph_text z <> ph_text x) by (intros C; rewrite C, str_cmp_refl in E; discriminate).
    destruct H as [H|H]; [congruence|]. rewrite (IH S2 H). split.
    + intros [<-|[->|[K C]]]; [right; split; [now left|assumption]|now left|right; split; [now right|assumption]].
    + intros [->|[[<-|K] C]]; [right; now left|now left|right; right; now split].
Qed.
Definition holds (acc : list Phoneme) (cs : list (LanguageSet * Phoneme)) : Prop :=
  psorted acc /\ forall ph, In ph acc <-> collected cs (ph_text ph) = Some (ph_languages ph).
Lemma ph_eta : forall p, p = {| ph_text := ph_text p; ph_languages := ph_languages p |}.
Proof. intros [t l]. reflexivity. Qed.
Lemma holds_none : forall acc cs x, holds acc cs -> collected cs x = None <-> ~ In x (map ph_text acc).
Proof.
  intros acc cs x [_ H]. split.
  - intros C K. apply in_map_iff in K as (p & <- & Hp). apply H in Hp. congruence.
  - intros K. destruct (collected cs x) as [l|] eqn:C; [|reflexivity]. elim K.
    apply in_map_iff. exists {| ph_text := x; ph_languages := l |}. split; [reflexivity|]. now apply H.
Qed.
Lemma merge_holds : forall L news acc cs, holds acc cs -> holds (merge_phonemes L news acc) (cs ++ map (pair L) news).
Proof.
  intros L. unfold merge_phonemes. induction news as [|n news IH]; intros acc cs H; cbn [fold_left map].
  - now rewrite app_nil_r.
  - replace (cs ++ (L, n) :: map (pair L) news) with ((cs ++ [(L, n)]) ++ map (pair L) news) by (now rewrite <- app_assoc).
    apply IH. destruct (pset_get n acc) as [old|] eqn:G.
    + apply pset_get_some in G as [G1 G2]. destruct H as [S H].
      assert (P : In (ph_text (ph_merge_with_language old L)) (map ph_text acc)) by (cbn; now apply in_map).
      split; [unfold psorted; rewrite pset_replace_present by assumption; exact S|].
      intros ph. rewrite (pset_replace_present_In _ _ S P). rewrite collected_snoc. cbn [ph_merge_with_language ph_text].
      pose proof (proj1 (H old) G1) as HO.
      destruct (seq_eqb (ph_text n) (ph_text ph)) eqn:E.
      * apply seq_eqb_eq in E. rewrite <- E, <- G2, HO. split.
        -- intros [->|[_ C]]; [reflexivity|congruence].
        -- intros C. left. injection C as C. rewrite (ph_eta ph), <- E, <- G2, <- C. reflexivity.
      * apply seq_eqb_neq in E. rewrite <- H. split.
        -- intros [->|[K _]]; [|assumption]. cbn in E. congruence.
        -- intros K. right. split; [assumption|congruence].
    + pose proof (pset_get_none _ _ G) as NI. split; [apply pset_insert_sorted; apply H|].
      intros ph. rewrite (pset_insert_absent _ _ NI), collected_snoc.
      pose proof (proj2 (holds_none acc cs (ph_text n) H) NI) as CN.
      destruct (seq_eqb (ph_text n) (ph_text ph)) eqn:E.
      * apply seq_eqb_eq in E. rewrite <- E, CN. split.
        -- intros [->|K]; [reflexivity|]. elim NI. rewrite E. now apply in_map.
        -- intros C. left. injection C as C. rewrite (ph_eta ph), (ph_eta n), E, C. reflexivity.
      * apply seq_eqb_neq in E. destruct H as [_ H]. rewrite <- H. split; [intros [->|K]; [congruence|assumption]|auto].
Qed.
Lemma apply_final_holds : forall rx rules max, table_ok rules -> forall ps acc cs, holds acc cs ->
  exists b cs', apply_final_phonemes rx rules max ps acc = Ok b /\ contributions rx rules max ps cs' /\ holds b (cs ++ cs').
Proof.
  intros rx rules max T. induction ps as [|p ps IH]; intros acc cs H; cbn [apply_final_phonemes].
  - exists acc, []. rewrite app_nil_r. split; [reflexivity|]. split; [constructor|assumption].
  - destruct (final_loop_spec rx rules max (ph_text p) T (length (ph_text p)) 0 (pb_empty (ph_languages p))) as (q & E & FS); [lia|].
    rewrite E. cbn [bind]. destruct (IH _ _ (merge_holds (ph_languages p) q acc cs H)) as (b & cs' & E' & C' & H').
    exists b, (map (pair (ph_languages p)) q ++ cs'). split; [exact E'|]. split; [now constructor|]. now rewrite app_assoc.
Qed.
Lemma apply_final_step : forall rx rules max b, table_ok rules ->
  exists b', apply_final_rule rx rules max b = Ok b' /\ final_step rx rules max b b'.
Proof.
  intros rx rules max b T. unfold apply_final_rule. destruct rules as [|x rules].
  - exists b. split; [reflexivity|]. left. now split.
  - destruct (apply_final_holds rx (x :: rules) max T b [] []) as (b' & cs & E' & C & H).
    + split; [exact I|]. intros ph. split; [intros []|discriminate].
    + exists b'. split; [exact E'|]. right. split; [congruence|]. destruct H as [H1 H2]. split; [assumption|]. exists cs. now split.
Qed.
Lemma contributions_unique : forall rx rules max ps c1, contributions rx rules max ps c1 ->
  forall c2, contributions rx rules max ps c2 -> c1 = c2.
Proof.
  intros rx rules max ps c1 H. induction H as [|p ps q cs F C IH]; intros c2 K; inversion K as [|? ? q' cs' F' C']; subst; [reflexivity|].
  rewrite (final_scan_unique _ _ _ _ _ _ _ F _ F'). now rewrite (IH _ C').
Qed.
Lemma final_step_unique : forall rx rules max b b1 b2, final_step rx rules max b b1 -> final_step rx rules max b b2 -> b1 = b2.
Proof.
  intros rx rules max b b1 b2 [[H1 H2]|(H1 & H2 & cs & H3 & H4)] [[K1 K2]|(K1 & K2 & cs' & K3 & K4)]; try congruence.
  rewrite (contributions_unique _ _ _ _ _ H3 _ K3) in H4. apply psorted_ext; [assumption|assumption|].
  intros x. now rewrite H4, K4.
Qed.
Lemma encode_text_spec : forall rx e rules f1 f2 languages text, table_ok rules -> table_ok f1 -> table_ok f2 ->
  exists b, encode_text rx e rules f1 f2 languages text = Ok (join $ "|" (map ph_text b))
    /\ word_phonemes rx rules f1 f2 (pe_max_phonemes e) languages text b.
Proof.
  intros rx e rules f1 f2 languages text T T1 T2. unfold encode_text.
  destruct (main_loop_spec rx rules (pe_max_phonemes e) text T (length text) 0 (pb_empty languages)) as (b1 & E1 & S1); [lia|].
  rewrite E1. cbn [bind].
  destruct (apply_final_step rx f1 (pe_max_phonemes e) b1 T1) as (b2 & E2 & S2). rewrite E2. cbn [bind].
  destruct (apply_final_step rx f2 (pe_max_phonemes e) b2 T2) as (b3 & E3 & S3). rewrite E3. cbn [bind].
  exists b3. split; [reflexivity|]. exists b1, b2. now repeat split.
Qed.
Lemma word_phonemes_unique : forall rx rules f1 f2 max languages text b b',
  word_phonemes rx rules f1 f2 max languages text b -> word_phonemes rx rules f1 f2 max languages text b' -> b = b'.
Proof.
  intros rx rules f1 f2 max languages text b b' (b1 & b2 & A & B & C) (b1' & b2' & A' & B' & C').
  rewrite <- (main_scan_unique _ _ _ _ _ _ _ A _ A') in B'. rewrite <- (final_step_unique _ _ _ _ _ _ B B') in C'.
  exact (final_step_unique _ _ _ _ _ _ C C').
Qed.

(** ** Sizes of the final steps *)
Lemma collected_texts : forall cs x, (exists l, collected cs x = Some l) <-> exists c, In c cs /\ ph_text (snd c) = x.
Proof.
  intros cs x. unfold collected. destruct (filter _ cs) as [|[L n] rest] eqn:F.
  - split; [intros (l & H); discriminate|]. intros (c & Hc & E).
    assert (In c (filter (fun c => seq_eqb (ph_text (snd c)) x) cs)) by (apply filter_In; split; [assumption|now apply seq_eqb_eq]).
    rewrite F in H. destruct H.
  - split; [|intros _; eexists; reflexivity]. intros _. exists (L, n).
    assert (In (L, n) (filter (fun c => seq_eqb (ph_text (snd c)) x) cs)) by (rewrite F; now left).
    apply filter_In in H as [H1 H2]. split; [assumption|]. now apply seq_eqb_eq.
Qed.
Lemma contributions_length : forall rx rules max ps cs, contributions rx rules max ps cs ->
  (length cs <= length ps * Nat.max 1 max)%nat.
Proof.
  intros rx rules max ps cs H. induction H as [|p ps q cs F C IH]; [cbn; lia|]. rewrite app_length, map_length. cbn [length].
  apply final_scan_length in F; [|cbn [start length]; lia]. lia.
Qed.
Lemma final_step_length : forall rx rules max b b', final_step rx rules max b b' ->
  (length b' <= length b * Nat.max 1 max)%nat.
Proof.
  intros rx rules max b b' [[_ ->]|(_ & S & cs & C & H)]; [nia|].
  pose proof (contributions_length _ _ _ _ _ C). enough (length b' <= length cs)%nat by lia.
  assert (I : incl (map ph_text b') (map (fun c => ph_text (snd c)) cs)).
  { intros x Hx. apply in_map_iff in Hx as (p & <- & Hp). apply H in Hp.
    destruct (proj1 (collected_texts cs (ph_text p)) (ex_intro _ _ Hp)) as (c & Hc & E). apply in_map_iff. exists c. now split. }
  apply NoDup_incl_length in I; [|now apply increasing_NoDup]. now rewrite !map_length in I.
Qed.
Lemma final_step_sorted : forall rx rules max b b', final_step rx rules max b b' -> psorted b -> psorted b'.
Proof. intros rx rules max b b' [[_ ->]|(_ & S & _)] H; assumption. Qed.
Lemma start_sorted : forall l, psorted (start l).
Proof. intros l. split; [intros y []|exact I]. Qed.
Lemma word_phonemes_sorted : forall rx rules f1 f2 max languages text b,
  word_phonemes rx rules f1 f2 max languages text b -> psorted b.
Proof.
  intros rx rules f1 f2 max languages text b (b1 & b2 & A & B & C).
  eapply final_step_sorted; [exact C|]. eapply final_step_sorted; [exact B|]. eapply main_scan_sorted; [exact A|]. apply start_sorted.
Qed.
Lemma word_phonemes_length : forall rx rules f1 f2 max languages text b,
  word_phonemes rx rules f1 f2 max languages text b ->
  (length b <= (if f2 then 1 else Nat.max 1 max) * (if f1 then 1 else Nat.max 1 max) * Nat.max 1 max)%nat.
Proof.
  intros rx rules f1 f2 max languages text b (b1 & b2 & A & B & C).
  apply main_scan_length in A; [|cbn [start length]; lia].
  assert (B' : (length b2 <= (if f1 then 1 else Nat.max 1 max) * length b1)%nat).
  { pose proof (final_step_length _ _ _ _ _ B). destruct B as [[-> ->]|(N & _)]; [cbn; lia|]. destruct f1; [congruence|]. rewrite Nat.mul_comm. assumption. }
  assert (C' : (length b <= (if f2 then 1 else Nat.max 1 max) * length b2)%nat).
  { pose proof (final_step_length _ _ _ _ _ C). destruct C as [[-> ->]|(N & _)]; [cbn; lia|]. destruct f2; [congruence|]. rewrite Nat.mul_comm. assumption. }
  clear B C. etransitivity; [exact C'|]. rewrite <- Nat.mul_assoc. apply Nat.mul_le_mono_l.
  etransitivity; [exact B'|]. now apply Nat.mul_le_mono_l.
Qed.
