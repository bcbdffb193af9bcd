(** * Proofs about the match rating approach. *)
From Coq Require Import Permutation.
From Verif Require Import Base UnicodeM Lib Helper MatchRating BaseLemmas Spec_common Spec_mra
  Lib_proofs Soundex_proofs UnicodeLemmas Cologne_proofs Caverphone_proofs DoubleMetaphone_proofs.
Local Open Scope N_scope.

(** ** Doubled consonants *)
Lemma halve_two : forall P x y r,
  halve_runs P (x :: y :: r) = if (x =? y) && P x then x :: halve_runs P r else x :: halve_runs P (y :: r).
Proof. reflexivity. Qed.
Lemma halve_hd : forall P x r, exists t, halve_runs P (x :: r) = x :: t.
Proof. intros P x [|y r]; [now exists []|]. rewrite halve_two. destruct (_ && _); eauto. Qed.
Lemma halve_not : forall P x r, P x = false -> halve_runs P (x :: r) = x :: halve_runs P r.
Proof. intros P x [|y r] H; [reflexivity|]. now rewrite halve_two, H, andb_false_r. Qed.
Lemma halve_none : forall P s, (forall c, P c = false) -> halve_runs P s = s.
Proof. intros P s H. induction s as [|c s IH]; [reflexivity|]. now rewrite halve_not, IH. Qed.
Lemma halve_ext : forall P Q, (forall c, P c = Q c) -> forall n s, (length s <= n)%nat -> halve_runs P s = halve_runs Q s.
Proof.
  intros P Q H. induction n as [|n IH]; intros [|x [|y s]] L; try reflexivity; [cbn in L; lia|].
  rewrite !halve_two, H. cbn [length] in L. rewrite (IH s), (IH (y :: s)) by (cbn [length]; lia). reflexivity.
Qed.
Lemma replace_double : forall x n s, (length s <= n)%nat ->
  replace [x; x] [x] s = halve_runs (N.eqb x) s.
Proof.
  intros x. unfold replace. induction n as [|n IH]; intros s L; [destruct s; [reflexivity|cbn in L; lia]|].
  destruct s as [|a [|b r]]; [reflexivity|..].
  - cbn [replace_aux]. unfold starts_with. cbn [strip_prefix]. destruct (x =? a); reflexivity.
  - cbn [replace_aux]. unfold starts_with. cbn [strip_prefix]. rewrite halve_two. cbn [length] in L.
    rewrite (N.eqb_sym a b), (N.eqb_sym x a).
    destruct (a =? x) eqn:E1.
    + apply N.eqb_eq in E1. subst a. rewrite andb_true_r, (N.eqb_sym b x).
      destruct (x =? b) eqn:E2.
      * apply N.eqb_eq in E2. subst b. cbn [length Nat.sub replace_aux app]. rewrite IH by lia. reflexivity.
      * f_equal. rewrite <- IH by (cbn [length]; lia). cbn [replace_aux]. unfold starts_with. cbn [strip_prefix]. now rewrite E2.
    + rewrite andb_false_r. f_equal. rewrite <- IH by (cbn [length]; lia). reflexivity.
Qed.
Lemma halve_compose : forall x S, S x = false -> forall n s, (length s <= n)%nat ->
  halve_runs (N.eqb x) (halve_runs S s) = halve_runs (fun c => S c || (x =? c)) s.
Proof.
  intros x S Hx. induction n as [|n IH]; intros s L; [destruct s; [reflexivity|cbn in L; lia]|].
  destruct s as [|a [|b r]]; [reflexivity|reflexivity|]. cbn [length] in L.
  rewrite !halve_two. destruct (a =? b) eqn:E; cbn [andb].
  - apply N.eqb_eq in E. subst b. destruct (S a) eqn:Sa; cbn [orb].
    + rewrite halve_not; [f_equal; apply IH; lia|]. apply N.eqb_neq. congruence.
    + rewrite (halve_not S a) by assumption. destruct (x =? a) eqn:E.
      * rewrite halve_two, N.eqb_refl, E. cbn [andb]. f_equal. apply IH. lia.
      * rewrite halve_not by assumption. f_equal.
        rewrite <- (halve_not S a) by assumption. apply IH. cbn [length]. lia.
  - rewrite <- IH by (cbn [length]; lia). destruct (halve_hd S b r) as [t Ht]. rewrite Ht.
    now rewrite halve_two, E.
Qed.
Lemma fold_halve : forall cs S s, (forall c, In c cs -> S c = false) -> NoDup cs ->
  fold_left (fun result x => replace [x; x] [x] result) cs (halve_runs S s)
  = halve_runs (fun c => S c || isin c cs) s.
Proof.
  induction cs as [|x cs IH]; intros S s H D; cbn [fold_left].
  - apply (halve_ext _ _) with (n := length s); [|lia]. intros c. now rewrite orb_false_r.
  - inversion D as [|? ? N1 N2]; subst.
    rewrite (replace_double x (length (halve_runs S s))) by lia.
    rewrite (halve_compose x S) with (n := length s) by (try apply H; try (now left); lia).
    rewrite IH; [|..|assumption].
    + apply (halve_ext _ _) with (n := length s); [|lia]. intros c. cbn [isin existsb].
      rewrite <- orb_assoc. f_equal. rewrite (N.eqb_sym x c). reflexivity.
    + intros c Hc. rewrite H by (now right). cbn [orb]. apply N.eqb_neq. intros ->. contradiction.
Qed.
Lemma double_consonant_nodup : NoDup DOUBLE_CONSONANT.
Proof.
  unfold DOUBLE_CONSONANT. repeat (constructor; [intros H; cbn [In] in H;
    repeat (destruct H as [H|H]; [discriminate H|]); destruct H|]). constructor.
Qed.
Lemma remove_double_spec : forall u s,
  remove_double_consonants u s = halve_runs upper_consonant (str_upper u s).
Proof.
  intros u s. unfold remove_double_consonants.
  rewrite <- (halve_none (fun _ => false) (str_upper u s)) at 1 by reflexivity.
  rewrite (fold_halve _ (fun _ => false)); [reflexivity|reflexivity|apply double_consonant_nodup].
Qed.

Lemma halve_incl : forall P n s, (length s <= n)%nat -> incl (halve_runs P s) s.
Proof.
  intros P. induction n as [|n IH]; intros s L; [destruct s; [apply incl_refl|cbn in L; lia]|].
  destruct s as [|a [|b r]]; [apply incl_refl|apply incl_refl|]. cbn [length] in L. rewrite halve_two.
  destruct (_ && _); intros c [<-|H]; try (now left); right.
  - right. apply (IH r) in H; [assumption|lia].
  - apply (IH (b :: r)) in H; [assumption|cbn [length]; lia].
Qed.
Lemma halve_tl_incl : forall P s, incl (tl (halve_runs P s)) (tl s).
Proof.
  intros P [|a [|b r]]; [apply incl_refl|apply incl_refl|]. rewrite halve_two.
  destruct (_ && _); cbn [tl]; intros c H.
  - right. now apply (halve_incl P (length r)) in H.
  - now apply (halve_incl P (length (b :: r))) in H.
Qed.

(** ** Cutting *)
Lemma get_first3_last3_blen : forall s r, get_first3_last3 s = Ok r -> (blen r <= 6)%nat.
Proof.
  intros s r H. unfold get_first3_last3 in H. destruct (Nat.ltb 6 (blen s)) eqn:L.
  - apply Nat.ltb_lt in L. apply bind_Ok in H as (a & Ha & H). apply bind_Ok in H as (b & Hb & H).
    injection H as <-. rewrite blen_app. apply slice0_spec in Ha as (t & _ & ->).
    unfold slice_from in Hb. destruct (split_byte _ s) as [[x y]|] eqn:E; [|discriminate].
    injection Hb as <-. apply split_byte_spec in E as [-> E]. rewrite blen_app in *. lia.
  - apply Nat.ltb_ge in L. now injection H as <-.
Qed.
Lemma get_first3_last3_ascii : forall s, ascii_str s -> get_first3_last3 s = Ok (first3_last3 s).
Proof.
  intros s A. unfold get_first3_last3, first3_last3. rewrite ascii_blen by assumption.
  destruct (Nat.ltb 6 (length s)) eqn:L; [|reflexivity]. apply Nat.ltb_lt in L.
  rewrite slice_ascii by (assumption || lia). rewrite slice_from_ascii by (assumption || lia). reflexivity.
Qed.

(** ** Cleaning ASCII names *)
Lemma plain_ascii : forall c, c < 192 -> plain c = c.
Proof.
  intros c H. unfold plain.
  assert (K : forall fs ts, forallb (fun f => 192 <=? f) fs = true -> accent_lookup fs ts c = c).
  { induction fs as [|f fs IH]; intros ts F; [reflexivity|]. cbn [forallb] in F.
    apply andb_true_iff in F as [F1 F2]. apply N.leb_le in F1. destruct ts as [|t ts]; [reflexivity|].
    cbn [accent_lookup]. replace (f =? c) with false by (symmetry; apply N.eqb_neq; lia). now apply IH. }
  apply K. reflexivity.
Qed.
Lemma noise_ascii : forall u c, c < 128 ->
  negb (isin c CHAR_TO_TRIM) && negb (is_whitespace u c) = negb (mra_noise c).
Proof.
  intros u c H. rewrite is_whitespace_ascii by assumption.
  rewrite <- negb_orb. f_equal. unfold mra_noise, CHAR_TO_TRIM.
  destruct (isin c $ "-&'.,") eqn:E.
  - cbn [orb]. symmetry. apply isin_In. apply isin_In in E. do 6 right. exact E.
  - cbn [orb]. destruct ((9 <=? c) && (c <=? 13) || (c =? 32)) eqn:W.
    + symmetry. apply isin_In. apply orb_true_iff in W as [W|W].
      * apply andb_true_iff in W as [W1 W2]. apply N.leb_le in W1. apply N.leb_le in W2.
        assert (K : c = 9 \/ c = 10 \/ c = 11 \/ c = 12 \/ c = 13) by lia.
        cbn [In]. intuition auto.
      * apply N.eqb_eq in W. subst. do 5 right. now left.
    + symmetry. apply isin_false. intros K. apply isin_false in E. apply orb_false_iff in W as [W1 W2].
      apply andb_false_iff in W1. rewrite !N.leb_gt in W1. apply N.eqb_neq in W2.
      destruct K as [<-|[<-|[<-|[<-|[<-|[<-|K]]]]]]; try lia. apply E, K.
Qed.
Lemma filter_filter : forall A (f g : A -> bool) l, filter f (filter g l) = filter (fun x => g x && f x) l.
Proof.
  intros A f g. induction l as [|x l IH]; [reflexivity|]. cbn [filter]. destruct (g x); cbn [filter andb]; now rewrite ?IH.
Qed.
Lemma clean_name_ascii : forall u s, ascii_str s ->
  clean_name u s = filter (fun c => negb (mra_noise c)) (map ascii_up s).
Proof.
  intros u s A. unfold clean_name. rewrite str_upper_ascii, filter_filter by assumption.
  pose proof (ascii_str_map_up s A) as B. set (l := map ascii_up s) in *. clearbody l.
  rewrite (filter_ext_in _ (fun c => negb (mra_noise c))) by (intros c Hc; apply noise_ascii; now apply B).
  rewrite <- (map_id (filter _ l)) at 2. apply map_ext_in. intros c Hc. apply plain_ascii.
  apply filter_In in Hc as [Hc _]. apply B in Hc. lia.
Qed.
Definition clean_codes (l : ustr) : Prop :=
  forall c, In c l -> c < 128 /\ mra_noise c = false /\ ascii_up c = c.
Lemma clean_name_codes : forall s, ascii_str s ->
  clean_codes (filter (fun c => negb (mra_noise c)) (map ascii_up s)).
Proof.
  intros s A c Hc. apply filter_In in Hc as [H1 H2]. apply in_map_iff in H1 as (x & <- & Hx).
  apply A in Hx. split; [now apply ascii_up_lt|]. split; [now apply negb_true_iff in H2|apply ascii_up_up].
Qed.
Lemma mra_vowel_upper : forall c, c < 128 -> ascii_up c = c -> mra_vowel c = upper_vowel c.
Proof.
  intros c H U. unfold mra_vowel, upper_vowel, is_vowel. rewrite andb_false_l, orb_false_r.
  destruct (ascii_low_cases c) as [[R ->]|[R ->]].
  - destruct (isin c $ "AEIOU") eqn:E.
    + apply isin_In in E. cbn [In] in E. repeat (destruct E as [<-|E]; [reflexivity|]). destruct E.
    + apply isin_false. intros K. apply isin_false in E. apply E. cbn [In] in K |- *.
      repeat (destruct K as [K|K]; [assert (c = ltac:(match type of K with ?n = _ => exact (n - 32) end)) by lia;
         subst c; cbn; auto 10|]). destruct K.
  - destruct (ascii_up_cases c) as [[R' E]|[R' E]]; [lia|].
    replace (isin c $ "aeiou") with false.
    + symmetry. apply isin_false. intros K. cbn [In] in K. repeat (destruct K as [<-|K]; [lia|]). destruct K.
    + symmetry. apply isin_false. intros K. cbn [In] in K. repeat (destruct K as [<-|K]; [lia|]). destruct K.
Qed.
Lemma clean_codes_incl : forall a b, incl a b -> clean_codes b -> clean_codes a.
Proof. intros a b H K c Hc. apply K, H, Hc. Qed.
Lemma drop_inner_incl : forall l, incl (drop_inner_vowels l) l.
Proof.
  intros [|x l]; [apply incl_refl|]. intros c [<-|H]; [now left|]. right. now apply filter_In in H as [H _].
Qed.
Lemma filter_id : forall A (f : A -> bool) l, (forall x, In x l -> f x = true) -> filter f l = l.
Proof.
  intros A f. induction l as [|x l IH]; intros H; [reflexivity|]. cbn [filter]. rewrite H by (now left).
  f_equal. apply IH. intros y Hy. apply H. now right.
Qed.
Lemma remove_vowels_clean : forall u l, clean_codes l -> remove_vowels u l = drop_inner_vowels l.
Proof.
  intros u l H. unfold remove_vowels.
  assert (E : (match l with [] => [] | c :: r => c :: filter (fun c => negb (mra_vowel c)) r end)
            = drop_inner_vowels l).
  { destruct l as [|x l]; [reflexivity|]. unfold drop_inner_vowels. f_equal. apply filter_ext_in.
    intros c Hc. destruct (H c (or_intror Hc)) as (H1 & _ & H3). now rewrite mra_vowel_upper. }
  rewrite E. apply filter_id. intros c Hc. apply drop_inner_incl in Hc. destruct (H c Hc) as (H1 & H2 & _).
  unfold mra_keep. rewrite noise_ascii by assumption. now rewrite H2.
Qed.
Lemma clean_codes_upper : forall u l, clean_codes l -> str_upper u l = l.
Proof.
  intros u l H. rewrite str_upper_ascii by (intros c Hc; now apply H).
  rewrite <- (map_id l) at 2. apply map_ext_in. intros c Hc. now apply H.
Qed.
Lemma mra_pipeline_ascii : forall u s, ascii_str s ->
  get_first3_last3 (remove_double_consonants u (remove_vowels u (clean_name u s))) = Ok (mra_code s).
Proof.
  intros u s A. rewrite clean_name_ascii by assumption. pose proof (clean_name_codes s A) as C.
  rewrite remove_vowels_clean by assumption. rewrite remove_double_spec.
  rewrite clean_codes_upper by (eapply clean_codes_incl; [apply drop_inner_incl|assumption]).
  apply get_first3_last3_ascii. intros c Hc. apply (halve_incl _ _ _ (le_n _)) in Hc.
  apply drop_inner_incl in Hc. now apply C in Hc as [Hc _].
Qed.
Lemma first3_incl : forall l, incl (first3_last3 l) l.
Proof.
  intros l c H. unfold first3_last3 in H. destruct (Nat.ltb 6 (length l)); [|assumption].
  apply in_app_or in H as [H|H].
  - rewrite <- (firstn_skipn 3 l). apply in_or_app. now left.
  - rewrite <- (firstn_skipn (length l - 3) l). apply in_or_app. now right.
Qed.
Lemma first3_tl_incl : forall l, incl (tl (first3_last3 l)) (tl l).
Proof.
  intros l c H. unfold first3_last3 in H. destruct (Nat.ltb 6 (length l)) eqn:L; [|assumption].
  apply Nat.ltb_lt in L. destruct l as [|x l]; [cbn in L; lia|]. cbn [firstn app tl] in *.
  cbn [length] in *. apply in_app_or in H as [H|H].
  - rewrite <- (firstn_skipn 2 l). apply in_or_app. now left.
  - destruct (S (length l) - 3)%nat as [|k] eqn:E; [lia|]. cbn [skipn] in H.
    rewrite <- (firstn_skipn k l). apply in_or_app. now right.
Qed.
Lemma first3_length : forall l, (length (first3_last3 l) <= 6)%nat.
Proof.
  intros l. unfold first3_last3. destruct (Nat.ltb 6 (length l)) eqn:L.
  - apply Nat.ltb_lt in L. rewrite app_length, firstn_length, skipn_length. lia.
  - now apply Nat.ltb_ge in L.
Qed.
Lemma mra_code_clean : forall s, ascii_str s -> clean_codes (mra_code s).
Proof.
  intros s A. eapply clean_codes_incl; [|apply (clean_name_codes s A)]. unfold mra_code.
  eapply incl_tran; [apply first3_incl|]. eapply incl_tran; [apply (halve_incl _ _ _ (le_n _))|].
  apply drop_inner_incl.
Qed.
Lemma mra_code_vowels : forall s c, In c (tl (mra_code s)) -> upper_vowel c = false.
Proof.
  intros s c H. unfold mra_code in H. apply first3_tl_incl in H. apply halve_tl_incl in H.
  destruct (filter _ _) as [|x l]; [destruct H|]. cbn [drop_inner_vowels tl] in H.
  apply filter_In in H as [_ H]. now apply negb_true_iff in H.
Qed.

(** ** Rating *)
Lemma set_nth_length : forall i c l, length (set_nth i c l) = length l.
Proof. induction i as [|i IH]; intros c [|x l]; cbn; auto. Qed.
Lemma set_nth_spec : forall i c l j,
  nth_error (set_nth i c l) j
  = if Nat.eqb j i then match nth_error l j with Some _ => Some c | None => None end else nth_error l j.
Proof.
  induction i as [|i IH]; intros c [|x l] [|j]; cbn [set_nth nth_error Nat.eqb]; try reflexivity.
  - destruct (Nat.eqb j i); reflexivity.
  - apply IH.
Qed.
Lemma nth_error_some : forall (l : ustr) i, (i < length l)%nat -> exists c, nth_error l i = Some c.
Proof.
  intros l i H. destruct (nth_error l i) eqn:E; [eauto|]. apply nth_error_None in E. lia.
Qed.
Definition swap (p : ustr * ustr) : ustr * ustr := (snd p, fst p).
Lemma mra_pairs_swap : forall m i n1 n2, n1 <> [] -> n2 <> [] ->
  (length n1 - i + (length n2 - i) <= m)%nat ->
  mra_pairs (length n1 - i) i n1 n2 = rmap swap (mra_pairs (length n2 - i) i n2 n1).
Proof.
  induction m as [|m IH]; intros i n1 n2 H1 H2 L.
  - replace (length n1 - i)%nat with 0%nat by lia. replace (length n2 - i)%nat with 0%nat by lia. reflexivity.
  - assert (P1 : (1 <= length n1)%nat) by (destruct n1; [congruence|cbn; lia]).
    assert (P2 : (1 <= length n2)%nat) by (destruct n2; [congruence|cbn; lia]).
    destruct (length n1 - i)%nat as [|t1] eqn:E1.
    + destruct (length n2 - i)%nat as [|t2] eqn:E2; [reflexivity|]. cbn [mra_pairs].
      replace (Nat.ltb (length n1 - 1) i) with true by (symmetry; apply Nat.ltb_lt; lia). reflexivity.
    + destruct (length n2 - i)%nat as [|t2] eqn:E2.
      * cbn [mra_pairs]. replace (Nat.ltb (length n2 - 1) i) with true by (symmetry; apply Nat.ltb_lt; lia).
        reflexivity.
      * cbn [mra_pairs].
        replace (Nat.ltb (length n1 - 1) i) with false by (symmetry; apply Nat.ltb_ge; lia).
        replace (Nat.ltb (length n2 - 1) i) with false by (symmetry; apply Nat.ltb_ge; lia).
        destruct (nth_error_some n1 i) as [c1 C1]; [lia|]. destruct (nth_error_some n2 i) as [c2 C2]; [lia|].
        rewrite C1, C2. cbn [unwrap bind]. rewrite (N.eqb_sym c2 c1).
        assert (Tail : forall m1 m2 : ustr, length m1 = length n1 -> length m2 = length n2 ->
          (d1 <- unwrap (nth_error m1 (length m1 - (i + 1))) ;;
           d2 <- unwrap (nth_error m2 (length m2 - (i + 1))) ;;
           let '(n4, n5) := if d1 =? d2 then (set_nth (length m1 - 1 - i) 32 m1, set_nth (length m2 - 1 - i) 32 m2)
                            else (m1, m2) in mra_pairs t1 (S i) n4 n5)
          = rmap swap
          (d1 <- unwrap (nth_error m2 (length m2 - (i + 1))) ;;
           d2 <- unwrap (nth_error m1 (length m1 - (i + 1))) ;;
           let '(n4, n5) := if d1 =? d2 then (set_nth (length m2 - 1 - i) 32 m2, set_nth (length m1 - 1 - i) 32 m1)
                            else (m2, m1) in mra_pairs t2 (S i) n4 n5)).
        { intros m1 m2 Lm1 Lm2. rewrite Lm1, Lm2.
          destruct (nth_error_some m1 (length n1 - (i + 1))) as [d1 D1]; [lia|].
          destruct (nth_error_some m2 (length n2 - (i + 1))) as [d2 D2]; [lia|].
          rewrite D1, D2. cbn [unwrap bind]. rewrite (N.eqb_sym d2 d1).
          assert (Rec : forall q1 q2 : ustr, length q1 = length n1 -> length q2 = length n2 ->
            mra_pairs t1 (S i) q1 q2 = rmap swap (mra_pairs t2 (S i) q2 q1)).
          { intros q1 q2 Lq1 Lq2.
            replace t1 with (length q1 - S i)%nat by lia. replace t2 with (length q2 - S i)%nat by lia.
            apply IH; [destruct q1; [cbn in Lq1; lia|discriminate]|destruct q2; [cbn in Lq2; lia|discriminate]|lia]. }
          destruct (d1 =? d2); apply Rec; rewrite ?set_nth_length; assumption. }
        destruct (c1 =? c2); apply Tail; rewrite ?set_nth_length; reflexivity.
Qed.
Lemma mra_count_sym : forall a b, mra_count a b = mra_count b a.
Proof.
  intros a b. unfold mra_count. set (x := blen _). set (y := blen _).
  destruct (Nat.ltb y x) eqn:E1, (Nat.ltb x y) eqn:E2; try reflexivity.
  - apply Nat.ltb_lt in E1. apply Nat.ltb_lt in E2. lia.
  - apply Nat.ltb_ge in E1. apply Nat.ltb_ge in E2. f_equal. lia.
Qed.
Lemma mra_rate_sym : forall p a b, (p = Checked \/ (a <> [] <-> b <> [])) -> mra_rate p a b = mra_rate p b a.
Proof.
  intros p a b H.
  destruct a as [|x a], b as [|y b]; [reflexivity|..].
  - destruct p; [reflexivity|]. destruct H as [H|H]; [discriminate|]. now destruct (proj2 H ltac:(discriminate)).
  - destruct p; [reflexivity|]. destruct H as [H|H]; [discriminate|]. now destruct (proj1 H ltac:(discriminate)).
  - unfold mra_rate. pose proof (mra_pairs_swap _ 0 (x :: a) (y :: b) ltac:(discriminate) ltac:(discriminate) (le_n _)) as K.
    rewrite !Nat.sub_0_r in K. rewrite K.
    destruct (mra_pairs (length (y :: b)) 0 (y :: b) (x :: a)) as [[n2 n1]| |]; [|reflexivity..].
    cbn. f_equal. apply mra_count_sym.
Qed.

(** Equal lengths: the loop blanks exactly the agreeing positions. *)
Definition blanked (P : nat -> bool) (a b n1 n2 : ustr) : Prop :=
  length n1 = length a /\ length n2 = length b
  /\ forall j x y, nth_error a j = Some x -> nth_error b j = Some y ->
     nth_error n1 j = Some (if P j && (x =? y) then 32 else x)
     /\ nth_error n2 j = Some (if P j && (x =? y) then 32 else y).
Lemma blank_step : forall P a b n1 n2 i, blanked P a b n1 n2 -> length a = length b -> (i < length a)%nat ->
  (forall c, In c a -> c <> 32) -> (forall c, In c b -> c <> 32) ->
  exists c1 c2, nth_error n1 i = Some c1 /\ nth_error n2 i = Some c2
   /\ blanked (fun j => P j || Nat.eqb j i) a b (if c1 =? c2 then set_nth i 32 n1 else n1)
        (if c1 =? c2 then set_nth i 32 n2 else n2).
Proof.
  intros P a b n1 n2 i (L1 & L2 & B) L Li Ha Hb.
  destruct (nth_error_some a i) as [x X]; [lia|]. destruct (nth_error_some b i) as [y Y]; [lia|].
  destruct (B i x y X Y) as [N1 N2]. eexists _, _. split; [exact N1|]. split; [exact N2|].
  set (c1 := if P i && (x =? y) then 32 else x). set (c2 := if P i && (x =? y) then 32 else y).
  assert (E : (c1 =? c2) = (x =? y)).
  { unfold c1, c2. destruct (P i); cbn [andb]; [|reflexivity].
    destruct (x =? y) eqn:E; [reflexivity|exact E]. }
  rewrite E. split; [destruct (x =? y); rewrite ?set_nth_length; exact L1|].
  split; [destruct (x =? y); rewrite ?set_nth_length; exact L2|].
  intros j x' y' X' Y'. destruct (B j x' y' X' Y') as [M1 M2]. destruct (Nat.eqb j i) eqn:J.
  - apply Nat.eqb_eq in J. subst j. assert (x' = x) by congruence. assert (y' = y) by congruence. subst x' y'.
    rewrite orb_true_r, andb_true_l. destruct (x =? y) eqn:Exy.
    + rewrite !set_nth_spec, Nat.eqb_refl, M1, M2. auto.
    + rewrite M1, M2. now rewrite andb_false_r.
  - rewrite orb_false_r. destruct (x =? y); [|auto]. rewrite !set_nth_spec, J. auto.
Qed.
Lemma blanked_ext : forall P Q a b n1 n2, (forall j, (j < length a)%nat -> P j = Q j) ->
  blanked P a b n1 n2 -> blanked Q a b n1 n2.
Proof.
  intros P Q a b n1 n2 H (L1 & L2 & B). split; [assumption|]. split; [assumption|].
  intros j x y X Y. rewrite <- H; [auto|]. apply nth_error_Some. congruence.
Qed.
Lemma mra_pairs_blanked : forall a b todo i P n1 n2, length a = length b -> a <> [] ->
  (forall c, In c a -> c <> 32) -> (forall c, In c b -> c <> 32) ->
  blanked P a b n1 n2 -> (forall j, (j < i)%nat -> P j = true) -> (todo + i = length a)%nat ->
  exists m1 m2, mra_pairs todo i n1 n2 = Ok (m1, m2) /\ blanked (fun _ => true) a b m1 m2.
Proof.
  intros a b. induction todo as [|todo IH]; intros i P n1 n2 L Hne Ha Hb B HP Hi.
  - exists n1, n2. split; [reflexivity|]. eapply blanked_ext; [|exact B]. intros j Hj. apply HP. lia.
  - cbn [mra_pairs]. pose proof B as (L1 & L2 & _).
    replace (Nat.ltb (length n2 - 1) i) with false by (symmetry; apply Nat.ltb_ge; lia).
    destruct (blank_step P a b n1 n2 i B L ltac:(lia) Ha Hb) as (c1 & c2 & C1 & C2 & B1).
    rewrite C1, C2. cbn [unwrap bind].
    set (m1 := if c1 =? c2 then set_nth i 32 n1 else n1) in *.
    set (m2 := if c1 =? c2 then set_nth i 32 n2 else n2) in *.
    assert (EE : (if c1 =? c2 then (set_nth i 32 n1, set_nth i 32 n2) else (n1, n2)) = (m1, m2))
      by (unfold m1, m2; destruct (c1 =? c2); reflexivity).
    rewrite EE. pose proof B1 as (M1 & M2 & _).
    destruct (blank_step _ a b m1 m2 (length a - (i + 1)) B1 L ltac:(lia) Ha Hb) as (d1 & d2 & D1 & D2 & B2).
    rewrite M1, M2, <- L. rewrite D1, D2. cbn [unwrap bind].
    replace (length a - (i + 1))%nat with (length a - 1 - i)%nat in B2 by lia.
    destruct (d1 =? d2); (eapply IH; [assumption|assumption|assumption|assumption|exact B2| |lia]);
      (intros j Hj; cbn beta; destruct (Nat.eqb j i) eqn:J; [now rewrite orb_true_r|];
       apply Nat.eqb_neq in J; rewrite HP by lia; reflexivity).
Qed.
Lemma blanked_cons : forall a b x y n1 n2 z w, blanked (fun _ => true) (x :: a) (y :: b) (z :: n1) (w :: n2) ->
  z = (if x =? y then 32 else x) /\ w = (if x =? y then 32 else y) /\ blanked (fun _ => true) a b n1 n2.
Proof.
  intros a b x y n1 n2 z w (L1 & L2 & B). destruct (B 0%nat x y eq_refl eq_refl) as [B1 B2].
  cbn [nth_error andb] in B1, B2. injection B1 as ->. injection B2 as ->.
  split; [reflexivity|]. split; [reflexivity|]. cbn [length] in *. split; [lia|]. split; [lia|].
  intros j x' y' X Y. apply (B (S j) x' y' X Y).
Qed.
Lemma filter_blanked : forall a b n1 n2, length a = length b ->
  (forall c, In c a -> c <> 32) -> (forall c, In c b -> c <> 32) ->
  blanked (fun _ => true) a b n1 n2 ->
  length (filter (fun c => negb (c =? # " ")) n1) = (length a - agreeing_positions a b)%nat
  /\ length (filter (fun c => negb (c =? # " ")) n2) = (length a - agreeing_positions a b)%nat
  /\ (agreeing_positions a b <= length a)%nat
  /\ incl (filter (fun c => negb (c =? # " ")) n1) a /\ incl (filter (fun c => negb (c =? # " ")) n2) b.
Proof.
  induction a as [|x a IH]; intros [|y b] n1 n2 L Ha Hb B; try discriminate L.
  - destruct B as (L1 & L2 & _). destruct n1; [|discriminate]. destruct n2; [|discriminate].
    cbn. repeat split; auto; intros ? [].
  - pose proof B as (L1 & L2 & _). destruct n1 as [|z n1]; [discriminate|]. destruct n2 as [|w n2]; [discriminate|].
    apply blanked_cons in B as (-> & -> & B). injection L as L.
    destruct (IH b n1 n2 L (fun c Hc => Ha c (or_intror Hc)) (fun c Hc => Hb c (or_intror Hc)) B)
      as (I1 & I2 & I3 & I4 & I5).
    rewrite agreeing_cons. cbn [length]. destruct (x =? y) eqn:E.
    + cbn [filter N.eqb Pos.eqb negb]. rewrite I1, I2.
      split; [lia|]. split; [lia|]. split; [lia|]. split; intros c Hc; right; auto.
    + cbn [filter].
      replace (x =? 32) with false by (symmetry; apply N.eqb_neq, Ha; now left).
      replace (y =? 32) with false by (symmetry; apply N.eqb_neq, Hb; now left).
      cbn [negb length]. rewrite I1, I2.
      split; [lia|]. split; [lia|]. split; [lia|].
      split; intros c [<-|Hc]; try (now left); right; auto.
Qed.
Lemma mra_rate_equal_length : forall p a b, length a = length b -> a <> [] ->
  ascii_str a -> ascii_str b -> (forall c, In c a -> c <> 32) -> (forall c, In c b -> c <> 32) ->
  mra_rate p a b = Ok (abs_diff 6 (length a - agreeing_positions a b)).
Proof.
  intros p a b L Hne Aa Ab Ha Hb.
  assert (B0 : blanked (fun _ => false) a b a b) by (split; [reflexivity|split; [reflexivity|auto]]).
  destruct (mra_pairs_blanked a b (length a) 0 _ a b L Hne Ha Hb B0) as (m1 & m2 & E & B);
    [intros j Hj; lia|lia|].
  destruct (filter_blanked a b m1 m2 L Ha Hb B) as (F1 & F2 & _ & F4 & F5).
  assert (K : mra_rate p a b = rmap (fun q => mra_count (fst q) (snd q)) (mra_pairs (length a) 0 a b)).
  { destruct a as [|x a]; [congruence|]. destruct b as [|y b]; [discriminate|]. unfold mra_rate.
    destruct (mra_pairs _ _ _ _) as [[? ?]| |]; reflexivity. }
  rewrite K, E. cbn [rmap fst snd]. f_equal. unfold mra_count.
  rewrite !ascii_blen, F1, F2 by (eapply ascii_str_incl; eassumption).
  destruct (Nat.ltb _ _); reflexivity.
Qed.
Lemma agreeing_self : forall a, agreeing_positions a a = length a.
Proof.
  induction a as [|x a IH]; [reflexivity|]. rewrite agreeing_cons, N.eqb_refl, IH. reflexivity.
Qed.

Lemma mra_pairs_ok : forall todo i n1 n2, (todo + i = length n1)%nat -> n2 <> [] ->
  oks (mra_pairs todo i n1 n2).
Proof.
  induction todo as [|todo IH]; intros i n1 n2 L H; cbn [mra_pairs]; [apply oks_Ok|].
  destruct (Nat.ltb (length n2 - 1) i) eqn:E; [apply oks_Ok|]. apply Nat.ltb_ge in E.
  assert (P2 : (1 <= length n2)%nat) by (destruct n2; [congruence|cbn; lia]).
  destruct (nth_error_some n1 i) as [c1 C1]; [lia|]. destruct (nth_error_some n2 i) as [c2 C2]; [lia|].
  rewrite C1, C2. cbn [unwrap bind].
  assert (Tail : forall m1 m2 : ustr, length m1 = length n1 -> length m2 = length n2 ->
    oks (d1 <- unwrap (nth_error m1 (length m1 - (i + 1))) ;;
     d2 <- unwrap (nth_error m2 (length m2 - (i + 1))) ;;
     let '(n4, n5) := if d1 =? d2 then (set_nth (length m1 - 1 - i) 32 m1, set_nth (length m2 - 1 - i) 32 m2)
                      else (m1, m2) in mra_pairs todo (S i) n4 n5)).
  { intros m1 m2 Lm1 Lm2. rewrite Lm1, Lm2.
    destruct (nth_error_some m1 (length n1 - (i + 1))) as [d1 D1]; [lia|].
    destruct (nth_error_some m2 (length n2 - (i + 1))) as [d2 D2]; [lia|].
    rewrite D1, D2. cbn [unwrap bind].
    assert (Rec : forall q1 q2 : ustr, length q1 = length n1 -> length q2 = length n2 ->
      oks (mra_pairs todo (S i) q1 q2)).
    { intros q1 q2 Lq1 Lq2. apply IH; [lia|]. destruct q2; [cbn in Lq2; lia|discriminate]. }
    destruct (d1 =? d2); apply Rec; rewrite ?set_nth_length; assumption. }
  destruct (c1 =? c2); apply Tail; rewrite ?set_nth_length; reflexivity.
Qed.
Lemma mra_rate_ok : forall p a b, a <> [] -> b <> [] -> oks (mra_rate p a b).
Proof.
  intros p a b Ha Hb. destruct a as [|x a]; [congruence|]. destruct b as [|y b]; [congruence|].
  unfold mra_rate. destruct (mra_pairs_ok (length (x :: a)) 0 (x :: a) (y :: b)) as [[m1 m2] ->];
    [cbn [length]; lia|discriminate|]. cbn [bind]. destruct p; apply oks_Ok.
Qed.
Lemma halve_nonempty : forall P l, l <> [] -> halve_runs P l <> [].
Proof. intros P [|x l] H; [congruence|]. destruct (halve_hd P x l) as [t ->]. discriminate. Qed.
Lemma mra_code_nonempty : forall s, (exists c, In c s /\ mra_noise c = false) -> mra_code s <> [].
Proof.
  intros s (c & Hc & N). unfold mra_code.
  assert (K : filter (fun c => negb (mra_noise c)) (map ascii_up s) <> []).
  { assert (I : In (ascii_up c) (filter (fun c => negb (mra_noise c)) (map ascii_up s))).
    { apply filter_In. split; [now apply in_map|]. apply negb_true_iff.
      destruct (ascii_up_cases c) as [[R ->]|[R ->]]; [|assumption].
      unfold mra_noise. apply isin_false. intros I. cbn [In] in I.
      repeat (destruct I as [I|I]; [lia|]). destruct I. }
    intros E. rewrite E in I. destruct I. }
  destruct (filter _ _) as [|x l]; [congruence|]. cbn [drop_inner_vowels].
  set (l' := filter _ l). clearbody l'.
  pose proof (halve_nonempty upper_consonant (x :: l') ltac:(discriminate)) as H.
  destruct (halve_runs _ _) as [|y t]; [congruence|]. unfold first3_last3.
  destruct (Nat.ltb 6 _); discriminate.
Qed.
