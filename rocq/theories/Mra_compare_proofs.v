(** * Match rating approach: the general code and the general rating. *)
From Verif Require Import Base UnicodeM Lib Helper MatchRating BaseLemmas Spec_common Spec_mra
  Lib_proofs Soundex_proofs UnicodeLemmas Cologne_proofs Caverphone_proofs DoubleMetaphone_proofs Mra_proofs.
Local Open Scope N_scope.

(** ** The code *)
Lemma accent_lookup_notin : forall fs ts c, ~ In c fs -> accent_lookup fs ts c = c.
Proof.
  induction fs as [|f fs IH]; intros [|t ts] c H; try reflexivity. cbn [accent_lookup].
  destruct (N.eqb_spec f c) as [->|_]; [destruct H; now left|]. apply IH. intros K. apply H. now right.
Qed.
Lemma plain_unaccent : forall c, plain c = unaccent c.
Proof.
  intros c. destruct (in_dec N.eq_dec c UNICODE) as [H|H].
  - assert (K : forallb (fun c => plain c =? unaccent c) UNICODE = true) by (vm_compute; reflexivity).
    rewrite forallb_forall in K. apply N.eqb_eq. now apply K.
  - unfold plain. rewrite accent_lookup_notin by assumption. unfold unaccent.
    destruct (find _ _) as [[l b]|] eqn:F; [|reflexivity]. apply find_some in F as [F1 F2].
    cbn [fst] in F2. apply isin_In in F2. destruct H.
    assert (K : forallb (fun e => forallb (fun c => isin c UNICODE) (fst e)) unaccent_table = true)
      by (vm_compute; reflexivity).
    rewrite forallb_forall in K. specialize (K _ F1). rewrite forallb_forall in K.
    apply isin_In. now apply K.
Qed.
Lemma plain_values : forall c, plain c = c \/ In (plain c) PLAIN_ASCII.
Proof.
  intros c. unfold plain. generalize PLAIN_ASCII, UNICODE. intros ts fs. revert ts.
  induction fs as [|f fs IH]; intros [|t ts]; cbn [accent_lookup]; auto.
  destruct (f =? c); [right; now left|]. destruct (IH ts) as [H|H]; [now left|right; now right].
Qed.
Lemma plain_keep : forall u c, mra_keep u c = true -> mra_keep u (plain c) = true.
Proof.
  intros u c H. destruct (plain_values c) as [->|K]; [assumption|].
  assert (T : forallb (fun c => (c <? 128) && negb (mra_noise c)) PLAIN_ASCII = true) by (vm_compute; reflexivity).
  rewrite forallb_forall in T. specialize (T _ K). apply andb_true_iff in T as [T1 T2].
  apply N.ltb_lt in T1. unfold mra_keep.
  rewrite (noise_ascii u) by assumption. exact T2.
Qed.
Definition mra_noise_u (u : Unicode) (c : N) : bool := isin c $ "-&'.," || is_whitespace u c.
Lemma mra_letters_eq : forall u s,
  remove_double_consonants u (remove_vowels u (clean_name u s))
  = mra_letters (str_upper u) (mra_noise_u u) s.
Proof.
  intros u s. rewrite remove_double_spec. unfold mra_letters. cbv zeta. do 2 f_equal.
  unfold clean_name. rewrite filter_filter.
  rewrite (filter_ext (fun x => negb (isin x CHAR_TO_TRIM) && negb (is_whitespace u x))
             (fun c => negb (mra_noise_u u c)))
    by (intros x; unfold mra_noise_u; now rewrite negb_orb).
  set (l := filter _ _).
  assert (K : forall c, In c (map plain l) -> mra_keep u c = true).
  { intros c Hc. apply in_map_iff in Hc as (x & <- & Hx). apply plain_keep. subst l.
    apply filter_In in Hx as [_ Hx]. unfold mra_keep. unfold mra_noise_u in Hx. now rewrite negb_orb in Hx. }
  rewrite <- (map_ext _ _ plain_unaccent l). clearbody l. unfold remove_vowels.
  destruct (map plain l) as [|x r] eqn:E; [reflexivity|].
  rewrite filter_id.
  - f_equal. apply filter_ext. intros c. f_equal. unfold mra_vowel, is_vowel.
    cbn [andb]. rewrite orb_false_r. clear. destruct (ascii_low_cases c) as [[R E]|[R E]].
    + rewrite E. assert (T : forallb (fun c => Bool.eqb (isin (c + 32) $ "aeiou") (isin c $ "AEIOUaeiou"))
                         (map N.of_nat (seq 65 26)) = true) by (vm_compute; reflexivity).
      rewrite forallb_forall in T. apply Bool.eqb_prop. apply T. apply in_map_iff.
      exists (N.to_nat c). split; [lia|]. apply in_seq. lia.
    + rewrite E. destruct (isin c $ "AEIOUaeiou") eqn:I.
      * apply isin_In in I. cbn [In] in I.
        repeat (destruct I as [<-|I]; [first [reflexivity | exfalso; apply R; split; apply N.leb_le; reflexivity]|]).
        destruct I.
      * apply isin_false in I. apply isin_false. intros J. apply I.
        change $ "AEIOUaeiou" with ($ "AEIOU" ++ $ "aeiou"). apply in_or_app. now right.
  - intros c [<-|Hc]; [apply K; now left|]. apply filter_In in Hc as [Hc _]. apply K. now right.
Qed.

Lemma split_byte_none : forall s n, split_byte n s = None -> forall p q, s = p ++ q -> blen p <> n.
Proof.
  intros s n H p q -> E. subst n. rewrite split_byte_app in H. discriminate.
Qed.
Lemma prefix_cut : forall (a b c d : ustr), a ++ b = c ++ d -> (blen a <= blen c)%nat ->
  exists m, c = a ++ m /\ b = m ++ d.
Proof.
  induction a as [|x a IH]; intros b c d E L; [exists c; auto|].
  destruct c as [|y c].
  - cbn [blen] in L. pose proof (utf8_len_pos x). lia.
  - cbn [app] in E. injection E as -> E. cbn [blen] in L.
    destruct (IH b c d E) as (m & -> & ->); [lia|]. exists m. auto.
Qed.
Lemma get_first3_last3_cases : forall v,
  ((blen v <= 6)%nat /\ get_first3_last3 v = Ok v)
  \/ ((6 < blen v)%nat /\ (exists p m q, v = p ++ m ++ q /\ blen p = 3%nat /\ blen q = 3%nat
        /\ get_first3_last3 v = Ok (p ++ q)))
  \/ ((6 < blen v)%nat /\ ~ (exists p m q, v = p ++ m ++ q /\ blen p = 3%nat /\ blen q = 3%nat)
        /\ get_first3_last3 v = Panic).
Proof.
  intros v. unfold get_first3_last3. destruct (Nat.ltb 6 (blen v)) eqn:L; [apply Nat.ltb_lt in L|apply Nat.ltb_ge in L];
    [right|left; auto].
  rewrite slice0. unfold slice_to, slice_from.
  destruct (split_byte 3 v) as [[p r]|] eqn:S1.
  - destruct (split_byte (blen v - 3) v) as [[c q]|] eqn:S2.
    + left. split; [assumption|]. apply split_byte_spec in S1 as [S1 B1]. apply split_byte_spec in S2 as [S2 B2].
      destruct (prefix_cut p r c q) as (m & -> & ->); [congruence|lia|].
      exists p, m, q. split; [assumption|]. split; [assumption|]. split; [|reflexivity].
      subst v. rewrite !blen_app in *. lia.
    + right. split; [assumption|]. split; [|reflexivity]. intros (p' & m & q & E & Bp & Bq).
      apply (split_byte_none _ _ S2 (p' ++ m) q); [now rewrite <- app_assoc|].
      subst v. rewrite !blen_app in *. lia.
  - right. split; [assumption|]. split; [|reflexivity]. intros (p' & m & q & E & Bp & Bq).
    now apply (split_byte_none _ _ S1 p' (m ++ q)).
Qed.

(** ** The rating *)
Definition weight (n : ustr) : nat := blen (filter (fun c => negb (c =? 32)) n).
Lemma set_nth_same : forall i c n, nth_error n i = Some c -> set_nth i c n = n.
Proof.
  induction i as [|i IH]; intros c [|x n] H; try discriminate; cbn in *; [now injection H as ->|].
  f_equal. now apply IH.
Qed.
Lemma weight_set : forall i c n, nth_error n i = Some c -> c <> 32 ->
  (weight (set_nth i 32 n) + utf8_len c = weight n)%nat.
Proof.
  unfold weight. induction i as [|i IH]; intros c [|x n] H Hc; try discriminate.
  - injection H as ->. cbn [set_nth filter]. change (32 =? 32) with true. cbn [negb].
    destruct (N.eqb_spec c 32) as [E|_]; [contradiction|]. cbn [negb blen]. lia.
  - cbn [set_nth filter]. cbn [nth_error] in H. specialize (IH c n H Hc).
    destruct (negb (x =? 32)); cbn [blen]; lia.
Qed.
Definition mem (i : nat) (l : list nat) : bool := existsb (Nat.eqb i) l.
Lemma mem_In : forall i l, mem i l = true <-> In i l.
Proof.
  intros i l. unfold mem. rewrite existsb_exists. split.
  - intros (x & H & E). apply Nat.eqb_eq in E. now subst x.
  - intros H. exists i. split; [assumption|apply Nat.eqb_refl].
Qed.
(** What is left of [a] once the positions [l] are blanked. *)
Definition blanks (l : list nat) (a n : ustr) : Prop :=
  length n = length a
  /\ forall j, (j < length a)%nat -> nth_error n j = if mem j l then Some 32 else nth_error a j.
Definition inv (a b : ustr) (l : list (nat * nat)) (n1 n2 : ustr) : Prop :=
  blanks (map fst l) a n1 /\ blanks (map snd l) b n2
  /\ (weight n1 + struck_bytes a l = blen a)%nat /\ (weight n2 + struck_bytes a l = blen b)%nat.
Lemma free_mem : forall l p, free l p = negb (mem (fst p) (map fst l)) && negb (mem (snd p) (map snd l)).
Proof.
  intros l p. unfold free, mem. rewrite <- negb_orb. f_equal.
  induction l as [|q l IH]; [reflexivity|]. cbn [existsb map]. rewrite IH.
  rewrite (Nat.eqb_sym (fst p)), (Nat.eqb_sym (snd p)).
  destruct (Nat.eqb (fst q) (fst p)), (Nat.eqb (snd q) (snd p)), (existsb _ (map fst l)),
    (existsb _ (map snd l)); reflexivity.
Qed.
Lemma blanks_set : forall l a n i, blanks l a n -> (i < length a)%nat -> blanks (i :: l) a (set_nth i 32 n).
Proof.
  intros l a n i [L H] Hi. split; [now rewrite set_nth_length|]. intros j Hj. rewrite set_nth_spec.
  unfold mem. cbn [existsb]. fold (mem j l). destruct (Nat.eqb j i) eqn:E; cbn [orb]; [|now apply H].
  destruct (nth_error_some n j) as [c ->]; [lia|]. reflexivity.
Qed.
Lemma strike_step : forall a b l n1 n2 i j, inv a b l n1 n2 -> (i < length a)%nat -> (j < length b)%nat ->
  (forall c, In c a -> c <> 32) -> (forall c, In c b -> c <> 32) ->
  exists c1 c2, nth_error n1 i = Some c1 /\ nth_error n2 j = Some c2
  /\ inv a b (strike a b (i, j) l) (if c1 =? c2 then set_nth i 32 n1 else n1)
       (if c1 =? c2 then set_nth j 32 n2 else n2).
Proof.
  intros a b l n1 n2 i j (B1 & B2 & W1 & W2) Hi Hj Ha Hb.
  destruct (nth_error_some a i Hi) as [x Hx]. destruct (nth_error_some b j Hj) as [y Hy].
  pose proof (proj2 B1 i Hi) as E1. pose proof (proj2 B2 j Hj) as E2. rewrite Hx in E1. rewrite Hy in E2.
  assert (X : x <> 32) by (apply Ha; eapply nth_error_In; eassumption).
  assert (Y : y <> 32) by (apply Hb; eapply nth_error_In; eassumption).
  unfold strike. rewrite free_mem. cbn [fst snd]. unfold same_char. cbn [fst snd]. rewrite Hx, Hy.
  destruct (mem i (map fst l)) eqn:M1, (mem j (map snd l)) eqn:M2; cbn [negb andb].
  - exists 32, 32. split; [assumption|]. split; [assumption|]. rewrite N.eqb_refl.
    rewrite (set_nth_same i 32 n1), (set_nth_same j 32 n2) by assumption. exact (conj B1 (conj B2 (conj W1 W2))).
  - exists 32, y. split; [assumption|]. split; [assumption|].
    destruct (N.eqb_spec 32 y) as [E|_]; [congruence|]. exact (conj B1 (conj B2 (conj W1 W2))).
  - exists x, 32. split; [assumption|]. split; [assumption|].
    destruct (N.eqb_spec x 32) as [E|_]; [congruence|]. exact (conj B1 (conj B2 (conj W1 W2))).
  - exists x, y. split; [assumption|]. split; [assumption|].
    destruct (N.eqb_spec x y) as [->|_]; [|exact (conj B1 (conj B2 (conj W1 W2)))].
    split; [|split; [|split]].
    + cbn [map fst]. now apply blanks_set.
    + cbn [map snd]. now apply blanks_set.
    + cbn [struck_bytes fst]. rewrite Hx. pose proof (weight_set i y n1 E1 X). lia.
    + cbn [struck_bytes fst]. rewrite Hx. pose proof (weight_set j y n2 E2 Y). lia.
Qed.
Lemma mra_pairs_struck : forall a b, b <> [] ->
  (forall c, In c a -> c <> 32) -> (forall c, In c b -> c <> 32) ->
  forall todo i n1 n2, (todo + i = length a)%nat -> (i <= length b)%nat -> inv a b (struck a b i) n1 n2 ->
  exists m1 m2, mra_pairs todo i n1 n2 = Ok (m1, m2)
   /\ inv a b (struck a b (Nat.min (length a) (length b))) m1 m2.
Proof.
  intros a b Nb Ha Hb. assert (P : (1 <= length b)%nat) by (destruct b; [congruence|cbn; lia]).
  induction todo as [|todo IH]; intros i n1 n2 L Lb I; cbn [mra_pairs].
  - exists n1, n2. split; [reflexivity|]. replace (Nat.min (length a) (length b)) with i by lia. assumption.
  - pose proof (proj1 (proj1 I)) as L1. pose proof (proj1 (proj1 (proj2 I))) as L2.
    destruct (Nat.ltb (length n2 - 1) i) eqn:E.
    + apply Nat.ltb_lt in E. exists n1, n2. split; [reflexivity|].
      replace (Nat.min (length a) (length b)) with i by lia. assumption.
    + apply Nat.ltb_ge in E.
      destruct (strike_step a b _ n1 n2 i i I) as (c1 & c2 & C1 & C2 & I'); [lia|lia|assumption..|].
      rewrite C1, C2. cbn [unwrap bind].
      assert (Tail : forall m1 m2, inv a b (strike a b (i, i) (struck a b i)) m1 m2 ->
        exists m3 m4,
        (d1 <- unwrap (nth_error m1 (length m1 - (i + 1))) ;;
         d2 <- unwrap (nth_error m2 (length m2 - (i + 1))) ;;
         let '(n4, n5) := if d1 =? d2 then (set_nth (length m1 - 1 - i) 32 m1, set_nth (length m2 - 1 - i) 32 m2)
                          else (m1, m2) in mra_pairs todo (S i) n4 n5) = Ok (m3, m4)
        /\ inv a b (struck a b (Nat.min (length a) (length b))) m3 m4).
      { intros m1 m2 J. pose proof (proj1 (proj1 J)) as M1. pose proof (proj1 (proj1 (proj2 J))) as M2.
        destruct (strike_step a b _ m1 m2 (length a - 1 - i) (length b - 1 - i) J) as (d1 & d2 & D1 & D2 & J');
          [lia|lia|assumption..|].
        rewrite M1, M2. replace (length a - (i + 1))%nat with (length a - 1 - i)%nat by lia.
        replace (length b - (i + 1))%nat with (length b - 1 - i)%nat by lia.
        rewrite D1, D2. cbn [unwrap bind]. change (strike a b _ (strike a b (i, i) (struck a b i)))
          with (struck a b (S i)) in J'.
        destruct (d1 =? d2); apply IH; (assumption || lia). }
      destruct (c1 =? c2); apply Tail; assumption.
Qed.
Lemma mra_rate_struck : forall p a b, a <> [] -> b <> [] -> (blen a <= 6)%nat -> (blen b <= 6)%nat ->
  ~ In 32 a -> ~ In 32 b -> mra_rate p a b = Ok (mra_rating a b).
Proof.
  intros p a b Na Nb La Lb Ha Hb.
  assert (Ha' : forall c, In c a -> c <> 32) by (intros c Hc ->; contradiction).
  assert (Hb' : forall c, In c b -> c <> 32) by (intros c Hc ->; contradiction).
  assert (I : inv a b (struck a b 0) a b).
  { cbn [struck]. unfold inv, blanks. cbn [map struck_bytes mem existsb]. unfold weight.
    rewrite !filter_id; [split; [|split; [|split; lia]]; (split; [reflexivity|reflexivity])|..];
      intros c Hc; apply negb_true_iff; apply N.eqb_neq; auto. }
  destruct (mra_pairs_struck a b Nb Ha' Hb' (length a) 0 a b ltac:(lia) ltac:(lia) I) as (m1 & m2 & E & J).
  destruct J as (_ & _ & W1 & W2).
  assert (C : mra_count m1 m2 = mra_rating a b).
  { unfold mra_rating. set (S := struck_bytes a _) in *. unfold mra_count.
    fold (weight m1). fold (weight m2). unfold abs_diff.
    destruct (Nat.ltb (weight m2) (weight m1)) eqn:L; [apply Nat.ltb_lt in L|apply Nat.ltb_ge in L]; lia. }
  destruct a as [|x a]; [congruence|]. destruct b as [|y b]; [congruence|]. unfold mra_rate.
  rewrite E. cbn [bind]. rewrite C. destruct p; reflexivity.
Qed.
