(** * C86: what is settled while a name is typed. *)
From Verif Require Import Base UnicodeM Lib Helper Soundex Cologne Metaphone Phonex MatchRating Nysiis DoubleMetaphone DoubleMetaphone_proofs
  BaseLemmas Spec_common Spec_rewrite Spec_soundex Spec_cologne Spec_metaphone Spec_mra Spec_doubled Spec_longer
  Rewrite_proofs Soundex_proofs UnicodeLemmas Cologne_proofs Metaphone_proofs Metaphone_spec_proofs
  Metaphone_doubled_proofs Metaphone_longer_proofs Spec_dm RulesParser DaitchMokotoff DmRules Dm_proofs Dm_longer_proofs Props_dm Props_soundex Props_metaphone Props_metaphone_spec Props_mra Props_doubled.
Local Open Scope N_scope.

(** ** Soundex and Refined Soundex: nothing is taken back *)
Lemma collapse_prefix : forall l m, exists t, collapse (l ++ m) = collapse l ++ t.
Proof.
  induction l as [|x l IH]; intros m; [now exists (collapse m)|].
  destruct (IH m) as [t Ht]. destruct l as [|y l].
  - cbn [app]. rewrite collapse_cons. now exists (tl (collapse (x :: m))).
  - change (collapse ((x :: y :: l) ++ m))
      with (if x =? y then collapse ((y :: l) ++ m) else x :: collapse ((y :: l) ++ m)).
    change (collapse (x :: y :: l)) with (if x =? y then collapse (y :: l) else x :: collapse (y :: l)).
    rewrite Ht. exists t. destruct (x =? y); reflexivity.
Qed.
Lemma collapse_not_nil : forall x l, collapse (x :: l) <> [].
Proof. intros x l. rewrite collapse_cons. discriminate. Qed.
Lemma ascii_letters_app : forall a b, ascii_letters (a ++ b) = ascii_letters a ++ ascii_letters b.
Proof. intros. unfold ascii_letters. now rewrite filter_app, map_app. Qed.
Theorem C86_soundex : forall u table special, length table = 26%nat ->
  settled_filled (# "0") (soundex_encode u (soundex_new table special)) (letters_are_ascii (is_alphabetic u)) 0.
Proof.
  intros u table special L a b H.
  assert (Ha : letters_are_ascii (is_alphabetic u) a) by (intros c Hc; apply H, in_or_app; now left).
  rewrite !C06_soundex_custom_table by assumption. rewrite ascii_letters_app. unfold soundex_code.
  destruct (ascii_letters a) as [|f q]; [exists [], [], (match [] ++ ascii_letters b with [] => [] | first :: others => first :: pad_to 3 (# "0") (soundex_digits (table_digit table) (table_transparent table special) first others) end), 0%nat; auto|].
  cbn [app].
  assert (P : exists t, soundex_digits (table_digit table) (table_transparent table special) f (q ++ ascii_letters b)
    = soundex_digits (table_digit table) (table_transparent table special) f q ++ t).
  { unfold soundex_digits. rewrite filter_app, map_app, app_comm_cons.
    destruct (collapse_prefix (table_digit table f :: map (table_digit table) (filter (fun c => negb (table_transparent table special c)) q))
       (map (table_digit table) (filter (fun c => negb (table_transparent table special c)) (ascii_letters b)))) as [t ->].
    destruct (collapse _) as [|y l] eqn:E; [now apply collapse_not_nil in E|]. cbn [app tl]. rewrite filter_app. eauto. }
  destruct P as [t ->]. set (d := soundex_digits _ _ f q). rewrite !pad_to_alt.
  exists (f :: firstn 3 d), [], (firstn (3 - length d) t ++ repeat (# "0") (3 - length (d ++ t))), (3 - length d)%nat.
  rewrite firstn_app. cbn [app]. rewrite <- app_assoc. auto.
Qed.
Theorem C86_refined : forall u table, length table = 26%nat ->
  settled (refined_encode u table) (letters_are_ascii (is_alphabetic u)) 0.
Proof.
  intros u table L a b H.
  assert (Ha : letters_are_ascii (is_alphabetic u) a) by (intros c Hc; apply H, in_or_app; now left).
  destruct (C11_refined_total_on_ascii_letters u table a L Ha) as [ra Ea].
  destruct (C11_refined_total_on_ascii_letters u table (a ++ b) L H) as [rab Eab].
  destruct (C57_refined_prefix u table a b ra rab L H Ea Eab) as [t ->].
  exists ra, [], t. rewrite app_nil_r. auto.
Qed.

(** ** Metaphone: at most two letters are taken back *)
Lemma cut_app : forall max p q, exists n, cut max (p ++ q) = cut max p ++ firstn n q.
Proof.
  intros [m|] p q; cbn [cut]; [rewrite firstn_app; eauto|]. exists (length q). now rewrite firstn_all.
Qed.
Theorem C86_metaphone : forall u max, settled (metaphone_encode u max) ascii_text 2.
Proof.
  intros u max a b H.
  assert (Ha : ascii_text a) by (intros c Hc; apply H, in_or_app; now left).
  destruct (C24_total_on_ascii u max a Ha) as [c1 E1]. destruct (C24_total_on_ascii u max (a ++ b) H) as [c2 E2].
  rewrite E1, E2.
  assert (SMALL : (length c1 <= 2)%nat -> exists kept given_up added, Ok c1 = Ok (kept ++ given_up) /\ Ok c2 = Ok (kept ++ added) /\ (length given_up <= 2)%nat).
  { intros S. now exists [], c1, c2. }
  apply C68_metaphone_is_its_definition in E1; [|exact Ha]. apply C68_metaphone_is_its_definition in E2; [|exact H].
  destruct E1 as [[L1 ->]|(L1 & t1 & f1 & S1 & R1 & ->)].
  { apply SMALL. rewrite L1. lia. }
  apply start_rewritten_iff in S1. rewrite <- mt_local_rw in S1. subst t1. rewrite map_length in L1.
  destruct a as [|x [|y a]]; [|now cbn in L1|].
  { apply SMALL. cbn in R1. apply (reads_end [] 0 f1) in R1; [subst; destruct max as [[|n]|]; cbn; lia|cbn; lia]. }
  set (w := x :: y :: a) in *.
  destruct E2 as [[L2 _]|(L2 & t2 & f2 & S2 & R2 & ->)]; [exfalso; rewrite map_length, app_length in L2; cbn in L2; lia|].
  apply start_rewritten_iff in S2. rewrite <- mt_local_rw, map_app, local_longer in S2 by (rewrite map_length; cbn; lia). subst t2.
  set (t := mt_local (map ascii_up w)) in *. set (t' := map ascii_up b) in *.
  destruct (reads_longer t t' (fun i => reads_total (t ++ t') (length (t ++ t')) i ltac:(lia)) 0 f1 R1 ltac:(lia)) as (p & q & q' & -> & R' & Q).
  rewrite (reads_unique _ _ _ R2 _ R').
  destruct (cut_app max p q) as [n ->]. destruct (cut_app max p q') as [n' ->].
  exists (cut max p), (firstn n q), (firstn n' q'). repeat split; try reflexivity. rewrite firstn_length. lia.
Qed.
Theorem C86_metaphone_iff : forall u n, settled (metaphone_encode u None) ascii_text n <-> (2 <= n)%nat.
Proof.
  intros u n. split.
  - intros H. destruct (H $ "DG" $ "E") as (p & q & q' & E1 & E2 & L).
    { apply ascii_lit. reflexivity. }
    vm_compute in E1. vm_compute in E2. injection E1 as E1. injection E2 as E2.
    destruct p as [|x p]; [cbn in E1; subst q; cbn in L; lia|]. cbn in E1, E2. injection E1 as <- _. discriminate E2.
  - intros L a b H. destruct (C86_metaphone u None a b H) as (p & q & q' & E1 & E2 & Q).
    exists p, q, q'. repeat split; auto. lia.
Qed.

(** ** Cologne: at most one digit is taken back *)
Lemma filter_prefix : forall (f : N -> bool) l m, filter f (l ++ m) = filter f l ++ filter f m.
Proof. intros. apply filter_app. Qed.
Lemma reduce_prefix : forall l m, exists t, cologne_reduce (l ++ m) = cologne_reduce l ++ t /\ (length (cologne_reduce (l ++ m)) <= length (cologne_reduce l) + length m)%nat.
Proof.
  intros l m. induction m as [|x m IH] using rev_ind.
  - exists []. rewrite !app_nil_r. split; [reflexivity|cbn; lia].
  - destruct IH as (t & E & L). rewrite app_assoc, reduce_snoc. rewrite app_length. cbn [length].
    match goal with |- context[if ?e then _ else _] => destruct e end; rewrite E in *.
    all: try (exists t; split; [reflexivity|lia]).
    all: exists (t ++ [x]); split; [now rewrite app_assoc|rewrite app_length; cbn; lia].
Qed.
Lemma codes_last : forall text before, cologne_codes before text = codes_with_next before text None.
Proof. intros text before. rewrite <- (app_nil_r text) at 1. rewrite codes_split. cbn. now rewrite app_nil_r. Qed.
Lemma next_matters : forall onset prev c n1 n2, ~ In c $ "CDPT" -> cologne_table onset prev n1 c = cologne_table onset prev n2 c.
Proof.
  intros onset prev c n1 n2 H. unfold cologne_table.
  assert (D : (c =? # "C") = false /\ (c =? # "D") = false /\ (c =? # "P") = false /\ (c =? # "T") = false).
  { rewrite !N.eqb_neq. cbn in H. intuition congruence. }
  destruct D as (D1 & D2 & D3 & D4). cbn [isin existsb]. rewrite D1, D2, D3, D4. reflexivity.
Qed.
Lemma table_one : forall onset prev next c, In c $ "CDPT" -> exists d, cologne_table onset prev next c = [d].
Proof.
  intros onset prev next c H. cbn in H. destruct H as [<-|[<-|[<-|[<-|[]]]]]; unfold cologne_table; cbv [isin existsb N.eqb Pos.eqb orb];
  repeat match goal with |- context[if ?e then _ else _] => destruct e end; eauto.
Qed.
Lemma with_next_snoc : forall a before c,
  exists w onset prev, forall next, codes_with_next before (a ++ [c]) next
    = w ++ (if isin c $ "ABCDEFGHIJKLMNOPQRSTUVWXYZ" then cologne_table onset prev next c else []).
Proof.
  induction a as [|x a IH]; intros before c.
  - exists [], (forallb (fun l => l =? # "H") before), (hd_error before). intros n. cbn [app codes_with_next].
    destruct (isin c _); [now rewrite app_nil_r|reflexivity].
  - cbn [app codes_with_next]. destruct (isin x _) eqn:X.
    + destruct (IH (x :: before) c) as (w & o & p & E).
      exists (cologne_table (forallb (fun l => l =? # "H") before) (hd_error before) (hd_error (a ++ [c])) x ++ w), o, p.
      intros n. rewrite (E n), app_assoc. do 2 f_equal. now destruct a.
    + destruct (IH before c) as (w & o & p & E). exists w, o, p. exact E.
Qed.
Theorem C86_cologne : forall u, settled (cologne_encode u) any_text 1.
Proof.
  intros u a b _. rewrite !encode_spec. rewrite str_upper_app. unfold cologne_code. rewrite map_app.
  set (A := map umlaut_base (str_upper u a)). set (B := map umlaut_base (str_upper u b)).
  rewrite codes_split, codes_last. destruct A as [|c A' _] using rev_ind.
  { cbn. exists [], [], (cologne_reduce (cologne_codes [] B)). auto. }
  destruct (with_next_snoc A' [] c) as (w & o & p & E). rewrite !E.
  set (z := cologne_codes _ B).
  destruct (isin c _).
  - destruct (isin c $ "CDPT") eqn:C.
    + apply isin_In in C. destruct (table_one o p None c C) as [d ->]. destruct (table_one o p (hd_error B) c C) as [d' ->].
      destruct (reduce_prefix w [d]) as (t & E1 & L). destruct (reduce_prefix w ([d'] ++ z)) as (t' & E2 & _).
      rewrite <- app_assoc, E1, E2. exists (cologne_reduce w), t, t'. repeat split. rewrite E1, app_length in L. cbn [length] in L. lia.
    + rewrite (next_matters o p c None (hd_error B)) by (now apply isin_false).
      destruct (reduce_prefix (w ++ cologne_table o p (hd_error B) c) z) as (t' & E2 & _). rewrite E2.
      exists (cologne_reduce (w ++ cologne_table o p (hd_error B) c)), [], t'. rewrite app_nil_r. auto.
  - rewrite !app_nil_r. destruct (reduce_prefix w z) as (t' & E2 & _). rewrite E2.
    exists (cologne_reduce w), [], t'. rewrite app_nil_r. auto.
Qed.
Theorem C86_cologne_iff : forall u n, settled (cologne_encode u) any_text n <-> (1 <= n)%nat.
Proof.
  intros u n. split.
  - intros H. destruct (H $ "P" $ "H" I) as (p & q & q' & E1 & E2 & L).
    vm_compute in E1. vm_compute in E2. injection E1 as E1. injection E2 as E2.
    destruct p as [|x p]; [cbn in E1; subst q; cbn in L; lia|]. cbn in E1, E2. injection E1 as <- _. discriminate E2.
  - intros L a b H. destruct (C86_cologne u a b H) as (p & q & q' & E1 & E2 & Q).
    exists p, q, q'. repeat split; auto. lia.
Qed.
(** Which letters, at the end of what has been typed, leave the code open. *)
Theorem C86_cologne_letters : forall u c, In c AZ -> (settled_after (cologne_encode u) any_text c <-> ~ In c $ "CDPT").
Proof.
  intros u c Hc. split.
  - intros H K.
    assert (W : exists b a, In (c, a, b) [(# "C", $ "", $ "A"); (# "D", $ "", $ "S"); (# "P", $ "", $ "H"); (# "T", $ "", $ "S")]).
    { cbn in K. destruct K as [<-|[<-|[<-|[<-|[]]]]]; do 2 eexists; cbn; eauto 6. }
    destruct W as (b & a & W). destruct (H a b I) as (code & added & E1 & E2).
    cbn in W. destruct W as [W|[W|[W|[W|[]]]]]; injection W as <- <- <-; vm_compute in E1; vm_compute in E2;
      injection E1 as <-; discriminate E2.
  - intros K a b _. rewrite !encode_spec. change (c :: b) with ([c] ++ b). rewrite app_assoc, (str_upper_app u (a ++ [c]) b). unfold cologne_code. rewrite (map_app umlaut_base (str_upper u (a ++ [c]))).
    assert (U : map umlaut_base (str_upper u (a ++ [c])) = map umlaut_base (str_upper u a) ++ [c]).
    { rewrite str_upper_app, map_app. f_equal. clear - Hc. cbn in Hc. repeat (destruct Hc as [<-|Hc]; [reflexivity|]). destruct Hc. }
    rewrite U, (codes_last (_ ++ [c])), codes_split. destruct (with_next_snoc (map umlaut_base (str_upper u a)) [] c) as (w & o & p & E). rewrite !E.
    match goal with |- context[_ ++ cologne_codes ?x ?y] => set (z := cologne_codes x y) end.
    destruct (isin c _).
    + rewrite (next_matters o p c None (hd_error (map umlaut_base (str_upper u b)))) by assumption.
      destruct (reduce_prefix (w ++ cologne_table o p (hd_error (map umlaut_base (str_upper u b))) c) z) as (t' & E2 & _). rewrite E2. eauto.
    + rewrite !app_nil_r. destruct (reduce_prefix w z) as (t' & E2 & _). rewrite E2. eauto.
Qed.

(** ** Phonex: at most one character is taken back *)
Lemma drop_leading_app : forall x y, drop_leading_S (x ++ y) = match drop_leading_S x with [] => drop_leading_S y | z => z ++ y end.
Proof.
  induction x as [|c x IH]; intros y; [reflexivity|]. cbn [app drop_leading_S]. destruct (c =? # "S"); [apply IH|reflexivity].
Qed.
Lemma drop_trailing_app : forall a b, exists t, drop_trailing_S (a ++ b) = drop_trailing_S a ++ t.
Proof.
  intros a b. unfold drop_trailing_S. rewrite rev_app_distr, drop_leading_app.
  destruct (drop_leading_S (rev b)) as [|z l]; [exists []; now rewrite app_nil_r|].
  assert (K : forall x, exists k, x = k ++ drop_leading_S x).
  { induction x as [|c x [k IH]]; [now exists []|]. cbn [drop_leading_S]. destruct (c =? # "S"); [|now exists []].
    exists (c :: k). cbn [app]. now f_equal. }
  rewrite rev_app_distr. destruct (K (rev a)) as [k Ek]. exists (rev k ++ rev (z :: l)). rewrite app_assoc. f_equal.
  rewrite <- rev_app_distr, <- Ek, rev_involutive. reflexivity.
Qed.
Lemma px_step_result : forall i c next st, exists t, px_result (fst (px_step i c next st)) = t ++ px_result st /\ (next = None -> (length t <= 1)%nat).
Proof.
  intros i c next st. unfold px_step.
  destruct (px_transcode c next _) as [nc skip] eqn:T. cbn [fst px_result].
  assert (SK : next = None -> skip = false).
  { intros ->. unfold px_transcode in T. cbn [opt_is px_is_vowel isin_opt orb] in T.
    repeat match type of T with (if ?e then _ else _) = _ => destruct e end; now injection T. }
  destruct (Nat.eqb_spec i 0) as [->|I].
  - match goal with |- context[if ?e then _ else _] => destruct e eqn:P end.
    + destruct skip; [|cbn in P; now rewrite andb_false_r in P]. match goal with |- exists t, ?x :: ?y :: _ = _ /\ _ => exists [x; y] end.
      split; [reflexivity|]. intros Q. discriminate (SK Q).
    + exists [c]. split; [reflexivity|intros _; cbn; lia].
  - match goal with |- context[if ?e then _ else _] => destruct e eqn:P end.
    + match goal with |- exists t, ?x :: _ = _ /\ _ => exists [x] end. split; [reflexivity|intros _; cbn; lia].
    + exists []. split; [reflexivity|intros _; cbn; lia].
Qed.
Lemma px_loop_grows : forall max n r i st, (length r <= n)%nat -> exists t, px_result (px_loop max i r st) = t ++ px_result st.
Proof.
  intros max n. induction n as [|n IH]; intros r i st L; (destruct r as [|c r]; [now exists []|]); cbn [length] in L; [lia|].
  rewrite px_unfold. destruct (Nat.eqb _ _); [now exists []|].
  destruct (px_step_result i c (hd_error r) st) as (t & E & _). destruct (px_step i c (hd_error r) st) as [st' skip]. cbn [fst] in E.
  destruct r as [|y r]; [now exists t|]. destruct skip.
  - destruct (IH r (S (S i)) st') as [t' E']; [cbn in L; lia|]. rewrite E', E. exists (t' ++ t). now rewrite app_assoc.
  - destruct (IH (y :: r) (S i) st') as [t' E']; [cbn in *; lia|]. rewrite E', E. exists (t' ++ t). now rewrite app_assoc.
Qed.
Lemma px_loop_longer : forall max b n a i st, (length a <= n)%nat -> exists r q q',
  px_result (px_loop max i a st) = q ++ r /\ px_result (px_loop max i (a ++ b) st) = q' ++ r /\ (length q <= 1)%nat.
Proof.
  intros max b n. induction n as [|n IH]; intros a i st L.
  all: (destruct a as [|c a]; [destruct (px_loop_grows max (length b) b i st) as [t E]; [lia|]; exists (px_result st), [], t; cbn; auto|]).
  all: cbn [length] in L; try lia. cbn [app].
  destruct a as [|y a].
  - cbn [app]. destruct (px_loop_grows max (length (c :: b)) (c :: b) i st) as [t E]; [lia|].
    rewrite E. rewrite px_unfold. destruct (Nat.eqb _ _); [exists (px_result st), [], t; cbn; auto|]. cbn [hd_error].
    destruct (px_step_result i c None st) as (t' & E' & L'). destruct (px_step i c None st) as [st' sk]. cbn [fst] in E'.
    exists (px_result st), t', t. auto.
  - cbn [app]. rewrite !px_unfold. destruct (Nat.eqb _ _); [exists (px_result st), [], []; cbn; auto|]. cbn [hd_error].
    destruct (px_step i c (Some y) st) as [st' sk]. cbn [length] in L. destruct sk.
    + apply IH. lia.
    + apply (IH (y :: a)). cbn. lia.
Qed.
Lemma px_pre_longer : forall x y r b, px_first (px_drop_H (px_pairs ((x :: y :: r) ++ b))) = px_first (px_drop_H (px_pairs (x :: y :: r))) ++ b.
Proof.
  intros x y r b. cbn [app]. unfold px_pairs.
  assert (K : forall x' y' r', px_first (px_drop_H ((x' :: y' :: r') ++ b)) = px_first (px_drop_H (x' :: y' :: r')) ++ b).
  { intros x' y' r'. cbn [app]. unfold px_drop_H. destruct (x' =? # "H"); unfold px_first;
    repeat match goal with |- context[if ?e then _ else _] => destruct e end; reflexivity. }
  repeat match goal with |- context[if ?e then _ else _] => destruct e; [apply K|] end. apply K.
Qed.
Theorem C86_phonex : forall u max, settled_filled (# "0") (phonex_encode u max) any_text 1.
Proof.
  intros u max a b _. unfold phonex_encode, px_preprocess. rewrite clean_app.
  destruct (drop_trailing_app (soundex_clean u a) (soundex_clean u b)) as [t ->].
  set (A := drop_trailing_S (soundex_clean u a)). set (init := {| px_result := []; px_code := _; px_last := _; px_last_push := _ |}).
  assert (ONE : forall w, (length w <= 1)%nat -> (length (px_result (px_loop max 0 w init)) <= 1)%nat).
  { intros [|c [|y w]] L; [cbn; lia| |cbn in L; lia]. rewrite px_unfold. destruct (Nat.eqb _ _); [cbn; lia|]. cbn [hd_error].
    destruct (px_step_result 0 c None init) as (t' & E' & L'). destruct (px_step 0 c None init) as [st' sk]. cbn [fst] in E'.
    rewrite E'. cbn [px_result init]. rewrite app_nil_r. auto. }
  assert (CASES : (length (px_first (px_drop_H (px_pairs A))) <= 1)%nat \/
    px_first (px_drop_H (px_pairs (A ++ t))) = px_first (px_drop_H (px_pairs A)) ++ t).
  { destruct A as [|x [|y r]]; [left; cbn; lia| |right; apply px_pre_longer].
    left. cbn [px_pairs]. unfold px_drop_H. destruct (x =? # "H"); [cbn; lia|]. unfold px_first.
    repeat match goal with |- context[if ?e then _ else _] => destruct e; [cbn; lia|] end. cbn. lia. }
  cbv zeta. destruct CASES as [S|E].
  - pose proof (ONE _ S) as O. set (R := px_result (px_loop max 0 (px_first (px_drop_H (px_pairs A))) init)) in *.
    eexists [], (rev R), _, _. split; [cbn [app]; reflexivity|]. split; [reflexivity|]. now rewrite rev_length.
  - rewrite E. set (w := px_first (px_drop_H (px_pairs A))).
    destruct (px_loop_longer max t (length w) w 0 init ltac:(lia)) as (r & q & q' & E1 & E2 & L). rewrite E1, E2, !rev_app_distr.
    eexists (rev r), (rev q), _, _. rewrite <- !app_assoc. split; [reflexivity|]. split; [reflexivity|]. now rewrite rev_length.
Qed.
Theorem C86_phonex_iff : forall u max n, (1 <= max)%nat -> (settled_filled (# "0") (phonex_encode u max) any_text n <-> (1 <= n)%nat).
Proof.
  intros u max n M. split.
  - intros H. destruct (H $ "K" $ "N" I) as (p & q & q' & k & E1 & E2 & L).
    destruct max as [|max]; [lia|].
    assert (F1 : exists r, phonex_encode u (S max) $ "K" = Ok (# "C" :: r)) by (eexists; reflexivity).
    assert (F2 : exists r, phonex_encode u (S max) $ "KN" = Ok (# "N" :: r)).
    { unfold phonex_encode. cbv zeta.
      destruct (px_loop_grows (S max) 1 $ "N" 1 {| px_result := $ "N"; px_code := # "5"; px_last := # "5"; px_last_push := # "N" |}) as [t E]; [cbn; lia|].
      eexists. change (px_loop (S max) 0 _ _) with (px_loop (S max) 1 $ "N" {| px_result := $ "N"; px_code := # "5"; px_last := # "5"; px_last_push := # "N" |}).
      rewrite E. rewrite rev_app_distr. reflexivity. }
    destruct F1 as [r1 F1]. destruct F2 as [r2 F2]. rewrite F1 in E1. change ($ "K" ++ $ "N") with $ "KN" in E2. rewrite F2 in E2.
    injection E1 as E1. injection E2 as E2.
    destruct p as [|x p]; [|cbn in E1, E2; congruence]. destruct q as [|x q]; [|cbn in L; lia].
    cbn in E1. destruct k; cbn in E1; [discriminate E1|]. discriminate E1.
  - intros L a b H. destruct (C86_phonex u max a b H) as (p & q & q' & k & E1 & E2 & Q).
    exists p, q, q', k. repeat split; auto. lia.
Qed.

(** ** Match Rating Approach: at most three letters are taken back *)
Lemma halve_prefix : forall f n l m, (length l <= n)%nat -> exists t, halve_runs f (l ++ m) = halve_runs f l ++ t.
Proof.
  intros f n. induction n as [|n IH]; intros l m L; (destruct l as [|x l]; [now eexists|]); cbn [length] in L; [lia|].
  destruct l as [|y l].
  - cbn [app]. destruct m as [|y m]; [now exists []|]. cbn [halve_runs]. destruct (_ && _); now eexists.
  - cbn [length] in L. cbn [app].
    change (halve_runs f (x :: y :: l ++ m)) with (if (x =? y) && f x then x :: halve_runs f (l ++ m) else x :: halve_runs f ((y :: l) ++ m)).
    change (halve_runs f (x :: y :: l)) with (if (x =? y) && f x then x :: halve_runs f l else x :: halve_runs f (y :: l)).
    destruct (_ && _).
    + destruct (IH l m) as [t ->]; [lia|]. now exists t.
    + destruct (IH (y :: l) m) as [t E]; [cbn; lia|]. rewrite E. now exists t.
Qed.
Lemma trim_start_app : forall u x y, trim_start u (x ++ y) = match trim_start u x with [] => trim_start u y | z => z ++ y end.
Proof.
  intros u. induction x as [|c x IH]; intros y; [reflexivity|]. cbn [app trim_start]. destruct (is_whitespace u c); [apply IH|reflexivity].
Qed.
Lemma trim_start_app_len : forall u x y, (length (trim_start u y) <= length (trim_start u (x ++ y)))%nat.
Proof.
  intros u x y. rewrite trim_start_app. destruct (trim_start u x); [lia|]. rewrite app_length.
  enough (length (trim_start u y) <= length y)%nat by lia. clear. induction y as [|c y IH]; [cbn; lia|]. cbn [trim_start length].
  destruct (is_whitespace u c); cbn; lia.
Qed.
Lemma trim_longer : forall u a b, (length (trim u a) <= length (trim u (a ++ b)))%nat.
Proof.
  intros u a b. unfold trim. rewrite !rev_length. rewrite (trim_start_app u a b). destruct (trim_start u a) as [|z l]; [cbn; lia|].
  rewrite rev_app_distr. apply trim_start_app_len.
Qed.
Definition mra_core (s : ustr) : ustr :=
  halve_runs upper_consonant (drop_inner_vowels (filter (fun c => negb (mra_noise c)) (map ascii_up s))).
Lemma mra_core_prefix : forall a b, exists t, mra_core (a ++ b) = mra_core a ++ t.
Proof.
  intros a b. unfold mra_core. rewrite map_app, filter_app.
  destruct (filter _ (map ascii_up a)) as [|x l]; [now eexists|]. cbn [app drop_inner_vowels]. rewrite filter_app, app_comm_cons.
  eapply halve_prefix. reflexivity.
Qed.
Theorem C86_mra : forall u, settled (mra_encode u) ascii_text 3.
Proof.
  intros u a b H. assert (Ha : ascii_text a) by (intros c Hc; apply H, in_or_app; now left).
  rewrite !C29_code by assumption. pose proof (trim_longer u a b) as T.
  destruct (Nat.leb_spec (length (trim u a)) 1) as [La|La]; [eexists [], [], _; cbn; repeat split; lia|].
  replace (Nat.leb (length (trim u (a ++ b))) 1) with false by (symmetry; apply Nat.leb_gt; lia).
  unfold mra_code. fold (mra_core a). fold (mra_core (a ++ b)). destruct (mra_core_prefix a b) as [t ->].
  set (c := mra_core a). unfold first3_last3. rewrite app_length.
  destruct (Nat.ltb_spec 6 (length c)) as [C|C].
  - replace (Nat.ltb 6 (length c + length t)) with true by (symmetry; apply Nat.ltb_lt; lia).
    eexists (firstn 3 c), (skipn (length c - 3) c), _. split; [reflexivity|]. split.
    + rewrite firstn_app. replace (3 - length c)%nat with 0%nat by lia. cbn [firstn]. rewrite app_nil_r. reflexivity.
    + rewrite skipn_length. lia.
  - destruct (Nat.ltb_spec 6 (length c + length t)) as [D|D].
    + eexists (firstn 3 c), (skipn 3 c), _. split; [now rewrite firstn_skipn|]. split.
      * rewrite firstn_app, <- app_assoc. reflexivity.
      * rewrite skipn_length. lia.
    + exists c, [], t. rewrite app_nil_r. cbn. repeat split; lia.
Qed.
Theorem C86_mra_iff : forall u n, settled (mra_encode u) ascii_text n <-> (3 <= n)%nat.
Proof.
  intros u n. split.
  - intros H. destruct (H $ "BCDFGH" $ "J") as (p & q & q' & E1 & E2 & L).
    { apply ascii_lit. reflexivity. }
    vm_compute in E1. vm_compute in E2. injection E1 as E1. injection E2 as E2.
    destruct p as [|x1 [|x2 [|x3 [|x4 p]]]]; cbn [app] in E1, E2.
    1: subst q; cbn in L; lia.
    1-3: injection E1 as _; repeat (match goal with K : _ :: _ = _ |- _ => injection K as _ end); subst q; cbn in L; lia.
    exfalso. congruence.
  - intros L a b H. destruct (C86_mra u a b H) as (p & q & q' & E1 & E2 & Q).
    exists p, q, q'. repeat split; auto. lia.
Qed.

(** ** Double Metaphone: there is no such bound *)
Lemma char_at_place : forall v i t, (i < blen v)%nat -> slice_from i v = Ok t -> char_at v (Z.of_nat i) = Ok (hd_error t).
Proof.
  intros v i t L E. unfold char_at, len. replace ((0 <=? Z.of_nat i)%Z && (Z.of_nat i <? Z.of_nat (blen v))%Z) with true.
  - now rewrite Nat2Z.id, E.
  - symmetry. apply andb_true_iff. split; [apply Z.leb_le|apply Z.ltb_lt]; lia.
Qed.
Definition cedillas (n : nat) : ustr := repeat (# "Ç") n.
Lemma cedilla_loop : forall v sg n i p a rest, dm_loop v None sg 0 (char_indices_from i (cedillas n) ++ rest) (dm_of p a)
  = dm_loop v None sg 0 rest (dm_of (p ++ repeat (# "S") n) (a ++ repeat (# "S") n)).
Proof.
  intros v sg n. induction n as [|n IH]; intros i p a rest; [cbn; now rewrite !app_nil_r|].
  cbn [cedillas repeat char_indices_from app dm_loop dm_is_complete]. fold (cedillas n).
  change (dm_char v sg (Z.of_nat i) (# "Ç")) with (done (ac (# "S")) 0). cbn [bind done ac dm_apply dm_apply1 dm_push opt_or dm_primary dm_alternate dm_of].
  change {| dm_primary := p ++ [# "S"]; dm_alternate := a ++ [# "S"] |} with (dm_of (p ++ [# "S"]) (a ++ [# "S"])).
  rewrite IH, <- !app_assoc. reflexivity.
Qed.
(** The loop from the third letter on. *)
Lemma qgn_loop : forall sg rest, let v := $ "QGNÇ" ++ rest in
  dm_loop v None sg 0 (char_indices v) (dm_of [] [])
  = dm_loop v None sg 0 (char_indices_from 3 ($ "Ç" ++ rest)) (if sg then dm_of $ "KKN" $ "KKN" else dm_of $ "KN" $ "KKN").
Proof.
  intros sg rest v.
  assert (C0 : char_at v 0 = Ok (Some (# "Q"))) by (apply (char_at_place v 0 v); [cbn; lia|reflexivity]).
  assert (C1 : char_at v 1 = Ok (Some (# "G"))) by (apply (char_at_place v 1 ($ "GNÇ" ++ rest)); [cbn; lia|reflexivity]).
  assert (C2 : char_at v 2 = Ok (Some (# "N"))) by (apply (char_at_place v 2 ($ "NÇ" ++ rest)); [cbn; lia|reflexivity]).
  assert (K3 : contains v 3 2 [$ "EY"] = Ok false).
  { unfold contains. change (3 <? 0)%Z with false. cbv iota zeta. change (Z.to_nat 3) with 3%nat.
    destruct (Nat.leb_spec (3 + 2) (blen v)) as [_|W]; [|exfalso; cbn in W; lia].
    assert (SL : slice 3 (3 + 2) v = Ok $ "Ç") by (unfold v; destruct rest; reflexivity). rewrite SL. reflexivity. }
  change (char_indices v) with ((0%nat, # "Q") :: (1%nat, # "G") :: (2%nat, # "N") :: char_indices_from 3 ($ "Ç" ++ rest)).
  generalize (char_indices_from 3 ($ "Ç" ++ rest)). intros items.
  assert (Q : dm_char v sg 0 (# "Q") = Ok (ac (# "K"), 0%nat)).
  { change (dm_char v sg 0 (# "Q")) with (then_skip_if (ac (# "K")) (at_is v 1 (# "Q"))). unfold at_is. rewrite C1. reflexivity. }
  assert (G : dm_char v sg 1 (# "G") = Ok (if sg then astr $ "KN" else astr2 $ "N" $ "KN", 1%nat)).
  { change (dm_char v sg 1 (# "G")) with (handle_g v sg 1). unfold handle_g, at_is, at_vowel. cbn [Z.add Pos.add Pos.succ].
    rewrite C2, C0. cbn [bind opt_is N.eqb Pos.eqb]. change (1 + 2)%Z with 3%Z. rewrite K3. destruct sg; reflexivity. }
  cbn [dm_loop dm_is_complete]. change (Z.of_nat 0) with 0%Z. change (Z.of_nat 1) with 1%Z. rewrite Q. cbn [bind].
  destruct sg; cbn [dm_apply dm_apply1 ac dm_push opt_or bind dm_loop dm_is_complete dm_of dm_primary dm_alternate app]; rewrite G; reflexivity.
Qed.
Lemma cedillas_upper : forall u n t, str_upper u (cedillas n ++ t) = cedillas n ++ str_upper u t.
Proof.
  intros u n t. induction n as [|n IH]; [reflexivity|]. cbn [cedillas repeat app]. fold (cedillas n). unfold str_upper in *. cbn [flat_map].
  change (to_upper u (# "Ç")) with [# "Ç"]. now rewrite IH.
Qed.
Lemma cedillas_rev : forall n, rev (cedillas n) = cedillas n.
Proof.
  induction n as [|n IH]; [reflexivity|]. cbn [cedillas repeat rev]. fold (cedillas n). rewrite IH. clear.
  induction n as [|n IH]; [reflexivity|]. cbn [cedillas repeat app]. fold (cedillas n). now rewrite IH.
Qed.
Lemma trim_same : forall u x y m, is_whitespace u x = false -> is_whitespace u y = false -> trim u (x :: m ++ [y]) = x :: m ++ [y].
Proof.
  intros u x y m X Y. unfold trim. cbn [trim_start]. rewrite X. rewrite app_comm_cons, rev_app_distr. cbn [rev app trim_start]. rewrite Y.
  cbn [rev]. now rewrite rev_app_distr, rev_involutive.
Qed.
Lemma cedillas_plain : forall n, is_slavo_germanic ($ "QGN" ++ cedillas n) = false.
Proof.
  intros n. unfold is_slavo_germanic. rewrite existsb_app.
  assert (E1 : existsb (fun c => (c =? # "W") || (c =? # "K")) (cedillas n) = false) by (induction n; [reflexivity|assumption]).
  assert (E2 : forall x w, (x =? # "Ç") = false -> contains_str (cedillas n) (x :: w) = false).
  { intros x w X. induction n as [|n IH]; [reflexivity|]. cbn [cedillas repeat]. fold (cedillas n). cbn [contains_str]. rewrite IH.
    - rewrite orb_false_r. cbn [starts_with strip_prefix]. unfold starts_with. cbn [strip_prefix]. now rewrite X.
    - induction n; [reflexivity|]. exact E1. }
  rewrite E1. change (contains_str ($ "QGN" ++ cedillas n)) with (contains_str (# "Q" :: # "G" :: # "N" :: cedillas n)).
  cbn [contains_str]. rewrite !E2 by reflexivity. reflexivity.
Qed.
Theorem C86_double_metaphone_refuted : forall u n, ~ settled (dm_encode u None) any_text n.
Proof.
  intros u n H. set (a := $ "QGN" ++ cedillas (S n)). destruct (H a $ "K" I) as (p & q & q' & E1 & E2 & L).
  assert (T1 : trim u a = a).
  { unfold a. rewrite <- cedillas_rev. cbn [cedillas repeat rev]. fold (cedillas n). rewrite app_assoc. now apply trim_same. }
  assert (T2 : trim u (a ++ $ "K") = a ++ $ "K") by (now apply trim_same).
  assert (U1 : str_upper u a = a).
  { unfold a. change (str_upper u ($ "QGN" ++ cedillas (S n))) with ($ "QGN" ++ str_upper u (cedillas (S n))). f_equal.
    rewrite <- (app_nil_r (cedillas (S n))) at 1. rewrite cedillas_upper. apply app_nil_r. }
  assert (U2 : str_upper u (a ++ $ "K") = a ++ $ "K") by (rewrite str_upper_app, U1; reflexivity).
  assert (P1 : is_slavo_germanic a = false) by apply cedillas_plain.
  assert (P2 : is_slavo_germanic (a ++ $ "K") = true).
  { unfold is_slavo_germanic. rewrite existsb_app. cbn [existsb N.eqb Pos.eqb orb]. now rewrite orb_true_r. }
  unfold dm_encode, double_metaphone in E1, E2. cbv zeta in E1, E2. rewrite T1, U1, P1 in E1. rewrite T2, U2, P2 in E2.
  change (existsb (starts_with a) SILENT_START) with false in E1. change (existsb (starts_with (a ++ $ "K")) SILENT_START) with false in E2.
  change (match a with [] => _ | _ :: _ => ?y end) with y in E1.
  cbn [app] in E2. 
  assert (W1 : dm_loop a None false 0 (char_indices a) (dm_of [] []) = Ok (dm_of ($ "KN" ++ repeat (# "S") (S n)) ($ "KKN" ++ repeat (# "S") (S n)))).
  { change a with ($ "QGNÇ" ++ cedillas n). rewrite qgn_loop. change ($ "Ç" ++ cedillas n) with (cedillas (S n)).
    rewrite <- (app_nil_r (char_indices_from 3 (cedillas (S n)))). now rewrite cedilla_loop. }
  assert (W2 : forall r, dm_loop (a ++ $ "K") None true 0 (char_indices (a ++ $ "K")) (dm_of [] []) = Ok r -> exists t, dm_primary r = $ "KKN" ++ t).
  { intros r R. change (a ++ $ "K") with ($ "QGNÇ" ++ (cedillas n ++ $ "K")) in R. rewrite qgn_loop in R.
    apply dm_loop_none_extends in R as (p' & a' & ->). now exists p'. }
  change {| dm_primary := []; dm_alternate := [] |} with (dm_of [] []) in *.
  change (rmap dm_primary (dm_loop a None false 0 (char_indices a) (dm_of [] [])) = Ok (p ++ q)) in E1. rewrite W1 in E1.
  change (rmap dm_primary (dm_loop (a ++ $ "K") None true 0 (char_indices (a ++ $ "K")) (dm_of [] [])) = Ok (p ++ q')) in E2.
  destruct (dm_loop (a ++ $ "K") None true 0 (char_indices (a ++ $ "K")) (dm_of [] [])) as [r| |] eqn:R; try discriminate E2.
  destruct (W2 r eq_refl) as [t F]. cbn [rmap bind] in E2. injection E2 as E2. rewrite F in E2. injection E1 as E1.
  destruct p as [|x1 [|x2 p]]; cbn [app] in E1, E2.
  - subst q. cbn in L. rewrite repeat_length in L. lia.
  - injection E1 as _ E1. subst q. cbn in L. rewrite repeat_length in L. lia.
  - congruence.
Qed.
(** At the default length three of the four characters may be taken back. *)
Theorem C86_double_metaphone_default : forall u, ~ settled (dm_encode u (Some 4%nat)) ascii_text 2.
Proof.
  intros u H. destruct (H $ "QGNFTR" $ "W") as (p & q & q' & E1 & E2 & L).
  { apply ascii_lit. reflexivity. }
  vm_compute in E1. vm_compute in E2. injection E1 as E1. injection E2 as E2.
  destruct p as [|x1 [|x2 p]]; cbn [app] in E1, E2.
  - subst q. cbn in L. lia.
  - injection E1 as _ E1. subst q. cbn in L. lia.
  - congruence.
Qed.

(** ** Daitch-Mokotoff with the rules of the crate: at most three digits are taken back *)
Theorem C86_daitch_mokotoff : forall u, settled_filled (# "0") (dms_encode u dms_default) any_text 3.
Proof.
  intros u a b _. destruct C35_default as (items & BF & _). destruct (built_chars _ _ _ _ BF) as [C T].
  assert (TOT : forall s, exists r, dms_loop dms_default false 0 0 [branch_default] s = Ok r).
  { intros s. destruct (dms_loop_total _ (fun c (H : c < 128 /\ c <> # "|" /\ in_replacement items c) => proj1 H) dms_default false C T s 0 0 [branch_default])
      as (r & E & _); [constructor; [apply branch_ok_default|constructor]|discriminate|now exists r]. }
  assert (FC : fine_check dms_default 3 = true) by (vm_compute; reflexivity).
  unfold dms_encode, inner_soundex. rewrite source_app.
  destruct (TOT (dms_source u dms_default a)) as [r1 E1]. destruct (TOT (dms_source u dms_default a ++ dms_source u dms_default b)) as [r2 E2].
  rewrite E1, E2. destruct (loop_longer dms_default 3 (fine_check_ok dms_default 3 FC) _ _ _ _ _ _ _ E1 E2) as (b1 & b2 & p & q & q' & -> & -> & B1 & B2 & L).
  cbn [bind map]. unfold br_finish. rewrite B1, B2. eexists p, q, _, _. rewrite <- !app_assoc. split; [reflexivity|]. split; [reflexivity|exact L].
Qed.
Theorem C86_daitch_mokotoff_iff : forall u n, settled_filled (# "0") (dms_encode u dms_default) any_text n <-> (3 <= n)%nat.
Proof.
  intros u n. split.
  - intros H. destruct (H $ "ZHSTR" $ "Z" I) as (p & q & q' & k & E1 & E2 & L).
    assert (V1 : dms_encode u dms_default $ "ZHSTR" = Ok $ "443900") by (vm_compute; reflexivity).
    assert (V2 : dms_encode u dms_default ($ "ZHSTR" ++ $ "Z") = Ok $ "400000") by (vm_compute; reflexivity).
    rewrite V1 in E1. rewrite V2 in E2. injection E1 as E1. injection E2 as E2.
    destruct p as [|x1 [|x2 p]]; cbn [app] in E1, E2; [..|congruence].
    + destruct q as [|y1 [|y2 [|y3 q]]]; cbn [app] in E1; [..|cbn in L; lia].
      * destruct k; cbn in E1; congruence.
      * destruct k; cbn in E1; congruence.
      * destruct k; cbn in E1; congruence.
    + destruct q as [|y1 [|y2 [|y3 q]]]; cbn [app] in E1; [..|cbn in L; lia].
      * destruct k; cbn in E1; congruence.
      * destruct k; cbn in E1; congruence.
      * destruct k; cbn in E1; congruence.
  - intros L a b H. destruct (C86_daitch_mokotoff u a b H) as (p & q & q' & k & E1 & E2 & Q).
    exists p, q, q', k. repeat split; auto. lia.
Qed.

(** ** NYSIIS: at least four letters may be taken back *)
Theorem C86_nysiis_refuted : forall u, ~ settled (nysiis_encode u false) ascii_text 3.
Proof.
  intros u H. destruct (H $ "BAYSC" $ "H") as (p & q & q' & E1 & E2 & L).
  { apply ascii_lit. reflexivity. }
  vm_compute in E1. vm_compute in E2. injection E1 as E1. injection E2 as E2.
  destruct p as [|x1 [|x2 p]]; cbn [app] in E1, E2.
  - subst q. cbn in L. lia.
  - injection E1 as _ E1. subst q. cbn in L. lia.
  - congruence.
Qed.
Example C86_nonvacuous :
  soundex_encode latin1_only soundex_default $ "Rob" = Ok $ "R100" /\ soundex_encode latin1_only soundex_default $ "Robert" = Ok $ "R163"
  /\ cologne_encode latin1_only $ "Sop" = Ok $ "81" /\ cologne_encode latin1_only $ "Sophie" = Ok $ "83"
  /\ metaphone_encode latin1_only None $ "Bridg" = Ok $ "BRTK" /\ metaphone_encode latin1_only None $ "Bridget" = Ok $ "BRJT"
  /\ phonex_encode latin1_only 4 $ "K" = Ok $ "C000" /\ phonex_encode latin1_only 4 $ "Knight" = Ok $ "N230"
  /\ mra_encode latin1_only $ "Christ" = Ok $ "CHRST" /\ mra_encode latin1_only $ "Christopher" = Ok $ "CHRPHR".
Proof. repeat split; vm_compute; reflexivity. Qed.
