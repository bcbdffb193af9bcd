(** * C94: how long a code can be. *)
From Verif Require Import Base UnicodeM Lib Helper Soundex Cologne Nysiis Metaphone
  BaseLemmas Spec_common Spec_soundex Spec_cologne Spec_rewrite Spec_nysiis Upper_ok UnicodeReal UnicodeLemmas Soundex_proofs Cologne_proofs Metaphone_proofs Codes_proofs
  Props_soundex Props_cologne Props_nysiis_spec Props_metaphone Typo_metaphone_proofs.
Local Open Scope N_scope.

(** The text written [n] times. *)
Definition times (n : nat) (w : ustr) : ustr := concat (repeat w n).
Lemma times_S : forall n w, times (S n) w = w ++ times n w.
Proof. reflexivity. Qed.
Lemma times_length : forall n w, length (times n w) = (n * length w)%nat.
Proof. induction n as [|n IH]; intros w; [reflexivity|]. rewrite times_S, app_length, IH. reflexivity. Qed.
Lemma times_In : forall n w c, In c (times n w) -> In c w.
Proof. induction n as [|n IH]; intros w c H; [destruct H|]. rewrite times_S in H. apply in_app_or in H as [H|H]; auto. Qed.
Lemma times_ascii : forall n w, ascii_str w -> ascii_str (times n w).
Proof. intros n w A c H. apply A. now apply times_In in H. Qed.
Lemma times_up : forall n w, map ascii_up w = w -> map ascii_up (times n w) = times n w.
Proof. induction n as [|n IH]; intros w H; [reflexivity|]. now rewrite times_S, map_app, H, IH. Qed.

(** ** Metaphone: three letters for two *)
Theorem C94_metaphone : forall u s code, ascii_str s -> metaphone_encode u None s = Ok code -> (2 * length code <= 3 * length s)%nat.
Proof.
  intros u s code A H. apply metaphone_word in H; [|exact A]. subst code.
  pose proof (word_size (map ascii_up s)) as L. now rewrite map_length in L.
Qed.
Lemma read_LX : forall n f l p, opt_is p (# "L") = false -> readf f l p 0 (times n $ "LX") = times n $ "LKS".
Proof.
  induction n as [|n IH]; intros f l p H; [reflexivity|]. rewrite !times_S. cbn [app readf]. unfold again at 1. rewrite H. cbn [andb].
  change (again (Some 76) 88) with false. cbv iota.
  change (syms f l p 76 (88 :: times n $ "LX")) with ($ "L", 0%nat). cbn [fst snd readf].
  change (again (Some 76) 88) with false. cbv iota.
  change (syms false l (Some 76) 88 (times n $ "LX")) with ($ "KS", 0%nat). cbn [fst snd app]. now rewrite IH.
Qed.
Theorem C94_metaphone_reached : forall u n, metaphone_encode u None (times n $ "LX") = Ok (times n $ "LKS").
Proof.
  intros u n. assert (A : ascii_str (times n $ "LX")).
  { apply times_ascii. intros c I. cbn in I. repeat (destruct I as [<-|I]; [reflexivity|]). destruct I. }
  destruct (C24_total_on_ascii u None _ A) as [q Q]. rewrite Q. f_equal. apply metaphone_word in Q; [|exact A]. subst q.
  rewrite times_up by reflexivity. unfold word_code. rewrite times_length.
  replace (Nat.eqb (n * length $ "LX") 1) with false by (symmetry; apply Nat.eqb_neq; cbn [length]; lia).
  replace (mt_local (times n $ "LX")) with (times n $ "LX") by (now destruct n). now apply read_LX.
Qed.

(** ** Cologne: two digits for one letter *)
Theorem C94_cologne : forall u s code, cologne_encode u s = Ok code -> (length code <= 2 * length (str_upper u s))%nat.
Proof. exact C12_cologne_length. Qed.
Lemma codes_X : forall n before, opt_is (hd_error before) (# "X") = true -> cologne_codes before (times n $ "X") = times n $ "48".
Proof.
  induction n as [|n IH]; intros before H; [reflexivity|]. rewrite !times_S. cbn [app cologne_codes].
  change (isin 88 $ "ABCDEFGHIJKLMNOPQRSTUVWXYZ") with true. cbv iota. rewrite (IH (88 :: before) eq_refl).
  destruct (hd_error before) as [b|]; [|discriminate]. cbn [opt_is] in H. apply N.eqb_eq in H. subst b. reflexivity.
Qed.
Lemma collapse_48 : forall n, collapse (times n $ "48") = times n $ "48" /\ filter (fun d => negb (d =? # "-")) (times n $ "48") = times n $ "48"
  /\ filter (fun d => negb (d =? # "0")) (times n $ "48") = times n $ "48".
Proof.
  induction n as [|n (E1 & E2 & E3)]; [repeat split|]. rewrite !times_S. repeat split.
  - cbn [app collapse]. change (52 =? 56) with false. cbv iota. rewrite E1. destruct n; reflexivity.
  - cbn [app filter]. now rewrite E2.
  - cbn [app filter]. now rewrite E3.
Qed.
Theorem C94_cologne_reached : forall u n, cologne_encode u (times n $ "X") = Ok (times n $ "48").
Proof.
  intros u n. assert (A : ascii_str (times n $ "X")).
  { apply times_ascii. intros c I. cbn in I. repeat (destruct I as [<-|I]; [reflexivity|]). destruct I. }
  rewrite encode_spec. unfold cologne_code. rewrite str_upper_ascii by exact A. rewrite times_up by reflexivity.
  replace (map umlaut_base (times n $ "X")) with (times n $ "X") by (clear; induction n as [|n IH]; [reflexivity|]; now rewrite !times_S, map_app, <- IH).
  assert (C : cologne_codes [] (times n $ "X") = times n $ "48").
  { destruct n as [|n]; [reflexivity|]. rewrite !times_S. cbn [app cologne_codes].
    change (isin 88 $ "ABCDEFGHIJKLMNOPQRSTUVWXYZ") with true. cbv iota. rewrite (codes_X n [88] eq_refl). reflexivity. }
  rewrite C. unfold cologne_reduce. destruct (collapse_48 n) as (-> & -> & E). destruct n as [|n]; [reflexivity|]. rewrite times_S in E |- *.
  cbn [app filter] in E |- *. injection E as E. now rewrite E.
Qed.

(** ** Refined Soundex: the first letter and a digit for each *)
Theorem C94_refined : forall u table s code, length table = 26%nat -> letters_are_ascii (is_alphabetic u) s ->
  refined_encode u table s = Ok code -> (length code <= 1 + length (ascii_letters s))%nat.
Proof. intros u table s code L A H. now apply (C10_refined_format u table s code L A H). Qed.
Lemma collapse_10 : forall n, collapse (times n $ "10") = times n $ "10".
Proof.
  induction n as [|n E]; [reflexivity|]. rewrite times_S. cbn [app collapse]. change (49 =? 48) with false. cbv iota. rewrite E. destruct n; reflexivity.
Qed.
Theorem C94_refined_reached : forall u n, refined_encode u ENGLISH_MAPPING (times (S n) $ "BA") = Ok (# "B" :: times (S n) $ "10").
Proof.
  intros u n. set (w := times (S n) $ "BA").
  assert (A : forall c, In c w -> c = 66 \/ c = 65) by (intros c I; apply times_In in I; cbn in I; intuition).
  assert (AA : letters_are_ascii (is_alphabetic u) w) by (intros c I _; destruct (A c I) as [->| ->]; reflexivity).
  rewrite (C10_refined_custom_table u ENGLISH_MAPPING w eq_refl AA). f_equal.
  replace (ascii_letters w) with w.
  - unfold w, refined_code. rewrite times_S at 1. cbn [app]. f_equal. rewrite <- (collapse_10 (S n)). f_equal.
    clear. induction (S n) as [|m IH]; [reflexivity|]. rewrite !times_S, map_app, IH. reflexivity.
  - unfold w. clear. induction (S n) as [|m IH]; [reflexivity|]. rewrite !times_S. cbn [app]. rewrite IH at 1. reflexivity.
Qed.

(** ** NYSIIS without the limit: a letter for each *)
Lemma table_same : forall t s p q r, Forall (fun e : ustr * ustr => length (fst e) = length (snd e)) t -> first_entry t s p q r -> length s = length (q ++ r).
Proof.
  intros t s p q r F (t1 & t2 & E & -> & _). rewrite Forall_forall in F. specialize (F (p, q)). rewrite E in F.
  rewrite !app_length. cbn in F. rewrite F; [reflexivity|]. apply in_or_app. right. now left.
Qed.
Lemma translated_size : forall p s out, nysiis_translated p s out -> length out = length s.
Proof.
  intros p s out H. induction H as [|previous s c r out R N _ IH]; [reflexivity|]. cbn [length]. rewrite IH.
  change (S (length r) = length s) with (length (c :: r) = length s). remember (c :: r) as w eqn:W. clear W N IH.
  destruct R as [s p q t F| | |]; try reflexivity. symmetry. apply (table_same nysiis_letters s p); [repeat constructor|exact F].
Qed.
Lemma ended_size : forall k k', nysiis_ended k k' -> (length k' <= length k)%nat.
Proof.
  assert (D : forall x k k', final_dropped x k k' -> (length k' <= length k)%nat) by (intros x k k' [->|[-> _]]; rewrite ?app_length; lia).
  intros k k' [[_ ->]|(_ & k1 & k2 & D1 & Y & D2)]; [lia|]. apply D in D1. apply D in D2.
  destruct Y as [(a & -> & _ & ->)|[-> _]]; [rewrite !app_length in *; cbn [length] in *; lia|lia].
Qed.
Lemma key_size : forall name key, Spec_nysiis.nysiis_key name key -> (length key <= length name)%nat.
Proof.
  intros name key H. destruct H as [|name a c r out key N St En Tr Ed]; [reflexivity|].
  apply ended_size in Ed. pose proof (collapse_length (c :: out)) as C. apply translated_size in Tr. cbn [length] in C.
  assert (A : length a = length name).
  { destruct St as [(p & q & s & F & ->)|[_ ->]]; [|reflexivity]. apply table_same in F; [now symmetry|repeat constructor]. }
  assert (B : (length (c :: r) <= length a)%nat).
  { destruct En as [(p & q & s & t1 & t2 & E & -> & -> & _)|[_ ->]]; [|lia].
    assert (I : In (p, q) nysiis_end) by (rewrite E; apply in_or_app; right; now left).
    cbn in I. rewrite !app_length. repeat (destruct I as [I|I]; [injection I as <- <-; cbn; lia|]). destruct I. }
  cbn [length] in B. lia.
Qed.
Theorem C94_nysiis : forall u s key, UpperOK u -> nysiis_encode u false s = Ok key -> (length key <= length (letters_upper u s))%nat.
Proof. intros u s key U H. apply (C65_every_text u s U) in H. now apply key_size. Qed.
Lemma BL_same : forall p c r, c = # "B" \/ c = # "L" -> nysiis_rewritten p (c :: r) (c :: r).
Proof.
  intros p c r H. apply nr_other.
  - intros x y z I E. cbn in I. repeat (destruct I as [I|I]; [injection I as <- <-; cbn in E; injection E as E _; destruct H as [->| ->]; discriminate E|]). destruct I.
  - intros [E _]. destruct H as [->| ->]; discriminate E.
  - intros [E _]. destruct H as [->| ->]; discriminate E.
Qed.
Lemma letters_BL : forall n p, nysiis_translated p (times n $ "BL") (times n $ "BL").
Proof.
  induction n as [|n IH]; intros p; [constructor|]. rewrite times_S. cbn [app].
  apply (nt_step p _ 66 (76 :: times n $ "BL")); [apply BL_same; now left|discriminate|].
  apply (nt_step 66 _ 76 (times n $ "BL")); [apply BL_same; now right|discriminate|apply IH].
Qed.
Lemma collapse_BL : forall n, collapse (times n $ "BL") = times n $ "BL".
Proof.
  induction n as [|n E]; [reflexivity|]. rewrite times_S. cbn [app collapse]. change (66 =? 76) with false. cbv iota. rewrite E. destruct n; reflexivity.
Qed.
Lemma ends_L : forall n w c, times n $ "BL" = w ++ [c] -> c = # "L".
Proof.
  induction n as [|n IH]; intros w c E; [destruct w; discriminate E|]. rewrite times_S in E. cbn [app] in E.
  destruct n as [|n].
  - destruct w as [|x [|y [|z w]]]; try discriminate E. now injection E.
  - destruct w as [|x [|y w]]; try discriminate E. injection E as _ _ E. now apply (IH w).
Qed.
Theorem C94_nysiis_reached : forall u n, nysiis_encode u false (times n $ "BL") = Ok (times n $ "BL").
Proof.
  intros u n. set (w := times n $ "BL").
  assert (A : forall c, In c w -> c = 66 \/ c = 76) by (intros c I; apply times_In in I; cbn in I; intuition).
  assert (AA : letters_are_ascii (is_alphabetic u) w) by (intros c I _; destruct (A c I) as [->| ->]; reflexivity).
  apply (C65_nysiis_is_its_definition u w AA).
  assert (W : ascii_letters w = w).
  { unfold w. clear. induction n as [|m IH]; [reflexivity|]. rewrite !times_S. cbn [app]. rewrite <- IH at 2. reflexivity. }
  rewrite W. unfold w in *. destruct n as [|n]; [constructor|].
  pose proof (ends_L (S n)) as L. rewrite <- (collapse_BL (S n)) at 2.
  assert (En : forall p q r, In (p, q) nysiis_end -> times (S n) $ "BL" <> r ++ p).
  { intros p q r I E. cbn in I.
    repeat (destruct I as [I|I]; [injection I as <- <-; match goal with E : _ = r ++ [?x; ?y] |- _ => change [x; y] with ([x] ++ [y]) in E; rewrite app_assoc in E; apply L in E; discriminate E end|]). destruct I. }
  rewrite times_S in *. cbn [app] in *.
  apply (nk_name _ (66 :: 76 :: times n $ "BL") 66 (76 :: times n $ "BL") (76 :: times n $ "BL")); [discriminate| | | |].
  - right. split; [|reflexivity]. intros p q r I E. cbn in I. repeat (destruct I as [I|I]; [injection I as <- <-; discriminate E|]). destruct I.
  - right. split; [exact En|reflexivity].
  - apply (nt_step 66 _ 76 (times n $ "BL")); [apply BL_same; now right|discriminate|apply letters_BL].
  - right. split; [change (66 :: 76 :: times n $ "BL") with (times (S n) $ "BL"); rewrite collapse_BL, times_length; cbn [length]; lia|].
    exists (collapse (66 :: 76 :: times n $ "BL")), (collapse (66 :: 76 :: times n $ "BL")).
    change (66 :: 76 :: times n $ "BL") with (times (S n) $ "BL"). rewrite collapse_BL.
    split; [right; split; [reflexivity|]|split; [right; split; [reflexivity|]|right; split; [reflexivity|]]].
    + intros a E. apply L in E. discriminate E.
    + intros a E. change $ "AY" with ($ "A" ++ $ "Y") in E. rewrite app_assoc in E. apply L in E. discriminate E.
    + intros a E. apply L in E. discriminate E.
Qed.
Example C94_nonvacuous :
  metaphone_encode latin1_only None $ "LXLXLX" = Ok $ "LKSLKSLKS" /\ cologne_encode latin1_only $ "XXX" = Ok $ "484848"
  /\ refined_encode latin1_only ENGLISH_MAPPING $ "BABA" = Ok $ "B1010" /\ nysiis_encode latin1_only false $ "BLBLBL" = Ok $ "BLBLBL"
  /\ UpperOK real_unicode /\ nysiis_encode latin1_only false $ "d'Arc" = Ok $ "DARC".
Proof. repeat (split; [reflexivity|]). split; [exact real_upper_ok|reflexivity]. Qed.
