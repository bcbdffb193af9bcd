(** * C21-C22: Phonex. *)
From Verif Require Import Base UnicodeM Lib Helper Phonex BaseLemmas Spec_common
  Soundex_proofs UnicodeLemmas Caverphone_proofs Nysiis_proofs Phonex_proofs.
Local Open Scope N_scope.

(** C21: length and format. *)
Theorem C21_phonex_format : forall u max s r, (2 <= max)%nat ->
  letters_are_ascii (is_alphabetic u) s -> phonex_encode u max s = Ok r ->
  length r = max /\
  (r = repeat (# "0") max \/
   exists f ds k, r = f :: ds ++ repeat (# "0") k /\ In f $ "ABCDFGHLMNRSTWX"
     /\ (forall d, In d ds -> # "1" <= d <= # "6") /\ no_adjacent_equal ds).
Proof.
  intros u max s r Hm HA H. rewrite encode_px in H. injection H as <-.
  destruct (px_preprocess u s) as [|c t] eqn:E.
  - cbn [px_loop px_init px_result rev app blen]. rewrite Nat.sub_0_r, repeat_length. auto.
  - destruct (preprocess_initial u s c t HA E) as [Hc _].
    assert (Hc' : c < 128).
    { cbn [In px_initials] in Hc. repeat (destruct Hc as [<-|Hc]; [reflexivity|]). destruct Hc. }
    destruct (px_loop_result max (c :: t) c t eq_refl) as [(ds & Er & Hd & Hn & _) _ L]; try lia.
    { rewrite ascii_utf8_len by assumption. lia. }
    rewrite Er in *. rewrite rev_app_distr, rev_involutive. cbn [rev app].
    assert (A : ascii_str (rev ds ++ [c])).
    { apply ascii_str_app. split; [|apply ascii_str_cons; split; [assumption|apply ascii_str_nil]].
      intros d Hdd. apply in_rev in Hdd. apply Hd in Hdd. unfold digit16 in Hdd. lia. }
    rewrite (ascii_blen _ A) in *. rewrite app_length, rev_length in *. cbn [length] in *.
    split.
    + rewrite app_length, repeat_length. lia.
    + right. exists c, ds, (max - (length ds + 1))%nat. split; [reflexivity|]. split; [exact Hc|].
      split; [exact Hd|exact Hn].
Qed.
Theorem C21_phonex_zero : forall u s, phonex_encode u 0 s = Ok [].
Proof. intros u s. rewrite encode_px. destruct (px_preprocess u s); reflexivity. Qed.
(** With a limit of at least 4 bytes the code has exactly that many bytes for
    every input, ASCII or not. *)
Theorem C21_phonex_byte_length : forall u max s r, (4 <= max)%nat ->
  phonex_encode u max s = Ok r -> blen r = max.
Proof.
  intros u max s r Hm H. rewrite encode_px in H. injection H as <-.
  assert (B : forall n, blen (repeat (# "0") n) = n).
  { induction n as [|n IH]; [reflexivity|]. cbn [repeat blen]. rewrite IH. reflexivity. }
  assert (L : (blen (px_result (px_loop max 0 (px_preprocess u s) px_init)) <= max)%nat).
  { destruct (px_preprocess u s) as [|c t] eqn:E; [cbn; lia|].
    destruct (px_loop_result max (c :: t) c t eq_refl) as [_ _ L]; try lia.
    pose proof (utf8_len_pos c). lia. }
  rewrite blen_app, blen_rev, B. lia.
Qed.
(** The limit 1 is not respected; the excess is not even bounded. *)
Theorem C21_phonex_one_refuted : forall k, exists s r,
  ascii_str s /\ phonex_encode latin1_only 1 s = Ok r /\ (k < length r)%nat.
Proof.
  assert (Loop : forall k i st, i <> 0%nat -> (2 <= blen (px_result st))%nat -> px_last st <> # "1" ->
    exists t, px_result (px_loop 1 i (concat (repeat $ "BD" k)) st) = t ++ px_result st
              /\ length t = (2 * k)%nat).
  { induction k as [|k IH]; intros i st Hi L Hl.
    - exists []. cbn. auto.
    - cbn [repeat concat app]. cbn [px_loop].
      replace (Nat.eqb (blen (px_result st)) 1) with false by (symmetry; apply Nat.eqb_neq; lia).
      destruct (px_step i (# "B") (hd_error (# "D" :: concat (repeat $ "BD" k))) st) as [st' sk] eqn:E.
      unfold px_step in E. cbn in E. replace (Nat.eqb i 0) with false in E by (symmetry; now apply Nat.eqb_neq).
      replace (px_last st =? 49) with false in E by (symmetry; now apply N.eqb_neq). cbn in E.
      injection E as <- <-. cbn [px_result].
      replace (Nat.eqb (blen (_ :: px_result st)) 1) with false
        by (symmetry; apply Nat.eqb_neq; cbn [blen]; lia).
      destruct (px_step (S i) (# "D") (hd_error (concat (repeat $ "BD" k)))
                  {| px_result := 49 :: px_result st; px_code := 49; px_last := 49; px_last_push := 49 |})
        as [st'' sk] eqn:E.
      assert (E' : (st'', sk) = ({| px_result := 51 :: 49 :: px_result st; px_code := 51;
                     px_last := 51; px_last_push := 51 |}, false)).
      { rewrite <- E. destruct k; reflexivity. }
      injection E' as -> ->.
      destruct (IH (S (S i)) {| px_result := 51 :: 49 :: px_result st; px_code := 51;
                     px_last := 51; px_last_push := 51 |}) as (t & Et & Lt); [lia|cbn [px_result blen]; lia|discriminate|].
      destruct (concat (repeat $ "BD" k)) as [|x rest] eqn:Ek.
      + exists [51; 49]. split; [reflexivity|]. destruct k; [reflexivity|discriminate].
      + exists (t ++ [51; 49]). rewrite Et. cbn [px_result]. split; [now rewrite <- app_assoc|].
        rewrite app_length, Lt. cbn [length]. lia. }
  assert (Hrep : forall k, Forall (fun c => c = 66 \/ c = 68) (concat (repeat $ "BD" k))).
  { induction k as [|k IH]; [constructor|]. cbn. constructor; [now left|]. constructor; [now right|exact IH]. }
  assert (Hletters : forall s, uppers s -> filter (is_alphabetic latin1_only) s = s /\
     flat_map (to_upper latin1_only) s = s).
  { induction s as [|c s IH]; intros Hs; [auto|]. apply uppers_cons in Hs as [Hc Hs].
    destruct (IH Hs) as [I1 I2]. apply is_ascii_upper_lt in Hc.
    cbn [filter flat_map]. rewrite I1, I2, to_upper_ascii by lia.
    rewrite ascii_alpha_alphabetic by lia.
    replace (is_ascii_alpha c) with true by (symmetry; apply is_ascii_alpha_iff; lia).
    split; [reflexivity|]. destruct (ascii_up_cases c) as [[? _]|[_ ->]]; [lia|reflexivity]. }
  intros k. set (body := concat (repeat $ "BD" (S k))).
  assert (HU : uppers ($ "ND" ++ body)).
  { apply uppers_app. split; [now apply uppersb|]. intros c Hc.
    pose proof (Hrep (S k)) as HF. rewrite Forall_forall in HF. fold body in HF.
    destruct (HF c Hc) as [->| ->]; reflexivity. }
  exists ($ "ND" ++ body). eexists. split; [now apply uppers_ascii|]. split; [rewrite encode_px; reflexivity|].
  assert (Epre : px_preprocess latin1_only ($ "ND" ++ body) = $ "ND" ++ body).
  { unfold px_preprocess, soundex_clean. destruct (Hletters _ HU) as [H1 H2]. rewrite H1, H2.
    unfold drop_trailing_S.
    assert (El : exists a, $ "ND" ++ body = a ++ [68]).
    { unfold body. clear. induction k as [|k [a IH]]; [now exists [78; 68; 66]|].
      exists ([78; 68; 66; 68] ++ skipn 2 a).
      assert (La : (2 <= length a)%nat).
      { apply (f_equal (@length N)) in IH. rewrite !app_length in IH. cbn in IH. lia. }
      destruct a as [|x [|y a]]; cbn in La; try lia. cbn [repeat concat app] in *.
      injection IH as <- <- IH. cbn [skipn]. now rewrite <- IH. }
    destruct El as [a Ea]. rewrite Ea, rev_app_distr. cbn [rev app drop_leading_S].
    change (68 =? 83) with false. cbn iota.
    replace (rev (68 :: rev a)) with (a ++ [68]) by (cbn [rev]; now rewrite rev_involutive).
    rewrite <- Ea. reflexivity. }
  rewrite Epre. cbn [app px_loop]. change (Nat.eqb (blen (px_result px_init)) 1) with false. cbn iota.
  change (px_step 0 78 (hd_error (68 :: body)) px_init)
    with ({| px_result := [53; 78]; px_code := 53; px_last := 53; px_last_push := 53 |}, true).
  cbn iota.
  destruct (Loop (S k) 2%nat {| px_result := [53; 78]; px_code := 53; px_last := 53; px_last_push := 53 |})
    as (t & Et & Lt); [lia|cbn; lia|discriminate|].
  fold body in Et. rewrite Et. rewrite app_length, rev_length, app_length, Lt. cbn [length]. lia.
Qed.
Example C21_nonvacuous : phonex_encode latin1_only 4 $ "Kneppes" = Ok $ "N100"
  /\ phonex_encode latin1_only 1 $ "Nd" = Ok $ "N5".
Proof. split; reflexivity. Qed.

(** C22: totality and invariances. *)
Theorem C22_phonex_total : forall u max s, exists r, phonex_encode u max s = Ok r.
Proof. intros. unfold phonex_encode. eauto. Qed.
Theorem C22_phonex_ignores_case_and_nonletters : forall u max s t,
  map ascii_up (filter (is_alphabetic u) s) = map ascii_up (filter (is_alphabetic u) t) ->
  phonex_encode u max s = phonex_encode u max t.
Proof.
  intros u max s t H. unfold phonex_encode, px_preprocess. now rewrite (clean_case u s t H).
Qed.
Theorem C22_phonex_trailing_s : forall u max s c, In c $ "Ss" ->
  phonex_encode u max (s ++ [c]) = phonex_encode u max s.
Proof.
  intros u max s c Hc. unfold phonex_encode, px_preprocess.
  replace (drop_trailing_S (soundex_clean u (s ++ [c]))) with (drop_trailing_S (soundex_clean u s));
    [reflexivity|].
  rewrite clean_app. replace (soundex_clean u [c]) with $ "S"
    by (destruct Hc as [<-|[<-|[]]]; reflexivity).
  unfold drop_trailing_S. rewrite rev_app_distr. reflexivity.
Qed.
Example C22_nonvacuous : phonex_encode latin1_only 6 $ "p-harris'S" = phonex_encode latin1_only 6 $ "Pharri".
Proof. reflexivity. Qed.
