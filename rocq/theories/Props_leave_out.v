(** * C90: characters that may be left out. *)
From Verif Require Import Base UnicodeM Lib Helper Soundex Cologne MatchRating Caverphone Nysiis Phonex Metaphone DoubleMetaphone RulesParser DaitchMokotoff DmRules
  BaseLemmas Spec_common Spec_doubled Spec_exchange Spec_leave_out UnicodeLemmas Soundex_proofs Cologne_proofs Metaphone_proofs Dm_proofs
  Props_soundex Props_caverphone Props_nysiis Props_phonex Props_dm Props_metaphone Props_doubled Exchange_proofs.
Local Open Scope N_scope.

(** ** Checking contexts *)
Lemma needed : forall A (outcome : ustr -> A) (same : A -> A -> bool) before texts (chars set : ustr) contexts,
  (forall a, same a a = true) ->
  (forall a b, In (a, b) contexts -> before a /\ texts (a ++ b)) ->
  forallb (fun c => if isin c set then true else existsb (fun ab => negb (same (outcome (fst ab ++ c :: snd ab)) (outcome (fst ab ++ snd ab)))) contexts) chars = true ->
  forall c, In c chars -> may_be_left_out outcome before texts c -> In c set.
Proof.
  intros A outcome same before texts chars set contexts Sm K C c Hc H. rewrite forallb_forall in C. specialize (C c Hc).
  destruct (isin c set) eqn:E; [now apply isin_In|]. exfalso. apply existsb_exists in C as ((a & b) & I & D). destruct (K a b I) as [Ka Kb].
  cbn [fst snd] in D. rewrite (H a b Ka Kb), Sm in D. discriminate D.
Qed.
Definition signs : ustr := filter (fun c => negb (is_ascii_alpha c)) (map N.of_nat (seq 0 128)).
Lemma signs_iff : forall c, In c signs <-> ascii_sign c.
Proof.
  intros c. unfold signs, ascii_sign. rewrite filter_In, in_map_iff. split.
  - intros ((n & <- & I) & K). apply in_seq in I. split; [lia|]. apply negb_true_iff in K.
    split; intros R; cbn in R; (rewrite (proj2 (is_ascii_alpha_iff _)) in K; [discriminate K|lia]).
  - intros (L & N1 & N2). cbn in N1, N2. split.
    + exists (N.to_nat c). split; [lia|]. apply in_seq. lia.
    + apply negb_true_iff. destruct (is_ascii_alpha c) eqn:E; [|reflexivity]. apply is_ascii_alpha_iff in E. lia.
Qed.
Definition both_cases : ustr := AZ ++ $ "abcdefghijklmnopqrstuvwxyz".
Lemma letters_iff : forall c, In c both_cases <-> is_letter c.
Proof.
  intros c. unfold is_letter. split.
  - intros H. apply in_app_or in H as [H|H]; cbn in H |- *; repeat (destruct H as [<-|H]; [lia|]); destruct H.
  - intros H. apply in_or_app. destruct H as [H|H]; cbn in H.
    + left. assert (E : c = N.of_nat (65 + (N.to_nat c - 65))%nat) by lia. assert (L : (N.to_nat c - 65 < 26)%nat) by lia.
      rewrite E. generalize (N.to_nat c - 65)%nat L. clear. intros n L. do 26 (destruct n as [|n]; [cbn; tauto|]). lia.
    + right. assert (E : c = N.of_nat (97 + (N.to_nat c - 97))%nat) by lia. assert (L : (N.to_nat c - 97 < 26)%nat) by lia.
      rewrite E. generalize (N.to_nat c - 97)%nat L. clear. intros n L. do 26 (destruct n as [|n]; [cbn; tauto|]). lia.
Qed.
Lemma capital_letter : forall c a, (65 <=? c) && (c <=? 90) = true -> with_letter (c :: a).
Proof.
  intros c a H. exists [], c, a. split; [reflexivity|]. left. apply andb_true_iff in H as [H1 H2]. apply N.leb_le in H1, H2. change (# "A") with 65. change (# "Z") with 90. lia.
Qed.
Ltac contexts := let a := fresh in let b := fresh in let H := fresh in intros a b H; cbn [In] in H;
  repeat (destruct H as [H|H]; [injection H as <- <-; split; [first [exact I|apply capital_letter; reflexivity]|apply longer_lit; reflexivity]|]); destruct H.
Ltac apart cs := eapply (needed _ _ text_eqb _ _ _ _ cs text_eqb_refl); [contexts|vm_compute; reflexivity].
Definition dm_eqb (a b : res dm_result) : bool :=
  res_eqb (fun a b => seq_eqb (dm_primary a) (dm_primary b) && seq_eqb (dm_alternate a) (dm_alternate b)) a b.
Lemma dm_eqb_refl : forall a, dm_eqb a a = true.
Proof. intros [[p q]| |]; cbn; [|reflexivity..]. now rewrite !seq_eqb_refl. Qed.

(** ** Signs *)
Lemma sign_not_alphabetic : forall u c, ascii_sign c -> is_alphabetic u c = false.
Proof.
  intros u c (L & H1 & H2). rewrite ascii_alpha_alphabetic by exact L.
  destruct (is_ascii_alpha c) eqn:E; [|reflexivity]. apply is_ascii_alpha_iff in E. cbn in H1, H2. lia.
Qed.
Lemma filter_without : forall (f : N -> bool) a c b, f c = false -> filter f (a ++ c :: b) = filter f (a ++ b).
Proof. intros f a c b H. rewrite !filter_app. cbn [filter]. now rewrite H. Qed.
Theorem C90_signs_ignored : forall u sx table strict max c, ascii_sign c ->
  may_be_left_out (soundex_encode u sx) any_text any_text c /\ may_be_left_out (refined_encode u table) any_text any_text c
  /\ may_be_left_out (nysiis_encode u strict) any_text any_text c /\ may_be_left_out (phonex_encode u max) any_text any_text c.
Proof.
  intros u sx table strict max c H. pose proof (sign_not_alphabetic u c H) as K.
  split; [|split; [|split]]; intros a b _ _.
  - apply C08_soundex_ignores_case_and_nonletters. now rewrite filter_without.
  - apply C08_refined_ignores_case_and_nonletters. now rewrite filter_without.
  - apply C20_ignores_case_and_nonletters. now rewrite filter_without.
  - apply C22_phonex_ignores_case_and_nonletters. now rewrite filter_without.
Qed.
Theorem C90_signs_caverphone : forall u c, ascii_sign c ->
  may_be_left_out (caverphone1_encode u) any_text without_sigma c /\ may_be_left_out (caverphone2_encode u) any_text without_sigma c.
Proof.
  intros u c H.
  assert (K : forall a b, without_sigma (a ++ b) -> caverphone1_encode u (a ++ c :: b) = caverphone1_encode u (a ++ b) /\ caverphone2_encode u (a ++ c :: b) = caverphone2_encode u (a ++ b)).
  { intros a b T. apply C17_caverphone_insert_nonletter.
    - intros I. apply in_app_or in I as [I|[I|I]].
      + apply T, in_or_app. now left.
      + destruct H as [H _]. lia.
      + apply T, in_or_app. now right.
    - intros x Hx. rewrite to_lower_ascii in Hx by apply H. destruct Hx as [<-|[]]. destruct H as (L & N1 & N2). cbn in N1, N2.
      destruct (ascii_low_cases c) as [[R E]|[R E]]; [lia|]. rewrite E. rewrite is_lowercase_ascii by exact L.
      destruct (is_ascii_lower c) eqn:Q; [|reflexivity]. apply is_ascii_lower_iff in Q. lia. }
  split; intros a b _ T; now apply K.
Qed.
Theorem C90_signs_mra : forall u c, ascii_sign c ->
  (may_be_left_out (mra_encode u) any_text (several (is_whitespace u)) c <-> In c (white_signs ++ $ "-&'.,")).
Proof.
  intros u c H. split.
  - intros K. assert (K2 : may_be_left_out (mra_encode u) any_text (fun s => s = $ "AA") c).
    { intros a b Ha Hb. apply K; [exact Ha|]. rewrite Hb. unfold several. apply le_n. }
    clear K. apply signs_iff in H. revert c H K2. eapply (needed _ _ text_eqb _ _ _ _ [([], $ "AA")] text_eqb_refl); [|vm_compute; reflexivity].
    intros a b [E|[]]. injection E as <- <-. now split.
  - intros K a b _ S.
    assert (S2 : several (is_whitespace u) (a ++ c :: b)).
    { unfold several in *. rewrite filter_app, app_length in *. cbn [filter] in *. destruct (negb (is_whitespace u c)); cbn [length] in *; lia. }
    rewrite !mra_several by assumption. change (a ++ c :: b) with (a ++ [c] ++ b). rewrite !clean_name_app.
    replace (clean_name u [c]) with (@nil N); [reflexivity|]. cbn in K. repeat (destruct K as [<-|K]; [reflexivity|]). destruct K.
Qed.
Theorem C90_signs_daitch_mokotoff : forall u c, ascii_sign c ->
  (may_be_left_out (dms_soundex u dms_default) any_text any_text c <-> In c white_signs)
  /\ (may_be_left_out (dms_encode u dms_default) any_text any_text c <-> In c white_signs).
Proof.
  intros u c H.
  assert (P : In c white_signs -> forall d a b, dms_soundex u d (a ++ c :: b) = dms_soundex u d (a ++ b) /\ dms_encode u d (a ++ c :: b) = dms_encode u d (a ++ b)).
  { intros K d a b. apply C38_whitespace. apply filter_without. cbn in K. repeat (destruct K as [<-|K]; [reflexivity|]). destruct K. }
  apply signs_iff in H. split; (split; [|intros K a b _ _; now apply P]).
  - clear P. revert c H. eapply (needed _ _ text_eqb _ _ _ _ [($ "A", $ "J")] text_eqb_refl); [intros; now split|vm_compute; reflexivity].
  - clear P. revert c H. eapply (needed _ _ text_eqb _ _ _ _ [($ "T", $ "CH")] text_eqb_refl); [intros; now split|vm_compute; reflexivity].
Qed.
Theorem C90_white_daitch_mokotoff : forall u d c, In c white_signs ->
  may_be_left_out (dms_soundex u d) any_text any_text c /\ may_be_left_out (dms_encode u d) any_text any_text c.
Proof.
  intros u d c K. assert (W : is_whitespace u c = true) by (cbn in K; repeat (destruct K as [<-|K]; [reflexivity|]); destruct K).
  split; intros a b _ _; apply C38_whitespace, filter_without; now rewrite W.
Qed.
Lemma no_member : forall c : N, ~ In c [].
Proof. intros c []. Qed.
Theorem C90_signs_cologne : forall u c, ascii_sign c -> ~ may_be_left_out (cologne_encode u) any_text longer_ascii_text c.
Proof. intros u c H K. apply signs_iff in H. apply (no_member c). revert c H K. apart [($ "C", $ "A")]. Qed.
Theorem C90_signs_double_metaphone : forall u c, ascii_sign c -> ~ may_be_left_out (double_metaphone u (Some 4%nat)) any_text longer_ascii_text c.
Proof.
  intros u c H K. apply signs_iff in H. apply (no_member c). revert c H K.
  eapply (needed _ _ dm_eqb _ _ _ _ [($ "A", $ "W")] dm_eqb_refl); [contexts|vm_compute; reflexivity].
Qed.
(** Metaphone, any limit of two or more: the first two symbols without a limit. *)
Definition first_two (r : res ustr) : res ustr := code <- r ;; Ok (firstn 2 code).
Lemma first_two_left : forall u max before c, c < 128 -> (forall n, max = Some n -> (2 <= n)%nat) ->
  may_be_left_out (metaphone_encode u max) before longer_ascii_text c -> may_be_left_out (fun s => first_two (metaphone_encode u None s)) before longer_ascii_text c.
Proof.
  intros u max before c Hc M K a b Ha [Ht Hl]. specialize (K a b Ha (conj Ht Hl)).
  destruct (C24_total_on_ascii u None (a ++ b) Ht) as [r Er].
  assert (Ht2 : ascii_text (a ++ c :: b)).
  { intros x Hx. apply in_app_or in Hx as [Hx|[<-|Hx]]; [apply Ht, in_or_app; now left|exact Hc|apply Ht, in_or_app; now right]. }
  destruct (C24_total_on_ascii u None (a ++ c :: b) Ht2) as [r2 Er2]. rewrite Er, Er2. cbn [first_two bind]. f_equal.
  destruct max as [n|].
  - rewrite (C23_max_length_is_truncation u (a ++ b) n r) in K; [|rewrite str_upper_ascii, ascii_blen, map_length by auto using ascii_str_map_up; lia|exact Er].
    rewrite (C23_max_length_is_truncation u (a ++ c :: b) n r2) in K; [|rewrite str_upper_ascii, ascii_blen, map_length by auto using ascii_str_map_up; rewrite app_length in *; cbn [length] in *; lia|exact Er2].
    injection K as K. specialize (M n eq_refl).
    transitivity (firstn 2 (firstn n r2)); [now rewrite firstn_firstn, Nat.min_l by assumption|]. rewrite K. now rewrite firstn_firstn, Nat.min_l by assumption.
  - rewrite Er, Er2 in K. now injection K as ->.
Qed.
Theorem C90_signs_metaphone : forall u max c, (forall n, max = Some n -> (2 <= n)%nat) -> ascii_sign c ->
  ~ may_be_left_out (metaphone_encode u max) any_text longer_ascii_text c.
Proof.
  intros u max c M H K. apply first_two_left in K; [|apply H|exact M]. apply signs_iff in H. apply (no_member c). revert c H K. apart [([] : ustr, $ "AA")].
Qed.

(** ** Letters, after a letter *)
Lemma skipped : forall sx c, (sx_special_case_h_w sx = true /\ In c $ "HW") \/ get_mapping_code (sx_mapping sx) c = Ok SILENT ->
  forall A B n code p, soundex_loop sx n code p (A ++ c :: B) = soundex_loop sx n code p (A ++ B).
Proof.
  intros sx c H. assert (S1 : forall B n code p, soundex_loop sx n code p (c :: B) = soundex_loop sx n code p B).
  { intros B n code p. cbn [soundex_loop]. destruct (Nat.ltb n 4) eqn:L.
    - destruct H as [[S1 [<-|[<-|[]]]]|G]; [now rewrite S1|now rewrite S1|]. rewrite G. cbn [bind]. rewrite N.eqb_refl. now destruct (_ && _).
    - destruct B; cbn [soundex_loop]; now rewrite L. }
  induction A as [|x A IH]; intros B n code p; [apply S1|]. cbn [app soundex_loop]. destruct (Nat.ltb n 4); [|reflexivity].
  destruct (_ && _); [apply IH|]. destruct (get_mapping_code (sx_mapping sx) x) as [g| |]; cbn [bind]; [|reflexivity..]. destruct (g =? SILENT); [apply IH|].
  destruct (_ && _); apply IH.
Qed.
Lemma letter_cleaned : forall u c, is_letter c -> soundex_clean u [c] = [ascii_up c].
Proof.
  intros u c R. unfold is_letter in R; cbn in R. assert (L : c < 128) by lia. rewrite clean_ascii; [|intros x [<-|[]] _; exact L]. unfold ascii_letters. cbn [filter].
  replace (is_ascii_alpha c) with true by (symmetry; apply is_ascii_alpha_iff; lia). reflexivity.
Qed.
Lemma with_letter_cleaned : forall u a, with_letter a -> soundex_clean u a <> [].
Proof.
  intros u a (p & c & q & -> & H). change (p ++ c :: q) with (p ++ [c] ++ q). rewrite !clean_app, letter_cleaned by exact H. intros E. now destruct (soundex_clean u p).
Qed.
(** Any mapping: a letter given the sign - , and H and W when they are special. *)
Theorem C90_soundex : forall u sx c, is_letter c ->
  (sx_special_case_h_w sx = true /\ In c $ "HWhw") \/ nth_error (sx_mapping sx) (N.to_nat (ascii_up c - # "A")) = Some (# "-") ->
  may_be_left_out (soundex_encode u sx) with_letter any_text c.
Proof.
  intros u sx c L H a b Ha _. unfold soundex_encode. change (a ++ c :: b) with (a ++ [c] ++ b). rewrite !clean_app, letter_cleaned by exact L.
  pose proof (with_letter_cleaned u a Ha) as Na. destruct (soundex_clean u a) as [|f A]; [now elim Na|]. cbn [app].
  destruct (get_mapping_code _ f) as [g| |]; cbn [bind]; [|reflexivity..]. rewrite skipped; [reflexivity|].
  destruct H as [[S1 H]|H].
  - left. split; [exact S1|]. cbn in H. repeat (destruct H as [<-|H]; [vm_compute; tauto|]). destruct H.
  - right. unfold get_mapping_code. assert (R : 65 <= ascii_up c <= 90) by (unfold is_letter in L; cbn in L; destruct (ascii_up_cases c) as [[R E]|[R E]]; lia).
    destruct (N.ltb_spec (ascii_up c) 65); [lia|]. change (# "A") with 65 in H. rewrite H.
    replace (ascii_up c - 65 <? N.of_nat (length (sx_mapping sx))) with true; [reflexivity|]. symmetry. apply N.ltb_lt.
    assert (Q : (N.to_nat (ascii_up c - 65) < length (sx_mapping sx))%nat) by (apply nth_error_Some; rewrite H; discriminate). lia.
Qed.
Theorem C90_soundex_default : forall u c, is_letter c ->
  (may_be_left_out (soundex_encode u soundex_default) with_letter longer_ascii_text c <-> In c $ "HWhw").
Proof.
  intros u c L. split.
  - apply letters_iff in L. revert c L. apart [($ "R", $ "RZR"); ($ "UDBF", $ "")].
  - intros H a b Ha _. apply C90_soundex; [exact L|left; now split|exact Ha|exact I].
Qed.
Theorem C90_soundex_genealogy : forall u c, is_letter c ->
  (may_be_left_out (soundex_encode u (soundex_from DEFAULT_US_ENGLISH_GENEALOGY_MAPPING_SOUNDEX)) with_letter longer_ascii_text c <-> In c $ "AEHIOUWYaehiouwy").
Proof.
  intros u c L. split.
  - apply letters_iff in L. revert c L. apart [($ "A", $ "A")].
  - intros H a b Ha _. apply C90_soundex; [exact L| |exact Ha|exact I]. right. cbn in H. repeat (destruct H as [<-|H]; [reflexivity|]). destruct H.
Qed.
Theorem C90_mra : forall u c, is_letter c ->
  (may_be_left_out (mra_encode u) with_letter (several (is_whitespace u)) c <-> In c $ "AEIOUaeiou").
Proof.
  intros u c L. split.
  - intros K. assert (K2 : may_be_left_out (mra_encode u) with_letter (fun s => s = $ "MSSO") c).
    { intros a b Ha Hb. apply K; [exact Ha|]. rewrite Hb. unfold several. apply Nat.leb_le. reflexivity. }
    clear K. apply letters_iff in L. revert c L K2. eapply (needed _ _ text_eqb _ _ _ _ [($ "MSSO", [])] text_eqb_refl); [|vm_compute; reflexivity].
    intros a b [E|[]]. injection E as <- <-. split; [now apply capital_letter|reflexivity].
  - intros K a b (p & f & q & -> & F) S.
    assert (S2 : several (is_whitespace u) ((p ++ f :: q) ++ c :: b)).
    { unfold several in *. rewrite filter_app, app_length in *. cbn [filter] in *. destruct (negb (is_whitespace u c)); cbn [length] in *; lia. }
    rewrite !mra_several by assumption. do 2 f_equal. change ((p ++ f :: q) ++ c :: b) with ((p ++ f :: q) ++ [c] ++ b). rewrite !clean_name_app.
    assert (E : exists d, clean_name u [c] = [d] /\ mra_vowel d = true).
    { clear S S2. cbn in K. repeat (destruct K as [<-|K]; [eexists; split; reflexivity|]). destruct K. }
    destruct E as (d & E & V). rewrite E.
    assert (N0 : clean_name u (p ++ f :: q) <> []).
    { change (p ++ f :: q) with (p ++ [f] ++ q). rewrite !clean_name_app. assert (E2 : exists d, clean_name u [f] = [d]).
      { apply letters_iff in F. clear - F. cbn in F. repeat (destruct F as [<-|F]; [eexists; reflexivity|]). destruct F. }
      destruct E2 as (e & E2). rewrite E2. now destruct (clean_name u p). }
    rewrite <- (clean_name_app u p (f :: q)). destruct (clean_name u (p ++ f :: q)) as [|x l]; [now elim N0|]. 
    assert (Q : forall B, remove_vowels u ((x :: l) ++ [d] ++ B) = remove_vowels u ((x :: l) ++ B)).
    { intros B. unfold remove_vowels. cbn [app]. rewrite !(filter_app _ l). cbn [filter]. now rewrite V. }
    now rewrite Q.
Qed.
(** In the others every letter counts somewhere. *)
Ltac each_letter cs := let u := fresh "u" in let c := fresh "c" in let L := fresh "L" in let K := fresh "K" in
  intros u c L K; apply letters_iff in L; apply (no_member c); revert c L K; apart cs.
Theorem C90_refined : forall u c, is_letter c -> ~ may_be_left_out (refined_encode u ENGLISH_MAPPING) with_letter longer_ascii_text c.
Proof. each_letter [($ "UJL", $ ""); ($ "FNB", $ "R")]. Qed.
Theorem C90_cologne : forall u c, is_letter c -> ~ may_be_left_out (cologne_encode u) with_letter longer_ascii_text c.
Proof. each_letter [($ "WL", $ "L"); ($ "RQ", $ "")]. Qed.
Theorem C90_caverphone1 : forall u c, is_letter c -> ~ may_be_left_out (caverphone1_encode u) with_letter longer_ascii_text c.
Proof. each_letter [($ "PMB", $ "")]. Qed.
Theorem C90_caverphone2 : forall u c, is_letter c -> ~ may_be_left_out (caverphone2_encode u) with_letter longer_ascii_text c.
Proof. each_letter [($ "LBME", $ "")]. Qed.
Theorem C90_nysiis : forall u strict c, is_letter c -> ~ may_be_left_out (nysiis_encode u strict) with_letter longer_ascii_text c.
Proof. intros u [|]; revert u; each_letter [($ "NT", $ "")]. Qed.
Theorem C90_phonex : forall u c, is_letter c -> ~ may_be_left_out (phonex_encode u 4) with_letter longer_ascii_text c.
Proof. each_letter [($ "HG", $ "X")]. Qed.
Theorem C90_daitch_mokotoff : forall u c, is_letter c -> ~ may_be_left_out (dms_soundex u dms_default) with_letter longer_ascii_text c.
Proof. each_letter [($ "CJ", $ "")]. Qed.
Theorem C90_metaphone : forall u max c, (forall n, max = Some n -> (2 <= n)%nat) -> is_letter c ->
  ~ may_be_left_out (metaphone_encode u max) with_letter longer_ascii_text c.
Proof.
  intros u max c M L K. apply first_two_left in K; [|unfold is_letter in L; cbn in L; lia|exact M]. apply letters_iff in L. apply (no_member c). revert c L K. apart [($ "L", $ "L"); ($ "XW", $ "")].
Qed.
Theorem C90_double_metaphone : forall u c, is_letter c -> ~ may_be_left_out (double_metaphone u (Some 4%nat)) with_letter longer_ascii_text c.
Proof.
  intros u c L K. apply letters_iff in L. apply (no_member c). revert c L K.
  eapply (needed _ _ dm_eqb _ _ _ _ [($ "C", $ "KT")] dm_eqb_refl); [contexts|vm_compute; reflexivity].
Qed.
Theorem C90_nonvacuous :
  ascii_sign (# "'") /\ is_letter (# "h") /\ with_letter $ "O'" /\ without_sigma $ "O'Brien" /\ several (is_whitespace latin1_only) $ "O Brien"
  /\ soundex_encode latin1_only soundex_default $ "O'Brien" = soundex_encode latin1_only soundex_default $ "OBrien"
  /\ soundex_encode latin1_only soundex_default $ "Ashcraft" = soundex_encode latin1_only soundex_default $ "Ascraft"
  /\ soundex_encode latin1_only soundex_default $ "Ascaft" <> soundex_encode latin1_only soundex_default $ "Ascraft"
  /\ mra_encode latin1_only $ "O Brien" = mra_encode latin1_only $ "O Brn" /\ cologne_encode latin1_only $ "P-H" <> cologne_encode latin1_only $ "PH"
  /\ dms_soundex latin1_only dms_default $ "Mosko witz" = dms_soundex latin1_only dms_default $ "Moskowitz".
Proof.
  assert (E : forall c, (65 <=? c) && (c <=? 90) || (97 <=? c) && (c <=? 122) = true -> is_letter c).
  { intros c H. apply orb_true_iff in H as [H|H]; apply andb_true_iff in H as [H1 H2]; apply N.leb_le in H1, H2; [left|right]; cbn; lia. }
  split; [unfold ascii_sign; cbn; lia|]. split; [now apply E|]. split; [exists [], (# "O"), $ "'"; split; [reflexivity|now apply E]|].
  split; [intros H; vm_compute in H; intuition discriminate|]. split; [apply Nat.leb_le; reflexivity|].
  split; [vm_compute; reflexivity|]. split; [vm_compute; reflexivity|]. split; [vm_compute; discriminate|]. split; [vm_compute; reflexivity|].
  split; [vm_compute; discriminate|]. vm_compute. reflexivity.
Qed.
