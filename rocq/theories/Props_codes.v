(** * C81: exactly which codes exist.  Each encoder reaches every code of its form (Spec_codes.v) and no other. *)
From Verif Require Import Base UnicodeM Lib Soundex Cologne MatchRating Phonex Metaphone DoubleMetaphone Caverphone Nysiis DaitchMokotoff DmRules
  BaseLemmas Spec_common Spec_soundex Spec_codes Soundex_proofs UnicodeLemmas Props_metaphone Props_double_metaphone Props_caverphone_spec
  Codes_proofs Codes_reading_proofs Codes_caverphone_proofs Codes_nysiis_proofs Codes_daitch_proofs Codes_alternate_proofs.
Local Open Scope N_scope.

Theorem C81_soundex : forall u code,
  (exists s, soundex_encode u soundex_default s = Ok code) <-> soundex_form code.
Proof. exact soundex_codes. Qed.
Theorem C81_genealogy : forall u code,
  (exists s, soundex_encode u (soundex_from DEFAULT_US_ENGLISH_GENEALOGY_MAPPING_SOUNDEX) s = Ok code)
  <-> genealogy_form code.
Proof. exact genealogy_codes. Qed.
Theorem C81_refined : forall u code,
  (exists s, refined_encode u ENGLISH_MAPPING s = Ok code) <-> refined_form code.
Proof. exact refined_codes. Qed.
Theorem C81_cologne : forall u code, (exists s, cologne_encode u s = Ok code) <-> cologne_form code.
Proof. exact cologne_codes_exist. Qed.
Theorem C81_match_rating : forall u code,
  (exists s, ascii_str s /\ mra_encode u s = Ok code) <-> match_rating_form code.
Proof. exact match_rating_codes. Qed.
Theorem C81_phonex : forall u n code, (2 <= n)%nat ->
  (exists s, letters_are_ascii (is_alphabetic u) s /\ phonex_encode u n s = Ok code) <-> phonex_form n code.
Proof. exact phonex_codes. Qed.
Theorem C81_metaphone : forall u code,
  (exists s, ascii_str s /\ metaphone_encode u None s = Ok code) <-> metaphone_form code.
Proof. exact metaphone_codes. Qed.
Theorem C81_double_metaphone : forall u code,
  (exists s alternate, double_metaphone u None s = Ok {| dm_primary := code; dm_alternate := alternate |})
  <-> double_metaphone_form code.
Proof. exact double_metaphone_primaries. Qed.
(** With a limit: the codes up to this length (a text of one character ignores Metaphone's). *)
Lemma metaphone_form_prefix : forall n code, metaphone_form code -> metaphone_form (firstn n code).
Proof.
  intros n code [(c & H1 & H2 & ->)|(ds & M & H)].
  - destruct n as [|n]; [right; exists []; split; [intros c' []|now left]|]. left. exists c. cbn [firstn]. rewrite firstn_nil. auto.
  - right. destruct H as [->|(v & Hv & ->)].
    + exists (firstn n ds). split; [|now left]. intros c Hc. apply M. now apply (In_firstn _ n).
    + destruct n as [|n]; [exists []; split; [intros c' []|now left]|]. exists (firstn n ds).
      split; [intros c Hc; apply M; now apply (In_firstn _ n)|]. right. now exists v.
Qed.
Lemma metaphone_form_one : forall c, metaphone_form [c] -> c < 128 /\ ~ (97 <= c <= 122).
Proof.
  intros c [(x & H1 & H2 & E)|(ds & M & H)]; [injection E as <-; auto|].
  assert (K : In c $ "AEIOUBFHJKLMNPRSTWXY0").
  { change $ "AEIOUBFHJKLMNPRSTWXY0" with ($ "AEIOU" ++ $ "BFHJKLMNPRSTWXY0"). apply in_or_app.
    destruct H as [<-|(v & Hv & E)]; [right; apply M; now left|]. injection E as -> _. now left. }
  assert (Q : (fun c => (c <? 128) && negb ((97 <=? c) && (c <=? 122))) c = true)
    by (apply (on_set (fun c => (c <? 128) && negb ((97 <=? c) && (c <=? 122))) $ "AEIOUBFHJKLMNPRSTWXY0"); [exact K|reflexivity]).
  cbv beta in Q. apply andb_true_iff in Q as [Q1 Q2]. apply N.ltb_lt in Q1. split; [exact Q1|].
  intros [A B]. apply N.leb_le in A, B. rewrite A, B in Q2. discriminate.
Qed.
Theorem C81_metaphone_limit : forall u n code,
  (exists s, ascii_str s /\ metaphone_encode u (Some n) s = Ok code)
  <-> metaphone_form code /\ (length code <= Nat.max n 1)%nat.
Proof.
  intros u n code. split.
  - intros (s & A & H). destruct (Nat.eq_dec (length s) 1) as [L|L].
    + assert (E : metaphone_encode u (Some n) s = metaphone_encode u None s).
      { destruct s as [|c [|]]; try discriminate. apply ascii_str_cons in A as [A' _].
        now rewrite !C23_single_character_ignores_limit by exact A'. }
      assert (L1 : length code = 1%nat).
      { destruct s as [|c [|]]; try discriminate. apply ascii_str_cons in A as [A' _].
        rewrite C23_single_character_ignores_limit in H by exact A'. injection H as <-. reflexivity. }
      split; [|lia]. apply (C81_metaphone u). exists s. split; [exact A|]. now rewrite <- E.
    + destruct (C23_max_length_ascii u s n A L) as (c & H1 & H2 & H3). rewrite H in H2. injection H2 as ->.
      split; [|lia]. apply metaphone_form_prefix. apply (C81_metaphone u). now exists s.
  - intros [F L]. destruct (Nat.eq_dec (length code) 1) as [L1|L1].
    + destruct code as [|c [|]]; try discriminate. apply metaphone_form_one in F as [F1 F2]. exists [c].
      split; [apply ascii_str_cons; split; [exact F1|apply ascii_str_nil]|].
      rewrite C23_single_character_ignores_limit by exact F1. do 2 f_equal. unfold ascii_up, is_ascii_lower.
      destruct ((97 <=? c) && (c <=? 122)) eqn:E; [|reflexivity]. apply andb_true_iff in E. rewrite !N.leb_le in E. contradiction.
    + apply (C81_metaphone u) in F as (s & A & H). exists s. split; [exact A|].
      assert (Ls : length s <> 1%nat).
      { intros K. destruct s as [|c [|]]; try discriminate. apply ascii_str_cons in A as [A' _].
        rewrite C23_single_character_ignores_limit in H by exact A'. injection H as <-. now apply L1. }
      destruct (C23_max_length_ascii u s n A Ls) as (c & H1 & H2 & _). rewrite H in H1. injection H1 as <-.
      rewrite H2, firstn_all2 by lia. reflexivity.
Qed.
Theorem C81_double_metaphone_limit : forall u n code,
  (exists s alternate, double_metaphone u (Some n) s = Ok {| dm_primary := code; dm_alternate := alternate |})
  <-> double_metaphone_form code /\ (length code <= n)%nat.
Proof.
  intros u n code. split.
  - intros (s & a & H). split; [|now apply C26_max_length in H as [H _]].
    apply C27_alphabet in H as (H1 & H2 & _). cbn [dm_primary] in H1, H2.
    destruct code as [|c r]; [exists []; split; [intros x []|now left]|]. cbn [tl] in H2.
    assert (Hc : In c $ "AFHJKLMNPRSTX0") by (apply H1; now left). destruct Hc as [<-|Hc].
    + exists r. split; [exact H2|now right].
    + exists (c :: r). split; [|now left]. intros x [<-|Hx]; [exact Hc|now apply H2].
  - intros [F L]. apply (C81_double_metaphone u) in F as (s & a & H). exists s, (firstn n a).
    apply (C26_truncation u n) in H. rewrite firstn_all2 in H by exact L. exact H.
Qed.
Theorem C81_double_metaphone_alternate : forall u code,
  (exists s primary, double_metaphone u None s = Ok {| dm_primary := primary; dm_alternate := code |}) <-> alternate_form code.
Proof. exact alternate_codes. Qed.
Theorem C81_double_metaphone_alternate_limit : forall u n code,
  (exists s primary, double_metaphone u (Some n) s = Ok {| dm_primary := primary; dm_alternate := code |})
  <-> alternate_form code /\ (length code <= n)%nat.
Proof. exact alternate_codes_limit. Qed.
(** Whatever the text and the limit, the alternate code contains no 0, and a space only at its end. *)
Theorem C27_alternate_code : forall u max s r, double_metaphone u max s = Ok r ->
  ~ In (# "0") (dm_alternate r) /\ (forall before after, dm_alternate r = before ++ $ " " ++ after -> after = []).
Proof.
  intros u max s r H. apply alternate_with_space, with_space_form in H as (f & ds & b & Hf & Hd & Hb & ->). split.
  - intros K. apply in_app_or in K as [K|K]; [|apply in_app_or in K as [K|K]].
    + destruct Hf as [<-|[<-|[]]]; vm_compute in K; intuition discriminate.
    + apply Hd in K. vm_compute in K. intuition discriminate.
    + destruct Hb as [<-|[<-|[]]]; vm_compute in K; intuition discriminate.
  - intros before after E.
    assert (K : ~ In (# " ") (f ++ ds)).
    { intros K. apply in_app_or in K as [K|K]; [destruct Hf as [<-|[<-|[]]]; vm_compute in K; intuition discriminate|].
      apply Hd in K. vm_compute in K. intuition discriminate. }
    rewrite app_assoc in E. revert E K. generalize (f ++ ds). intros w. revert before.
    induction w as [|c w IH]; intros before E K.
    + destruct Hb as [<-|[<-|[]]]; destruct before as [|x before]; try discriminate.
      * now injection E as <-.
      * injection E as _ E. destruct before; discriminate.
    + destruct before as [|x before]; injection E as Ex E; [exfalso; apply K; now left|].
      apply (IH before E). intros Hk. apply K. now right.
Qed.
Example C81_nonvacuous_alternate :
  (exists s primary, double_metaphone latin1_only None s = Ok {| dm_primary := primary; dm_alternate := $ "AXXJ " |})
  /\ ~ (exists s primary, double_metaphone latin1_only None s = Ok {| dm_primary := primary; dm_alternate := $ "0" |}).
Proof.
  split.
  - apply C81_double_metaphone_alternate. exists $ "A", $ "XXJ", $ " ". split; [cbn; tauto|].
    split; [intros c Hc; cbn in Hc; repeat (destruct Hc as [<-|Hc]; [cbn; tauto|]); destruct Hc|]. split; [cbn; tauto|reflexivity].
  - intros (s & p & H). apply C27_alternate_code in H as [H _]. apply H. now left.
Qed.
Theorem C81_nysiis : forall u code,
  (exists s, letters_are_ascii (is_alphabetic u) s /\ nysiis_encode u false s = Ok code) <-> nysiis_form code.
Proof. exact nysiis_codes. Qed.
Theorem C81_nysiis_strict : forall u code,
  (exists s, letters_are_ascii (is_alphabetic u) s /\ nysiis_encode u true s = Ok code)
  <-> exists full, nysiis_form full /\ code = firstn 6 full.
Proof. exact nysiis_strict_codes. Qed.
Theorem C81_caverphone1 : forall u code,
  (exists s, (forall c, In c (letters_of u s) -> c < 128) /\ caverphone1_encode u s = Ok code) <-> caverphone1_form code.
Proof. exact caverphone1_codes. Qed.
Theorem C81_caverphone2 : forall u code,
  (exists s, (forall c, In c (letters_of u s) -> c < 128) /\ caverphone2_encode u s = Ok code) <-> caverphone2_form code.
Proof. exact caverphone2_codes. Qed.
Theorem C81_daitch_mokotoff : forall u code,
  (exists s out, dms_soundex u dms_default s = Ok out /\ In code (split_on (# "|") out)) <-> daitch_form code.
Proof. exact daitch_soundex_codes. Qed.
Theorem C81_daitch_mokotoff_encode : forall u code,
  (exists s, dms_encode u dms_default s = Ok code) <-> daitch_form code.
Proof. exact daitch_encode_codes. Qed.

(** Codes no name was made for, but that some text has; and words that are no code. *)
Ltac in_set := intros c Hc; cbn in Hc; repeat (destruct Hc as [<-|Hc]; [cbn; tauto|]); destruct Hc.
Example C81_nonvacuous :
  (exists s, soundex_encode latin1_only soundex_default s = Ok $ "Q166")
  /\ ~ (exists s, soundex_encode latin1_only soundex_default s = Ok $ "Q106")
  /\ (exists s, (forall c, In c (letters_of latin1_only s) -> c < 128)
        /\ caverphone2_encode latin1_only s = Ok $ "YWRLLLLWKA")
  /\ ~ (exists s, (forall c, In c (letters_of latin1_only s) -> c < 128)
        /\ caverphone2_encode latin1_only s = Ok $ "TMPR111111")
  /\ (exists s alternate, double_metaphone latin1_only None s = Ok {| dm_primary := $ "AHHJ0XHR"; dm_alternate := alternate |}).
Proof.
  split; [|split; [|split; [|split]]].
  - apply C81_soundex. right. exists (# "Q"), $ "166". split; [cbn; tauto|]. split; [in_set|]. split; [cbn; lia|reflexivity].
  - rewrite C81_soundex. intros [E|(f & ds & _ & M & [L E])]; [discriminate|].
    destruct ds as [|a [|b ds]]; try discriminate. injection E as _ _ <- _.
    assert (K : In (# "0") $ "123456") by (apply M; cbn; tauto). vm_compute in K. intuition discriminate.
  - apply C81_caverphone2. exists $ "Y", $ "WRLLLLWK", $ "A". split; [cbn; tauto|]. split; [in_set|]. split; [cbn; tauto|].
    split; [split; [cbn; lia|reflexivity]|]. intros K. cbn in K. lia.
  - rewrite C81_caverphone2. intros (front & body & back & Hf & Hb & Hk & [L E] & Hl).
    set (w := front ++ body ++ back) in *.
    assert (N1 : ~ In (# "1") w).
    { unfold w. intros K. apply in_app_or in K as [K|K]; [|apply in_app_or in K as [K|K]].
      - destruct Hf as [<-|[<-|[<-|[]]]]; vm_compute in K; intuition discriminate.
      - apply Hb in K. vm_compute in K. intuition discriminate.
      - destruct Hk as [<-|[<-|[]]]; vm_compute in K; intuition discriminate. }
    clearbody w. destruct w as [|a [|b [|c [|d [|e w]]]]]; cbn [app repeat length Nat.sub] in E; try discriminate.
    + injection E as <- <- <- <-. apply (Hl ltac:(cbn; lia) $ "TMP" (# "R") eq_refl). cbn. tauto.
    + injection E as _ _ _ _ <- _. apply N1. do 4 right. now left.
  - apply C81_double_metaphone. exists $ "HHJ0XHR". split; [in_set|]. right. reflexivity.
Qed.
Example C81_nonvacuous_daitch_mokotoff :
  (exists s, dms_encode latin1_only dms_default s = Ok $ "291199")
  /\ (exists s, dms_encode latin1_only dms_default s = Ok $ "000000")
  /\ ~ (exists s, dms_encode latin1_only dms_default s = Ok $ "320000")
  /\ ~ (exists s, dms_encode latin1_only dms_default s = Ok $ "304000").
Proof.
  assert (no : forall a b, In b $ "02" -> ~ daitch_form (a :: b :: $ "4000") \/ b = # "2").
  { intros a b Hb. cbn in Hb. destruct Hb as [<-|[<-|[]]]; [left|now right]. intros (f & ds & Hf & M & L & E).
    assert (K : forall x, In x $ "02" -> ~ In x ds).
    { intros x Hx Hi. apply M in Hi. cbn in Hx. destruct Hx as [<-|[<-|[]]]; vm_compute in Hi; intuition discriminate. }
    destruct Hf as [<-|[<-|[<-|[]]]]; destruct ds as [|d1 [|d2 ds]]; cbn in E; try discriminate; injection E;
      intros; subst; (eapply (K (# "0")); [cbn; tauto|cbn; tauto]). }
  split; [|split; [|split]].
  - apply C81_daitch_mokotoff_encode. exists $ "2", $ "91199". split; [cbn; tauto|]. split; [in_set|]. split; [cbn; lia|reflexivity].
  - apply C81_daitch_mokotoff_encode. exists [], []. split; [cbn; tauto|]. split; [in_set|]. split; [cbn; lia|reflexivity].
  - rewrite C81_daitch_mokotoff_encode. intros (f & ds & Hf & M & L & E).
    assert (K : ~ In (# "2") ds) by (intros Hi; apply M in Hi; vm_compute in Hi; intuition discriminate).
    destruct Hf as [<-|[<-|[<-|[]]]]; destruct ds as [|d1 [|d2 ds]]; cbn in E; try discriminate. injection E. intros _ <- _.
    apply K. cbn. tauto.
  - rewrite C81_daitch_mokotoff_encode. destruct (no (# "3") (# "0") ltac:(cbn; tauto)) as [H|H]; [exact H|discriminate].
Qed.
