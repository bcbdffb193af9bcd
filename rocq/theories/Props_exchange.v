(** * C89: letters that may be exchanged. *)
From Verif Require Import Base UnicodeM Lib Helper Soundex Cologne MatchRating Caverphone Nysiis Phonex Metaphone DoubleMetaphone RulesParser DaitchMokotoff DmRules
  BaseLemmas Spec_common Spec_doubled Spec_exchange Soundex_proofs Dm_proofs Props_doubled Exchange_proofs Exchange_caverphone_proofs Exchange_dm_proofs
  Exchange_phonex_proofs Exchange_nysiis_proofs.
Local Open Scope N_scope.

(** The kind of the contexts given. *)
Lemma letter_lit : forall c, (65 <=? c) && (c <=? 90) = true -> is_letter c.
Proof. intros c H. apply andb_true_iff in H as [H1 H2]. apply N.leb_le in H1, H2. left. change (# "A") with 65. change (# "Z") with 90. lia. Qed.
Definition capitals (s : ustr) : bool := forallb (fun c => (65 <=? c) && (c <=? 90)) s.
Lemma capitals_ascii : forall s, capitals s = true -> ascii_text s.
Proof. intros s H c I. unfold capitals in H. rewrite forallb_forall in H. specialize (H c I). apply andb_true_iff in H as [_ H]. apply N.leb_le in H. lia. Qed.
Lemma capitals_latin1 : forall s, capitals s = true -> latin1_text s.
Proof. intros s H c I. assert (c < 128) by now apply (capitals_ascii s). lia. Qed.
Lemma capitals_letter : forall s, capitals s = true -> s <> [] -> with_letter s.
Proof. intros [|c s] H Hs; [congruence|]. cbn in H. apply andb_true_iff in H as [H _]. exists [], c, s. split; [reflexivity|now apply letter_lit]. Qed.
Lemma capitals_two : forall s, capitals s = true -> (2 <= length s)%nat -> with_two_letters s.
Proof.
  intros [|c [|d s]] H L; cbn [length] in L; [lia..|]. unfold capitals in H. cbn [forallb] in H. apply andb_true_iff in H as [H1 H]. apply andb_true_iff in H as [H2 _].
  exists [], c, [], d, s. split; [reflexivity|]. split; now apply letter_lit.
Qed.
Lemma capitals_substance : forall s, capitals s = true -> s <> [] -> with_substance s.
Proof.
  intros s H Hs. split; [now apply capitals_ascii|]. destruct s as [|c s]; [congruence|]. cbn in H. apply andb_true_iff in H as [H _].
  apply andb_true_iff in H as [H1 H2]. apply N.leb_le in H1, H2. exists [], c, s. split; [reflexivity|]. split; [|lia].
  intros I. vm_compute in I. repeat (destruct I as [<-|I]; [lia|]). destruct I.
Qed.
Lemma capitals_three : forall s, capitals s = true -> (3 <= length s)%nat -> with_three_letters s.
Proof.
  intros s H L. split; [now apply capitals_ascii|]. destruct s as [|a [|b [|c s]]]; cbn [length] in L; [lia..|].
  unfold capitals in H. cbn [forallb] in H. apply andb_true_iff in H as [H1 H]. apply andb_true_iff in H as [H2 H]. apply andb_true_iff in H as [H3 _].
  exists a, b, c, s. split; [reflexivity|]. split; [now apply letter_lit|]. split; now apply letter_lit.
Qed.
Ltac contexts K := let I := fresh "I" in intros a b I; cbn [In] in I;
  repeat (destruct I as [I|I]; [apply pair_equal_spec in I as [<- <-]; split; K|]); destruct I.
Ltac kinds := first [exact I|apply capitals_ascii; vm_compute; reflexivity|apply capitals_latin1; vm_compute; reflexivity
  |apply capitals_letter; [vm_compute; reflexivity|discriminate]|apply capitals_substance; [vm_compute; reflexivity|discriminate]
  |apply capitals_two; [vm_compute; reflexivity|cbn; lia]|apply capitals_three; [vm_compute; reflexivity|cbn; lia]].
Ltac apart cs := apply (tells_apart _ _ text_eqb _ _ _ cs); [exact text_eqb_refl|contexts kinds|vm_compute; reflexivity].
Lemma hw_iff : forall c, (c =? # "H") || (c =? # "W") = true <-> In c $ "HW".
Proof. intros c. rewrite orb_true_iff, !N.eqb_eq. cbn. intuition. Qed.
(** ** Soundex: two letters with the same code, for any mapping; for the usual one, exactly these *)
Theorem C89_soundex : forall u m hw x y, length m = 26%nat -> # "A" <= x <= # "Z" -> # "A" <= y <= # "Z" ->
  nth (N.to_nat (x - # "A")) m 0 = nth (N.to_nat (y - # "A")) m 0 ->
  (hw = true -> (In x $ "HW" <-> In y $ "HW")) ->
  exchangeable (soundex_encode u {| sx_mapping := m; sx_special_case_h_w := hw |}) with_letter any_text x y.
Proof.
  intros u m hw x y L Hx Hy E H. apply soundex_exchange; try assumption.
  - unfold silent_hw. cbn [sx_special_case_h_w]. destruct hw; [|reflexivity]. cbn [andb]. specialize (H eq_refl).
    apply eq_true_iff_eq. rewrite !hw_iff. exact H.
  - right. cbn [sx_mapping]. rewrite (mapping_digit m x L Hx), (mapping_digit m y L Hy). f_equal. exact E.
Qed.
Definition soundex_groups : list ustr := [$ "AEIOUY"; $ "BFPV"; $ "CGJKQSXZ"; $ "DT"; $ "HW"; $ "MN"].
Lemma checked_pairs : forall groups (P : N -> N -> bool), forallb (fun g => forallb (fun x => forallb (P x) g) g) groups = true ->
  forall x y, together groups x y -> x = y \/ P x y = true.
Proof.
  intros groups P H x y [->|(g & Ig & Ix & Iy)]; [now left|]. right. rewrite forallb_forall in H. specialize (H g Ig).
  rewrite forallb_forall in H. specialize (H x Ix). rewrite forallb_forall in H. now apply H.
Qed.
Theorem C89_soundex_default : forall u x y, # "A" <= x <= # "Z" -> # "A" <= y <= # "Z" ->
  (exchangeable (soundex_encode u soundex_default) with_letter any_text x y <-> together soundex_groups x y).
Proof.
  intros u x y Hx Hy. split.
  - revert x y Hx Hy. apart [($ "L", $ "L"); ($ "G", $ "")].
  - intros T. assert (C := checked_pairs soundex_groups (fun x y => (nth (N.to_nat (x - 65)) (sx_mapping soundex_default) 0 =? nth (N.to_nat (y - 65)) (sx_mapping soundex_default) 0)
      && Bool.eqb (isin x $ "HW") (isin y $ "HW")) eq_refl x y T). destruct C as [->|C]; [intros a b _ _; reflexivity|].
    apply andb_true_iff in C as [C1 C2]. apply N.eqb_eq in C1. apply Bool.eqb_prop in C2.
    apply (C89_soundex u DEFAULT_US_ENGLISH_MAPPING_SOUNDEX true x y eq_refl Hx Hy C1). intros _. rewrite <- !isin_In, C2. reflexivity.
Qed.
Definition genealogy_groups : list ustr := [$ "AEHIOUWY"; $ "BFPV"; $ "CGJKQSXZ"; $ "DT"; $ "MN"].
Theorem C89_soundex_genealogy : forall u x y, # "A" <= x <= # "Z" -> # "A" <= y <= # "Z" ->
  (exchangeable (soundex_encode u {| sx_mapping := DEFAULT_US_ENGLISH_GENEALOGY_MAPPING_SOUNDEX; sx_special_case_h_w := false |}) with_letter any_text x y
    <-> together genealogy_groups x y).
Proof.
  intros u x y Hx Hy. split.
  - revert x y Hx Hy. apart [($ "I", $ "")].
  - intros T. assert (C := checked_pairs genealogy_groups (fun x y => nth (N.to_nat (x - 65)) DEFAULT_US_ENGLISH_GENEALOGY_MAPPING_SOUNDEX 0 =? nth (N.to_nat (y - 65)) DEFAULT_US_ENGLISH_GENEALOGY_MAPPING_SOUNDEX 0)
      eq_refl x y T). destruct C as [->|C]; [intros a b _ _; reflexivity|].
    apply N.eqb_eq in C. apply (C89_soundex u DEFAULT_US_ENGLISH_GENEALOGY_MAPPING_SOUNDEX false x y eq_refl Hx Hy C). discriminate.
Qed.

(** ** Refined Soundex *)
Theorem C89_refined : forall u m x y, length m = 26%nat -> # "A" <= x <= # "Z" -> # "A" <= y <= # "Z" ->
  nth (N.to_nat (x - # "A")) m 0 = nth (N.to_nat (y - # "A")) m 0 -> exchangeable (refined_encode u m) with_letter any_text x y.
Proof.
  intros u m x y L Hx Hy E. apply refined_exchange; try assumption. rewrite (mapping_digit m x L Hx), (mapping_digit m y L Hy). f_equal. exact E.
Qed.
Definition refined_groups : list ustr := [$ "AEHIOUWY"; $ "BP"; $ "CKS"; $ "DT"; $ "FV"; $ "GJ"; $ "MN"; $ "QXZ"].
Theorem C89_refined_default : forall u x y, # "A" <= x <= # "Z" -> # "A" <= y <= # "Z" ->
  (exchangeable (refined_encode u ENGLISH_MAPPING) with_letter any_text x y <-> together refined_groups x y).
Proof.
  intros u x y Hx Hy. split.
  - revert x y Hx Hy. apart [($ "G", $ "")].
  - intros T. assert (C := checked_pairs refined_groups (fun x y => nth (N.to_nat (x - 65)) ENGLISH_MAPPING 0 =? nth (N.to_nat (y - 65)) ENGLISH_MAPPING 0)
      eq_refl x y T). destruct C as [->|C]; [intros a b _ _; reflexivity|].
    apply N.eqb_eq in C. apply (C89_refined u ENGLISH_MAPPING x y eq_refl Hx Hy C).
Qed.

(** ** Cologne: anywhere *)
Theorem C89_cologne : forall u x y, # "A" <= x <= # "Z" -> # "A" <= y <= # "Z" ->
  (exchangeable (cologne_encode u) any_text any_text x y <-> together [$ "AOU"; $ "DT"; $ "EIJY"; $ "FVW"; $ "KQ"; $ "MN"; $ "SZ"] x y).
Proof.
  intros u x y Hx Hy. split; [|now apply cologne_exchange].
  revert x y Hx Hy. apart [($ "", $ ""); ($ "C", $ "H")].
Qed.

(** ** Match rating: the vowels, once something stands before them *)
Theorem C89_match_rating : forall u x y, # "A" <= x <= # "Z" -> # "A" <= y <= # "Z" ->
  (exchangeable (mra_encode u) with_substance ascii_text x y <-> together [$ "AEIOU"] x y).
Proof.
  intros u x y Hx Hy. split.
  - revert x y Hx Hy. apart [($ "I", $ "")].
  - intros [->|(g & [<-|[]] & Ix & Iy)]; [intros a b _ _; reflexivity|now apply mra_exchange].
Qed.

(** ** Caverphone: anywhere *)
Theorem C89_caverphone1 : forall u x y, # "A" <= x <= # "Z" -> # "A" <= y <= # "Z" ->
  (exchangeable (caverphone1_encode u) ascii_text ascii_text x y <-> together [$ "FV"; $ "KX"; $ "SZ"] x y).
Proof.
  intros u x y Hx Hy. split; [|now apply caverphone1_exchange].
  revert x y Hx Hy. apart [($ "ZJ", $ "Y"); ($ "QDGC", $ "A"); ($ "", $ "H"); ($ "CO", $ "GH"); ($ "T", $ "A"); ($ "C", $ "UGH")].
Qed.
Theorem C89_caverphone2 : forall u x y, # "A" <= x <= # "Z" -> # "A" <= y <= # "Z" ->
  (exchangeable (caverphone2_encode u) ascii_text ascii_text x y <-> together [$ "FV"; $ "KX"; $ "SZ"] x y).
Proof.
  intros u x y Hx Hy. split; [|now apply caverphone2_exchange].
  revert x y Hx Hy. apart [($ "J", $ "I"); ($ "KC", $ "Q"); ($ "D", $ ""); ($ "RTI", $ "GN"); ($ "", $ "H"); ($ "C", $ "UGH")].
Qed.

(** ** Daitch-Mokotoff: anywhere after Latin-1 letters *)
Lemma dm_exchange : forall u br x y a b, # "A" <= x <= # "Z" -> # "A" <= y <= # "Z" -> together [$ "BFVW"; $ "GQ"] x y -> latin1_text a ->
  inner_soundex u dms_default (a ++ x :: b) br = inner_soundex u dms_default (a ++ y :: b) br.
Proof.
  intros u br x y a b Hx Hy [->|(g & Ig & Ix & Iy)] Ha; [reflexivity|].
  assert (E : exists e e' letters r, dms_source u dms_default [x] = [e] /\ dms_source u dms_default [y] = [e'] /\ In e letters /\ In e' letters
    /\ class_check 256 dms_default letters r = true).
  { destruct Ig as [<-|[<-|[]]]; [|].
    - assert (C : class_check 256 dms_default $ "bfvw" $ "7" = true) by (vm_compute; reflexivity).
      vm_compute in Ix, Iy. repeat (destruct Ix as [<-|Ix]; [|]); try destruct Ix; repeat (destruct Iy as [<-|Iy]; [|]); try destruct Iy;
        do 2 eexists; exists $ "bfvw", $ "7"; (split; [reflexivity|]); (split; [reflexivity|]); (split; [vm_compute; tauto|]); (split; [vm_compute; tauto|]); exact C.
    - assert (C : class_check 256 dms_default $ "gq" $ "5" = true) by (vm_compute; reflexivity).
      vm_compute in Ix, Iy. repeat (destruct Ix as [<-|Ix]; [|]); try destruct Ix; repeat (destruct Iy as [<-|Iy]; [|]); try destruct Iy;
        do 2 eexists; exists $ "gq", $ "5"; (split; [reflexivity|]); (split; [reflexivity|]); (split; [vm_compute; tauto|]); (split; [vm_compute; tauto|]); exact C. }
  destruct E as (e & e' & letters & r & E1 & E2 & I1 & I2 & C). unfold inner_soundex.
  change (a ++ x :: b) with (a ++ [x] ++ b). change (a ++ y :: b) with (a ++ [y] ++ b). rewrite !source_app, E1, E2. cbn [app].
  rewrite (checked_exchange 256 dms_default letters r C br _ e e' I1 I2); [reflexivity| |lia].
  intros k K. unfold dms_source in K. apply in_map_iff in K as (z & <- & K). apply filter_In in K as [K _]. apply source_latin1, Ha, K.
Qed.
Theorem C89_daitch_mokotoff : forall u x y, # "A" <= x <= # "Z" -> # "A" <= y <= # "Z" ->
  (exchangeable (dms_soundex u dms_default) latin1_text any_text x y <-> together [$ "BFVW"; $ "GQ"] x y).
Proof.
  intros u x y Hx Hy. split.
  - revert x y Hx Hy. apart [($ "IMAC", $ "J"); ($ "E", $ "HENOUGH"); ($ "M", $ "UO"); ($ "", $ "C")].
  - intros T a b Ha _. unfold dms_soundex. now rewrite (dm_exchange u true x y a b Hx Hy T Ha).
Qed.
Theorem C89_daitch_mokotoff_first : forall u x y, # "A" <= x <= # "Z" -> # "A" <= y <= # "Z" ->
  together [$ "BFVW"; $ "GQ"] x y -> exchangeable (dms_encode u dms_default) latin1_text any_text x y.
Proof. intros u x y Hx Hy T a b Ha _. unfold dms_encode. now rewrite (dm_exchange u false x y a b Hx Hy T Ha). Qed.

(** ** Phonex: anywhere, and after two letters *)
Theorem C89_phonex : forall u max x y, # "A" <= x <= # "Z" -> # "A" <= y <= # "Z" ->
  together [$ "AEIOUY"; $ "FV"] x y -> exchangeable (phonex_encode u max) any_text any_text x y.
Proof. intros u max. apply phonex_exchange. Qed.
Theorem C89_phonex_late : forall u max x y, # "A" <= x <= # "Z" -> # "A" <= y <= # "Z" ->
  together [$ "AEIOUY"; $ "BFPV"; $ "HW"; $ "JKQXZ"; $ "MN"] x y -> exchangeable (phonex_encode u max) with_two_letters any_text x y.
Proof. intros u max. apply phonex_late_exchange. Qed.
Theorem C89_phonex_only : forall u x y, # "A" <= x <= # "Z" -> # "A" <= y <= # "Z" ->
  (exchangeable (phonex_encode u 4) any_text any_text x y -> together [$ "AEIOUY"; $ "FV"] x y)
  /\ (exchangeable (phonex_encode u 4) with_two_letters any_text x y -> together [$ "AEIOUY"; $ "BFPV"; $ "HW"; $ "JKQXZ"; $ "MN"] x y).
Proof.
  intros u x y Hx Hy. split; revert x y Hx Hy.
  - apart [($ "H", $ ""); ($ "", $ "N"); ($ "", $ "H"); ($ "N", $ ""); ($ "OT", $ "")].
  - apart [($ "WR", $ "W"); ($ "HN", $ ""); ($ "NT", $ "")].
Qed.

(** ** NYSIIS: after two letters *)
Theorem C89_nysiis : forall u strict x y, # "A" <= x <= # "Z" -> # "A" <= y <= # "Z" ->
  (exchangeable (nysiis_encode u strict) with_two_letters any_text x y <-> together [$ "AOU"; $ "GQ"] x y).
Proof.
  intros u strict x y Hx Hy. split; [|now apply nysiis_exchange]. revert x y Hx Hy. destruct strict.
  - apart [($ "WU", $ "E"); ($ "AAK", $ "V"); ($ "RT", $ "N"); ($ "AA", $ "CHS")].
  - apart [($ "EA", $ "E"); ($ "AAK", $ "V"); ($ "MV", $ "N"); ($ "AA", $ "CHS")].
Qed.

(** ** Metaphone and Double Metaphone: no two letters, not even after three *)
Definition dm_eqb (a b : res dm_result) : bool := 
  res_eqb (fun a b => seq_eqb (dm_primary a) (dm_primary b) && seq_eqb (dm_alternate a) (dm_alternate b)) a b.
Lemma dm_eqb_refl : forall a, dm_eqb a a = true.
Proof. intros [[p q]| |]; cbn; [|reflexivity..]. now rewrite !seq_eqb_refl. Qed.
Lemma together_none : forall x y, together [] x y -> x = y.
Proof. intros x y [H|(g & [] & _)]. exact H. Qed.
Theorem C89_metaphone : forall u max x y, max = None \/ max = Some 4%nat -> # "A" <= x <= # "Z" -> # "A" <= y <= # "Z" ->
  exchangeable (metaphone_encode u max) with_three_letters ascii_text x y -> x = y.
Proof.
  intros u max x y M Hx Hy H. apply together_none. revert x y Hx Hy H. destruct M as [->| ->].
  - apart [($ "RDG", $ "HO"); ($ "AAAC", $ "AY"); ($ "CCI", $ "V"); ($ "AAASI", $ "S")].
  - apart [($ "YSI", $ "A"); ($ "CEC", $ "H"); ($ "OYF", $ "N"); ($ "ICI", $ ""); ($ "RES", $ "AI")].
Qed.
Theorem C89_double_metaphone : forall u x y, # "A" <= x <= # "Z" -> # "A" <= y <= # "Z" ->
  exchangeable (double_metaphone u (Some 4%nat)) with_three_letters ascii_text x y -> x = y.
Proof.
  intros u x y Hx Hy H. apply together_none. revert x y Hx Hy H.
  apply (tells_apart _ _ dm_eqb _ _ _ [($ "AAAWCI", $ "E"); ($ "AAAZG", $ ""); ($ "OEV", $ "H"); ($ "JSCH", $ "O")]); [exact dm_eqb_refl|contexts kinds|vm_compute; reflexivity].
Qed.
(** ** The hypotheses are met, and the exchange is visible elsewhere *)
Theorem C89_nonvacuous :
  with_letter $ "Mül" /\ with_two_letters $ "O'D" /\ with_substance $ "-x-" /\ with_three_letters $ "Str"
  /\ together [$ "FV"; $ "KX"; $ "SZ"] (# "V") (# "F") /\ ~ together [$ "FV"; $ "KX"; $ "SZ"] (# "F") (# "W")
  /\ caverphone1_encode latin1_only $ "SteVens" = Ok $ "STFNS1" /\ caverphone1_encode latin1_only $ "SteFens" = Ok $ "STFNS1"
  /\ soundex_encode latin1_only soundex_default $ "Bob" <> soundex_encode latin1_only soundex_default $ "Vob"
  /\ soundex_encode latin1_only soundex_default $ "JoB" = soundex_encode latin1_only soundex_default $ "JoV".
Proof.
  assert (L : forall c, (65 <=? c) && (c <=? 90) || (97 <=? c) && (c <=? 122) = true -> is_letter c).
  { intros c H. apply orb_true_iff in H as [H|H]; apply andb_true_iff in H as [H1 H2]; apply N.leb_le in H1, H2; [left|right]; [change (# "A") with 65; change (# "Z") with 90; lia|change (# "a") with 97; change (# "z") with 122; lia]. }
  split; [|split; [|split; [|split]]].
  - exists [], (# "M"), (tl $ "Mül"). split; [reflexivity|now apply L].
  - exists [], (# "O"), $ "'", (# "D"), []. split; [reflexivity|]. split; now apply L.
  - split; [apply ascii_lit; reflexivity|]. exists $ "-", (# "x"), $ "-". split; [reflexivity|]. split; vm_compute; intuition discriminate.
  - split; [apply ascii_lit; reflexivity|]. exists (# "S"), (# "t"), (# "r"), []. split; [reflexivity|]. split; [now apply L|]. split; now apply L.
  - split; [right; exists $ "FV"; vm_compute; tauto|]. split; [intros T; apply togetherb_iff in T; vm_compute in T; discriminate T|].
    vm_compute. repeat split; try reflexivity; discriminate.
Qed.
