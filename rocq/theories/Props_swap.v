(** * C92: neighbouring letters that may be swapped. *)
From Verif Require Import Base UnicodeM Lib Helper Soundex Cologne MatchRating Caverphone Nysiis Phonex Metaphone DoubleMetaphone RulesParser DaitchMokotoff DmRules
  BaseLemmas Spec_common Spec_metaphone Spec_doubled Spec_exchange Spec_leave_out Spec_swap UnicodeLemmas Soundex_proofs Metaphone_proofs Metaphone_spec_proofs
  Props_metaphone Props_metaphone_spec Dm_proofs Props_doubled Exchange_proofs Props_exchange Props_leave_out Swap_proofs Swap_metaphone_proofs Swap_caverphone_proofs.
Local Open Scope N_scope.

Ltac contexts K := let I := fresh "I" in intros a b I; cbn [In] in I;
  repeat (destruct I as [I|I]; [apply pair_equal_spec in I as [<- <-]; split; K|]); destruct I.
Ltac shown eqb refl cs := apply (shows_order _ _ eqb _ _ _ _ cs); [exact refl|contexts kinds|vm_compute; reflexivity].
Ltac seen cs := shown text_eqb text_eqb_refl cs.
Lemma spared_groups : forall groups x y, spared groups [] x y <-> together groups x y.
Proof. intros groups x y. unfold spared. cbn [In]. tauto. Qed.
Lemma capital_is_letter : forall c, # "A" <= c <= # "Z" -> is_letter c.
Proof. intros c H. now left. Qed.

(** ** Cologne, anywhere *)
Theorem C92_cologne : forall u x y, # "A" <= x <= # "Z" -> # "A" <= y <= # "Z" ->
  (swappable (cologne_encode u) any_text any_text x y <-> together [$ "AOU"; $ "DT"; $ "EIJY"; $ "FVW"; $ "KQ"; $ "MN"; $ "SZ"] x y).
Proof.
  intros u x y Hx Hy. split.
  - intros H. apply spared_groups. revert x y Hx Hy H. seen [($ "", $ "N"); ($ "DMAC", $ ""); ($ "P", $ ""); ($ "", $ "XDG"); ($ "T", $ "HF")].
  - intros T. apply exchange_swap; [intros; exact I|intros; exact I|]. now apply C89_cologne.
Qed.

(** ** Refined Soundex, after a letter *)
Theorem C92_refined : forall u m x y, length m = 26%nat -> # "A" <= x <= # "Z" -> # "A" <= y <= # "Z" ->
  nth (N.to_nat (x - # "A")) m 0 = nth (N.to_nat (y - # "A")) m 0 -> swappable (refined_encode u m) with_letter any_text x y.
Proof.
  intros u m x y L Hx Hy E. apply exchange_swap; [intros a; apply letter_more|intros; exact I|]. now apply C89_refined.
Qed.
Theorem C92_refined_default : forall u x y, # "A" <= x <= # "Z" -> # "A" <= y <= # "Z" ->
  (swappable (refined_encode u ENGLISH_MAPPING) with_letter any_text x y
    <-> together [$ "AEHIOUWY"; $ "BP"; $ "CKS"; $ "DT"; $ "FV"; $ "GJ"; $ "MN"; $ "QXZ"] x y).
Proof.
  intros u x y Hx Hy. split.
  - intros H. apply spared_groups. revert x y Hx Hy H. seen [($ "Y", $ "")].
  - intros T. apply exchange_swap; [intros a; apply letter_more|intros; exact I|]. now apply C89_refined_default.
Qed.

(** ** Soundex, after a letter: also the letters that may be left out, with every other one *)
Theorem C92_soundex : forall u sx x y, # "A" <= x <= # "Z" -> # "A" <= y <= # "Z" ->
  (sx_special_case_h_w sx = true /\ In x $ "HW") \/ nth_error (sx_mapping sx) (N.to_nat (x - # "A")) = Some (# "-") ->
  swappable (soundex_encode u sx) with_letter any_text x y.
Proof.
  intros u sx x y Hx Hy H. apply (leave_out_swap _ _ _ any_text); [intros a; apply letter_more|intros; exact I|].
  apply C90_soundex; [now left|].
  assert (U : ascii_up x = x). { destruct (ascii_up_cases x) as [[Cx _]|[_ Cx]]; [|exact Cx]. change (# "a") with 97 in Cx. change (# "Z") with 90 in Hx. lia. }
  destruct H as [[H I]|H]; [left|right].
  - split; [exact H|]. clear - I. cbn in *. tauto.
  - now rewrite U.
Qed.
Theorem C92_soundex_default : forall u x y, # "A" <= x <= # "Z" -> # "A" <= y <= # "Z" ->
  (swappable (soundex_encode u soundex_default) with_letter any_text x y
    <-> spared [$ "AEIOUY"; $ "BFPV"; $ "CGJKQSXZ"; $ "DT"; $ "MN"] $ "HW" x y).
Proof.
  intros u x y Hx Hy. split.
  - revert x y Hx Hy. seen [($ "MS", $ "T"); ($ "KBV", $ "MB"); ($ "L", $ ""); ($ "R", $ "")].
  - intros [T|[T|T]].
    + apply exchange_swap; [intros a; apply letter_more|intros; exact I|]. apply C89_soundex_default; try assumption.
      destruct T as [->|(g & Ig & T)]; [now left|right; exists g]. split; [|exact T]. cbv [soundex_groups genealogy_groups]. cbn [In] in Ig |- *. tauto.
    + apply C92_soundex; try assumption. left. now split.
    + apply swap_sym. apply C92_soundex; try assumption. left. now split.
Qed.
Theorem C92_soundex_genealogy : forall u x y, # "A" <= x <= # "Z" -> # "A" <= y <= # "Z" ->
  (swappable (soundex_encode u (soundex_from DEFAULT_US_ENGLISH_GENEALOGY_MAPPING_SOUNDEX)) with_letter any_text x y
    <-> spared [$ "BFPV"; $ "CGJKQSXZ"; $ "DT"; $ "MN"] $ "AEHIOUWY" x y).
Proof.
  intros u x y Hx Hy. split.
  - revert x y Hx Hy. seen [($ "T", $ "")].
  - assert (F : forall c, In c $ "AEHIOUWY" -> nth_error (sx_mapping (soundex_from DEFAULT_US_ENGLISH_GENEALOGY_MAPPING_SOUNDEX)) (N.to_nat (c - # "A")) = Some (# "-")).
    { intros c Ic. cbn [In] in Ic. repeat (destruct Ic as [<-|Ic]; [reflexivity|]). destruct Ic. }
    intros [T|[T|T]].
    + apply exchange_swap; [intros a; apply letter_more|intros; exact I|]. apply C89_soundex_genealogy; try assumption.
      destruct T as [->|(g & Ig & T)]; [now left|right; exists g]. split; [|exact T]. cbv [soundex_groups genealogy_groups]. cbn [In] in Ig |- *. tauto.
    + apply C92_soundex; try assumption. right. now apply F.
    + apply swap_sym. apply C92_soundex; try assumption. right. now apply F.
Qed.

(** ** Match rating, after a letter: the vowels, with every other letter *)
Theorem C92_match_rating : forall u x y, # "A" <= x <= # "Z" -> # "A" <= y <= # "Z" ->
  (swappable (mra_encode u) with_letter any_text x y <-> spared [] $ "AEIOU" x y).
Proof.
  intros u x y Hx Hy. split.
  - revert x y Hx Hy. seen [($ "T", $ "")].
  - assert (F : forall c d, # "A" <= c <= # "Z" -> # "A" <= d <= # "Z" -> In c $ "AEIOU" -> swappable (mra_encode u) with_letter any_text c d).
    { intros c d Hc Hd Ic. apply (leave_out_swap _ _ _ (several (is_whitespace u))); [intros a; apply letter_more| |].
      - intros a b (p & l & q & -> & Il) _. unfold several. rewrite <- !app_assoc. cbn [app]. rewrite !filter_app. cbn [filter].
        assert (W : forall e, is_letter e -> is_whitespace u e = false).
        { intros e He. apply letters_iff in He. clear - He. cbn in He. repeat (destruct He as [<-|He]; [reflexivity|]). destruct He. }
        rewrite (W l Il). cbn [negb]. rewrite !app_length. cbn [length]. rewrite filter_app, app_length. cbn [filter].
        rewrite (W d (capital_is_letter d Hd)). cbn [negb length]. lia.
      - apply C90_mra; [now left|]. clear - Ic. cbn in *. tauto. }
    intros [[->|(g & [] & _)]|[T|T]]; [intros a b _ _; reflexivity|now apply F|]. apply swap_sym. now apply F.
Qed.

(** ** Daitch-Mokotoff, anywhere *)
Theorem C92_daitch_mokotoff : forall u x y, # "A" <= x <= # "Z" -> # "A" <= y <= # "Z" ->
  (swappable (dms_soundex u dms_default) latin1_text any_text x y <-> together [$ "BFVW"; $ "GQ"] x y).
Proof.
  intros u x y Hx Hy. split.
  - intros H. apply spared_groups. revert x y Hx Hy H.
    seen [($ "", $ "UO"); ($ "SCH", $ "HWHY"); ($ "Q", $ ""); ($ "TIAMAC", $ "YS"); ($ "Z", $ ""); ($ "", $ "TI"); ($ "BE", $ ""); ($ "", $ "MB")].
  - intros T. apply exchange_swap; [intros a; now apply latin1_more|intros; exact I|]. now apply C89_daitch_mokotoff.
Qed.

(** ** Phonex, after two letters *)
Theorem C92_phonex : forall u max x y, # "A" <= x <= # "Z" -> # "A" <= y <= # "Z" ->
  together [$ "AEIOUY"; $ "BFPV"; $ "HW"; $ "JKQXZ"; $ "MN"] x y -> swappable (phonex_encode u max) with_two_letters any_text x y.
Proof.
  intros u max x y Hx Hy T. apply exchange_swap; [intros a; apply two_more|intros; exact I|]. now apply C89_phonex_late.
Qed.
Theorem C92_phonex_only : forall u x y, # "A" <= x <= # "Z" -> # "A" <= y <= # "Z" ->
  swappable (phonex_encode u 4) with_two_letters any_text x y -> together [$ "AEIOUY"; $ "BFPV"; $ "HW"; $ "JKQXZ"; $ "MN"] x y.
Proof.
  intros u x y Hx Hy H. apply spared_groups. revert x y Hx Hy H.
  seen [($ "CL", $ ""); ($ "HZ", $ ""); ($ "HM", $ "MP"); ($ "HV", $ "W"); ($ "XD", $ ""); ($ "GWR", $ "DJ"); ($ "NJM", $ "C")].
Qed.

(** ** NYSIIS, after two letters *)
Theorem C92_nysiis : forall u strict x y, # "A" <= x <= # "Z" -> # "A" <= y <= # "Z" ->
  (swappable (nysiis_encode u strict) with_two_letters any_text x y <-> together [$ "AOU"; $ "GQ"] x y).
Proof.
  intros u strict x y Hx Hy. split.
  - intros H. apply spared_groups. revert x y Hx Hy H.
    destruct strict; seen [($ "YLP", $ ""); ($ "NH", $ "E"); ($ "ZK", $ ""); ($ "JI", $ "CH"); ($ "MA", $ "YC")].
  - intros T. apply exchange_swap; [intros a; apply two_more|intros; exact I|]. now apply C89_nysiis.
Qed.

(** ** Metaphone, after two letters: E and I only *)
Theorem C92_metaphone : forall u max a b x y, In x $ "EI" -> In y $ "EI" -> ascii_text a -> ascii_text b -> (2 <= length a)%nat ->
  metaphone_encode u max (a ++ x :: y :: b) = metaphone_encode u max (a ++ y :: x :: b).
Proof.
  intros u max a b x y Hx Hy Aa Ab L. destruct (N.eq_dec x y) as [->|D]; [reflexivity|].
  assert (A12 : forall c d, In c $ "EI" -> In d $ "EI" -> ascii_text (a ++ c :: d :: b)).
  { intros c d Hc Hd z Iz. apply in_app_or in Iz as [Iz|[<-|[<-|Iz]]]; [now apply Aa| | |now apply Ab].
    - destruct Hc as [<-|[<-|[]]]; reflexivity.
    - destruct Hd as [<-|[<-|[]]]; reflexivity. }
  destruct (C24_total_on_ascii u max _ (A12 x y Hx Hy)) as [code E]. rewrite E. symmetry.
  apply C68_metaphone_is_its_definition; [now apply A12|]. apply C68_metaphone_is_its_definition in E; [|now apply A12].
  assert (U : forall c, In c $ "EI" -> ascii_up c = c) by (intros c [<-|[<-|[]]]; reflexivity).
  rewrite map_app in *. cbn [map] in *. rewrite !U in * by assumption.
  apply (metaphone_front max (map ascii_up a) (map ascii_up b)); [now rewrite map_length| | |exact D|exact E].
  - destruct Hx as [<-|[<-|[]]]; [now left|now right].
  - destruct Hy as [<-|[<-|[]]]; [now left|now right].
Qed.
Theorem C92_metaphone_only : forall u max x y, max = None \/ max = Some 4%nat -> # "A" <= x <= # "Z" -> # "A" <= y <= # "Z" ->
  (swappable (metaphone_encode u max) with_three_letters ascii_text x y <-> together [$ "EI"] x y).
Proof.
  intros u max x y M Hx Hy. split.
  - intros H. apply spared_groups. revert x y Hx Hy H. destruct M as [->| ->];
      seen [($ "LOEY", $ "VX"); ($ "WOU", $ "I"); ($ "IHG", $ ""); ($ "HPGCI", $ ""); ($ "OUQ", $ "TV"); ($ "WRE", $ "CI"); ($ "YGSI", $ "Q"); ($ "WWUDT", $ "GH")].
  - intros [->|(g & [<-|[]] & Ix & Iy)]; [intros a b _ _; reflexivity|]. intros a b [Aa (p & q & r & s & -> & _)] Ab.
    apply C92_metaphone; try assumption. cbn [length]. lia.
Qed.

(** ** Double Metaphone: the order of any two letters may matter *)
Theorem C92_double_metaphone : forall u x y, # "A" <= x <= # "Z" -> # "A" <= y <= # "Z" ->
  swappable (double_metaphone u (Some 4%nat)) with_three_letters ascii_text x y -> x = y.
Proof.
  intros u x y Hx Hy H. assert (T : spared [] [] x y).
  { revert x y Hx Hy H. shown Props_leave_out.dm_eqb Props_leave_out.dm_eqb_refl [($ "NEAH", $ ""); ($ "EIRBC", $ "I"); ($ "WLVJ", $ "J"); ($ "KVHFWHY", $ "GY"); ($ "RWH", $ "I"); ($ "TTY", $ "F"); ($ "PUP", $ ""); ($ "OHH", $ "C"); ($ "HAZ", $ "Q"); ($ "HSR", $ "CP"); ($ "KVAV", $ "S"); ($ "SOECI", $ "N")]. }
  destruct T as [[T|(g & [] & _)]|[[]|[]]]. exact T.
Qed.

(** ** Caverphone, anywhere *)
Theorem C92_caverphone1 : forall u x y, # "A" <= x <= # "Z" -> # "A" <= y <= # "Z" ->
  (swappable (caverphone1_encode u) ascii_text ascii_text x y <-> together [$ "AO"; $ "EI"; $ "FV"; $ "KX"; $ "SZ"] x y).
Proof.
  intros u x y Hx Hy. split.
  - intros H. apply spared_groups. revert x y Hx Hy H. seen [($ "", $ "IAG"); ($ "TC", $ "H"); ($ "D", $ ""); ($ "DTXC", $ ""); ($ "EDTI", $ "E")].
  - intros T. assert (T2 : together [$ "AO"; $ "EI"] x y \/ together [$ "FV"; $ "KX"; $ "SZ"] x y).
    { destruct T as [->|(g & Ig & T)]; [left; now left|]. cbn [In] in Ig. destruct Ig as [<-|[<-|Ig]]; [left; right..|right; right];
        eexists; (split; [|exact T]); cbn [In]; tauto. }
    destruct T2 as [T2|T2]; [now apply caverphone1_swap|].
    apply exchange_swap; [intros a; now apply ascii_more|intros b; now apply ascii_front|]. now apply C89_caverphone1.
Qed.
Theorem C92_caverphone2 : forall u x y, # "A" <= x <= # "Z" -> # "A" <= y <= # "Z" ->
  (swappable (caverphone2_encode u) ascii_text ascii_text x y <-> together [$ "AO"; $ "FV"; $ "KX"; $ "SZ"] x y).
Proof.
  intros u x y Hx Hy. split.
  - intros H. apply spared_groups. revert x y Hx Hy H.
    seen [($ "", $ ""); ($ "TIAMAC", $ "YS"); ($ "D", $ ""); ($ "DTXC", $ ""); ($ "EDTI", $ "E"); ($ "", $ "H"); ($ "", $ "IAG")].
  - intros T. assert (T2 : together [$ "AO"] x y \/ together [$ "FV"; $ "KX"; $ "SZ"] x y).
    { destruct T as [->|(g & Ig & T)]; [left; now left|]. cbn [In] in Ig. destruct Ig as [<-|Ig]; [left; right|right; right];
        eexists; (split; [|exact T]); cbn [In]; tauto. }
    destruct T2 as [T2|T2]; [now apply caverphone2_swap|].
    apply exchange_swap; [intros a; now apply ascii_more|intros b; now apply ascii_front|]. now apply C89_caverphone2.
Qed.

(** ** The hypotheses are met; the order of other letters shows *)
Theorem C92_nonvacuous :
  with_letter $ "M" /\ with_two_letters $ "Kl" /\ with_three_letters $ "Str" /\ together [$ "EI"] (# "I") (# "E")
  /\ metaphone_encode latin1_only None $ "RENEI" = metaphone_encode latin1_only None $ "RENIE"
  /\ metaphone_encode latin1_only None $ "EIN" <> metaphone_encode latin1_only None $ "IEN"
  /\ caverphone1_encode latin1_only $ "JOAN" = Ok $ "YN1111" /\ caverphone1_encode latin1_only $ "JAON" = Ok $ "YN1111"
  /\ caverphone2_encode latin1_only $ "EI" <> caverphone2_encode latin1_only $ "IE"
  /\ soundex_encode latin1_only soundex_default $ "SMHIT" = soundex_encode latin1_only soundex_default $ "SMIHT"
  /\ soundex_encode latin1_only soundex_default $ "RBUP" <> soundex_encode latin1_only soundex_default $ "RUBP"
  /\ cologne_encode latin1_only $ "MSITH" <> cologne_encode latin1_only $ "SMITH".
Proof.
  split; [now apply capitals_letter|]. split.
  { exists [], (# "K"), [], (# "l"), []. split; [reflexivity|]. split; [left|right]; vm_compute; split; discriminate. }
  split. { split; [apply ascii_lit; reflexivity|]. exists (# "S"), (# "t"), (# "r"), []. split; [reflexivity|]. split; [left; vm_compute; split; discriminate|]. split; right; vm_compute; split; discriminate. }
  split. { right. exists $ "EI". cbn. tauto. }
  split; [vm_compute; reflexivity|]. split; [vm_compute; discriminate|]. split; [vm_compute; reflexivity|]. split; [vm_compute; reflexivity|].
  split; [vm_compute; discriminate|]. split; [vm_compute; reflexivity|]. split; vm_compute; discriminate.
Qed.
