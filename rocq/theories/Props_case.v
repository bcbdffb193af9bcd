(** * C91: small and capital letters in every script (real Unicode tables). *)
From Verif Require Import Base UnicodeM Lib Helper Soundex Cologne MatchRating Caverphone Nysiis Phonex Metaphone DoubleMetaphone DaitchMokotoff
  BmRegex BmEngine BaseLemmas Spec_common Spec_doubled Spec_bm_engine UnicodeLemmas UnicodeReal Soundex_proofs Cologne_proofs
  Props_caverphone Props_doubled Props_bm_engine Spec_case Case_proofs.
Local Open Scope N_scope.
Local Notation capitals s := (str_upper real_unicode s).
Local Notation small s := (str_lower real_unicode s).

(** ** Encoders that read the capitals *)
Lemma upper_twice : forall s, capitals (capitals s) = capitals s.
Proof.
  intros s. apply (through_upper real_unicode N (str_upper real_unicode)).
  - intros a b. apply str_upper_app.
  - intros c _. rewrite real_upper_twice. unfold str_upper. cbn [flat_map]. now rewrite app_nil_r.
Qed.
Lemma upper_lower : forall s, has_none other_capitals s -> capitals (small s) = capitals s.
Proof.
  intros s H. apply (through_lower real_unicode N (str_upper real_unicode)).
  - intros a b. apply str_upper_app.
  - intros c Hc _. apply real_upper_lower. now apply H.
  - vm_compute. reflexivity.
  - vm_compute. reflexivity.
Qed.
Lemma same_capitals : forall max s t, capitals s = capitals t ->
  cologne_encode real_unicode s = cologne_encode real_unicode t /\ metaphone_encode real_unicode max s = metaphone_encode real_unicode max t
  /\ double_metaphone real_unicode max s = double_metaphone real_unicode max t.
Proof.
  intros max s t H. split; [unfold cologne_encode, cologne_prepare; now rewrite H|]. split; [unfold metaphone_encode; now rewrite H|].
  assert (T : capitals (trim real_unicode s) = capitals (trim real_unicode t)).
  { rewrite <- !trim_upper by exact real_upper_spaces. now rewrite H. }
  assert (Nil : forall x, trim real_unicode x = [] <-> capitals (trim real_unicode x) = []).
  { intros x. split; [intros ->; reflexivity|]. destruct (trim real_unicode x) as [|c r]; [reflexivity|]. unfold str_upper. cbn [flat_map]. intros E.
    apply app_eq_nil in E as [E _]. exfalso. revert E. apply to_upper_nonempty, real_unicode_ok. }
  unfold double_metaphone. cbv zeta. rewrite T.
  destruct (trim real_unicode s) as [|c r] eqn:E1, (trim real_unicode t) as [|d q] eqn:E2; try reflexivity.
  - exfalso. assert (K : trim real_unicode t = []) by (apply Nil; rewrite E2, <- T; reflexivity). congruence.
Qed.
Theorem C91_capitals : forall max s,
  cologne_encode real_unicode (capitals s) = cologne_encode real_unicode s
  /\ metaphone_encode real_unicode max (capitals s) = metaphone_encode real_unicode max s
  /\ double_metaphone real_unicode max (capitals s) = double_metaphone real_unicode max s.
Proof. intros max s. apply same_capitals, upper_twice. Qed.
Theorem C91_small : forall max s, has_none other_capitals s ->
  cologne_encode real_unicode (small s) = cologne_encode real_unicode s
  /\ metaphone_encode real_unicode max (small s) = metaphone_encode real_unicode max s
  /\ double_metaphone real_unicode max (small s) = double_metaphone real_unicode max s.
Proof. intros max s H. now apply same_capitals, upper_lower. Qed.
Theorem C91_mra : forall s, several (is_whitespace real_unicode) s ->
  mra_encode real_unicode (capitals s) = mra_encode real_unicode s
  /\ (has_none other_capitals s -> mra_encode real_unicode (small s) = mra_encode real_unicode s).
Proof.
  intros s S1. assert (K : forall t, several (is_whitespace real_unicode) t -> capitals t = capitals s -> mra_encode real_unicode t = mra_encode real_unicode s).
  { intros t S2 E. rewrite !mra_several by assumption. unfold clean_name. now rewrite E. }
  split; [|intros H]; apply K.
  - now apply several_upper; [exact real_upper_spaces|].
  - apply upper_twice.
  - apply several_lower; [exact real_lower_spaces|vm_compute; reflexivity|vm_compute; reflexivity|exact S1].
  - now apply upper_lower.
Qed.
(** A single letter has no code if it is one byte: so ı has one, its capital has none. *)
Theorem C91_mra_single_refuted : mra_encode real_unicode [305] = Ok $ "I" /\ capitals [305] = $ "I" /\ mra_encode real_unicode $ "I" = Ok [].
Proof. split; [vm_compute; reflexivity|]. split; vm_compute; reflexivity. Qed.

(** ** Encoders that drop everything but letters and then read the capitals *)
Lemma same_letters : forall sx table strict max s t, soundex_clean real_unicode s = soundex_clean real_unicode t ->
  soundex_encode real_unicode sx s = soundex_encode real_unicode sx t /\ refined_encode real_unicode table s = refined_encode real_unicode table t
  /\ nysiis_encode real_unicode strict s = nysiis_encode real_unicode strict t /\ phonex_encode real_unicode max s = phonex_encode real_unicode max t.
Proof.
  intros sx table strict max s t H. unfold soundex_encode, refined_encode, nysiis_encode, phonex_encode, px_preprocess. now rewrite !H.
Qed.
Theorem C91_capitals_of_letters : forall sx table strict max s, has_none marked_capitals s ->
  soundex_encode real_unicode sx (capitals s) = soundex_encode real_unicode sx s
  /\ refined_encode real_unicode table (capitals s) = refined_encode real_unicode table s
  /\ nysiis_encode real_unicode strict (capitals s) = nysiis_encode real_unicode strict s
  /\ phonex_encode real_unicode max (capitals s) = phonex_encode real_unicode max s.
Proof.
  intros sx table strict max s H. apply same_letters. apply (through_upper real_unicode N (soundex_clean real_unicode)).
  - intros a b. apply clean_app.
  - intros c Hc. apply real_clean_upper. now apply H.
Qed.
Theorem C91_small_of_letters : forall sx table strict max s, has_none other_capitals s ->
  soundex_encode real_unicode sx (small s) = soundex_encode real_unicode sx s
  /\ refined_encode real_unicode table (small s) = refined_encode real_unicode table s
  /\ nysiis_encode real_unicode strict (small s) = nysiis_encode real_unicode strict s
  /\ phonex_encode real_unicode max (small s) = phonex_encode real_unicode max s.
Proof.
  intros sx table strict max s H. apply same_letters. apply (through_lower real_unicode N (soundex_clean real_unicode)).
  - intros a b. apply clean_app.
  - intros c Hc _. apply real_clean_lower. now apply H.
  - vm_compute. reflexivity.
  - vm_compute. reflexivity.
Qed.

(** ** Encoders that read the small letters *)
Lemma lower_upper : forall s, has_none lost_small s -> small (capitals s) = small s.
Proof.
  intros s H. assert (Up : forall c, In c s -> exists x, to_upper real_unicode c = [x] /\ x <> 931 /\ to_lower real_unicode x = to_lower real_unicode c) by (intros c Hc; apply real_lower_upper; now apply H).
  assert (Ns : ~ In 931 s) by (intros I; apply (H 931 I); vm_compute; tauto). clear H.
  assert (Nu : ~ In 931 (capitals s)).
  { intros I. unfold str_upper in I. apply in_flat_map in I as (c & Hc & I). destruct (Up c Hc) as (x & E & Nx & _). rewrite E in I. destruct I as [I|[]]. congruence. }
  unfold str_lower. rewrite !str_lower_no_sigma by assumption. clear Ns Nu. unfold str_upper. induction s as [|c s IH]; [reflexivity|]. cbn [flat_map].
  destruct (Up c ltac:(now left)) as (x & E & _ & El). rewrite E. cbn [app flat_map]. rewrite El. f_equal. apply IH. intros y Hy. apply Up. now right.
Qed.
Lemma same_small : forall s t, small s = small t ->
  caverphone1_encode real_unicode s = caverphone1_encode real_unicode t /\ caverphone2_encode real_unicode s = caverphone2_encode real_unicode t
  /\ forall rx e, bm_encode real_unicode rx e s = bm_encode real_unicode rx e t.
Proof.
  intros s t H. assert (K : filter (is_lowercase real_unicode) (small s) = filter (is_lowercase real_unicode) (small t)) by now rewrite H.
  split; [now apply C17_caverphone_cleaning|]. split; [now apply C17_caverphone_cleaning|]. intros rx e. now apply C64_case; [exact real_lower_ok|].
Qed.
Theorem C91_small_readers : forall s,
  caverphone1_encode real_unicode (small s) = caverphone1_encode real_unicode s
  /\ caverphone2_encode real_unicode (small s) = caverphone2_encode real_unicode s
  /\ forall rx e, bm_encode real_unicode rx e (small s) = bm_encode real_unicode rx e s.
Proof. intros s. apply same_small, lower_twice, real_lower_ok. Qed.
Theorem C91_small_readers_capitals : forall s, has_none lost_small s ->
  caverphone1_encode real_unicode (capitals s) = caverphone1_encode real_unicode s
  /\ caverphone2_encode real_unicode (capitals s) = caverphone2_encode real_unicode s
  /\ forall rx e, bm_encode real_unicode rx e (capitals s) = bm_encode real_unicode rx e s.
Proof. intros s H. now apply same_small, lower_upper. Qed.
Lemma source_same : forall d s t, dms_source real_unicode d s = dms_source real_unicode d t ->
  dms_soundex real_unicode d s = dms_soundex real_unicode d t /\ dms_encode real_unicode d s = dms_encode real_unicode d t.
Proof. intros d s t H. unfold dms_soundex, dms_encode, inner_soundex. now rewrite H. Qed.
Theorem C91_daitch_mokotoff : forall d s,
  (has_none lost_small s -> dms_soundex real_unicode d (capitals s) = dms_soundex real_unicode d s /\ dms_encode real_unicode d (capitals s) = dms_encode real_unicode d s)
  /\ (has_none [304; 931] s -> dms_soundex real_unicode d (small s) = dms_soundex real_unicode d s /\ dms_encode real_unicode d (small s) = dms_encode real_unicode d s).
Proof.
  intros d s. assert (App : forall a b, dms_source real_unicode d (a ++ b) = dms_source real_unicode d a ++ dms_source real_unicode d b).
  { intros a b. unfold dms_source. now rewrite filter_app, map_app. }
  assert (One : forall c x, is_whitespace real_unicode x = is_whitespace real_unicode c -> to_lower real_unicode x = to_lower real_unicode c ->
    dms_source real_unicode d [x] = dms_source real_unicode d [c]).
  { intros c x W E. unfold dms_source. cbn [filter]. rewrite W. destruct (is_whitespace real_unicode c) eqn:Wc; [reflexivity|]. cbn [negb map]. unfold dms_char. rewrite E.
    destruct (to_lower real_unicode c) eqn:Ec; [|reflexivity]. exfalso. revert Ec. apply to_lower_nonempty, real_unicode_ok. }
  split; intros H; apply source_same.
  - apply (through_upper real_unicode N (dms_source real_unicode d) App). intros c Hc. destruct (real_lower_upper c (H c Hc)) as (x & E & _ & El). rewrite E.
    apply One; [|exact El]. pose proof (real_upper_spaces c) as W. destruct (is_whitespace real_unicode c) eqn:Wc.
    + rewrite E in W. injection W as ->. exact Wc.
    + apply W. rewrite E. now left.
  - unfold str_lower. rewrite str_lower_no_sigma by (intros I; apply (H 931 I); vm_compute; tauto).
    assert (L : forall c, (c =? 304) || match to_lower real_unicode c with [x] => true | _ => false end = true).
    { apply lower_by_table; [|vm_compute; reflexivity]. intros c E. rewrite E. apply orb_true_r. }
    induction s as [|c s IH]; [reflexivity|]. cbn [flat_map]. change (c :: s) with ([c] ++ s). rewrite !App. rewrite IH by (intros x Hx; apply H; now right). f_equal.
    specialize (L c). apply orb_true_iff in L as [L|L]; [apply N.eqb_eq in L; subst c; exfalso; apply (H 304); [now left|now left]|].
    destruct (to_lower real_unicode c) as [|x [|]] eqn:E; [discriminate L| |discriminate L]. apply One.
    + pose proof (real_lower_spaces c) as W. destruct (is_whitespace real_unicode c) eqn:Wc.
      * rewrite E in W. injection W as ->. exact Wc.
      * apply W. rewrite E. now left.
    + rewrite E. apply (proj1 real_lower_ok) with (c := c). rewrite E. now left.
Qed.

(** ** The exceptions are real: each of these changes something *)
Theorem C91_exceptions :
  soundex_encode real_unicode soundex_default [496] = Panic /\ soundex_encode real_unicode soundex_default (capitals [496]) = Ok $ "J000"
  /\ cologne_encode real_unicode [304] = Ok [] /\ cologne_encode real_unicode (small [304]) = Ok $ "0"
  /\ cologne_encode real_unicode [7838] = Ok [] /\ cologne_encode real_unicode (small [7838]) = Ok $ "8"
  /\ cologne_encode real_unicode [8490] = Ok [] /\ cologne_encode real_unicode (small [8490]) = Ok $ "4"
  /\ caverphone1_encode real_unicode $ "faß" <> caverphone1_encode real_unicode (capitals $ "faß").
Proof. repeat (split; [vm_compute; reflexivity|]). vm_compute. discriminate. Qed.
Theorem C91_nonvacuous :
  has_none (marked_capitals ++ other_capitals) $ "Müller-Łódź" /\ has_none lost_small $ "Müller-Łódź" /\ several (is_whitespace real_unicode) $ "Łódź"
  /\ capitals $ "Müller-Łódź" = $ "MÜLLER-ŁÓDŹ" /\ small $ "Müller-Łódź" = $ "müller-łódź"
  /\ cologne_encode real_unicode $ "MÜLLER-ŁÓDŹ" = cologne_encode real_unicode $ "müller-łódź" /\ cologne_encode real_unicode $ "MÜLLER-ŁÓDŹ" = Ok $ "6572".
Proof.
  assert (L : forall l s, forallb (fun c => negb (isin c l)) s = true -> has_none l s).
  { intros l s H c Hc. rewrite forallb_forall in H. now apply isin_false, negb_true_iff, H. }
  split; [apply L; vm_compute; reflexivity|]. split; [apply L; vm_compute; reflexivity|]. split; [apply Nat.leb_le; vm_compute; reflexivity|].
  repeat (split; [vm_compute; reflexivity|]). vm_compute; reflexivity.
Qed.
