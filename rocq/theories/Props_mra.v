(** * Match rating approach: C29, C30, C31. *)
From Verif Require Import Base UnicodeM Lib Helper MatchRating BaseLemmas Spec_common Spec_mra
  Lib_proofs Soundex_proofs UnicodeLemmas Cologne_proofs Caverphone_proofs DoubleMetaphone_proofs Mra_proofs.
Local Open Scope N_scope.

(** "At least two characters after trimming" / "blank" / "a single byte". *)
Definition mra_short (u : Unicode) (s : ustr) : bool :=
  Nat.eqb (length (trim u s)) 0 || Nat.eqb (blen (trim u s)) 1.

(** C29: the code, exactly, for every ASCII name. *)
Theorem C29_code : forall u s, ascii_str s ->
  mra_encode u s = Ok (if Nat.leb (length (trim u s)) 1 then [] else mra_code s).
Proof.
  intros u s A. unfold mra_encode. cbv zeta.
  rewrite (ascii_blen (trim u s)) by (eapply ascii_str_incl; [apply trim_incl|assumption]).
  destruct (length (trim u s)) as [|[|n]]; [reflexivity|reflexivity|]. cbn [Nat.eqb orb Nat.leb].
  now apply mra_pipeline_ascii.
Qed.
Theorem C29_at_most_six_bytes : forall u s r, mra_encode u s = Ok r -> (blen r <= 6)%nat.
Proof.
  intros u s r H. unfold mra_encode in H. cbv zeta in H. destruct (_ || _).
  - injection H as <-. cbn. lia.
  - now apply get_first3_last3_blen in H.
Qed.
Theorem C29_format : forall u s r, ascii_str s -> mra_encode u s = Ok r ->
  (length r <= 6)%nat
  /\ (forall c, In c (tl r) -> ~ In c $ "AEIOU")
  /\ (forall c, In c r -> ~ (97 <= c <= 122) /\ ~ In c $ " -&'.,").
Proof.
  intros u s r A H. rewrite C29_code in H by assumption. injection H as <-.
  destruct (Nat.leb (length (trim u s)) 1).
  - split; [cbn; lia|]. split; intros c [].
  - split; [apply first3_length|]. split.
    + intros c Hc. apply mra_code_vowels in Hc. now apply isin_false in Hc.
    + intros c Hc. apply mra_code_clean in Hc as (_ & H2 & H3); [|assumption]. split.
      * intros R. destruct (ascii_up_cases c) as [[_ E]|[? _]]; [lia|contradiction].
      * apply isin_false in H2. intros K. apply H2. do 5 right. exact K.
Qed.
Theorem C29_ascii_case : forall u s, mra_encode u (map ascii_up s) = mra_encode u s.
Proof.
  intros u s. unfold mra_encode. cbv zeta. rewrite trim_up, map_length.
  assert (B : forall l, blen (map ascii_up l) = blen l).
  { induction l as [|c l IH]; [reflexivity|]. cbn [map blen]. rewrite IH. f_equal.
    destruct (ascii_up_cases c) as [[R E]|[R E]]; rewrite E; [|reflexivity].
    rewrite !ascii_utf8_len by lia. reflexivity. }
  rewrite B. unfold clean_name. now rewrite str_upper_ascii_up.
Qed.
(** White space and the characters - & ' . , are ignored wherever they stand. *)
Theorem C29_noise_ignored : forall u a b, ascii_str a -> ascii_str b ->
  (2 <= length (trim u a))%nat -> (2 <= length (trim u b))%nat ->
  filter (fun c => negb (mra_noise c)) a = filter (fun c => negb (mra_noise c)) b ->
  mra_encode u a = mra_encode u b.
Proof.
  intros u a b Aa Ab La Lb E. rewrite !C29_code by assumption.
  replace (Nat.leb (length (trim u a)) 1) with false by (symmetry; apply Nat.leb_gt; lia).
  replace (Nat.leb (length (trim u b)) 1) with false by (symmetry; apply Nat.leb_gt; lia).
  f_equal. unfold mra_code. do 3 f_equal.
  assert (K : forall s, filter (fun c => negb (mra_noise c)) (map ascii_up s)
              = map ascii_up (filter (fun c => negb (mra_noise c)) s)).
  { induction s as [|c s IH]; [reflexivity|]. cbn [map filter].
    assert (N : mra_noise (ascii_up c) = mra_noise c).
    { destruct (ascii_up_cases c) as [[R ->]|[R ->]]; [|reflexivity]. unfold mra_noise.
      transitivity false; [|symmetry]; apply isin_false; intros I; cbn [In] in I;
        repeat (destruct I as [I|I]; [lia|]); destruct I. }
    rewrite N. destruct (mra_noise c); cbn [negb]; [exact IH|]. cbn [map]. now rewrite IH. }
  now rewrite !K, E.
Qed.
Example C29_nonvacuous : mra_encode latin1_only $ "Christopherson" = Ok $ "CHRRSN"
  /\ mra_encode latin1_only $ " o'Bbb-rien" = Ok $ "OBBRN" /\ mra_encode latin1_only $ " x " = Ok [].
Proof. split; [|split]; vm_compute; reflexivity. Qed.

(** C30: comparison. *)
Theorem C30_symmetric : forall u a b,
  mra_is_encoded_equals Checked u a b = mra_is_encoded_equals Checked u b a.
Proof.
  intros u a b. unfold mra_is_encoded_equals. cbv zeta.
  rewrite (orb_comm (Nat.eqb (length (trim u b)) 0)), (orb_comm (Nat.eqb (blen (trim u b)) 1)), (seq_eqb_sym b a).
  destruct (_ || _); [reflexivity|]. destruct (_ || _); [reflexivity|]. destruct (seq_eqb a b); [reflexivity|].
  unfold abs_diff.
  destruct (mra_encode u a) as [n1| |] eqn:E1, (mra_encode u b) as [n2| |] eqn:E2; cbn [bind]; try reflexivity.
  - rewrite (Nat.add_comm (blen n2 - blen n1)), (Nat.add_comm (blen n2) (blen n1)).
    destruct (Nat.leb 3 _); [reflexivity|]. now rewrite (mra_rate_sym Checked n1 n2) by (now left).
  - exfalso. clear E1. unfold mra_encode, get_first3_last3, slice, slice_to, slice_from in E2. cbv zeta in E2.
    destruct (_ || _); [discriminate|]. destruct (Nat.ltb 6 _); [|discriminate]. cbn [Nat.ltb Nat.leb] in E2.
    destruct (split_byte 0 _) as [[? ?]|]; [|discriminate]. cbn [bind] in E2.
    destruct (split_byte (3 - 0) _) as [[? ?]|]; [|discriminate]. cbn [bind] in E2.
    destruct (split_byte _ _) as [[? ?]|]; discriminate.
  - exfalso. clear E2. unfold mra_encode, get_first3_last3, slice, slice_to, slice_from in E1. cbv zeta in E1.
    destruct (_ || _); [discriminate|]. destruct (Nat.ltb 6 _); [|discriminate]. cbn [Nat.ltb Nat.leb] in E1.
    destruct (split_byte 0 _) as [[? ?]|]; [|discriminate]. cbn [bind] in E1.
    destruct (split_byte (3 - 0) _) as [[? ?]|]; [|discriminate]. cbn [bind] in E1.
    destruct (split_byte _ _) as [[? ?]|]; discriminate.
Qed.
Theorem C30_blank_or_single_is_false : forall p u a b, mra_short u a = true \/ mra_short u b = true ->
  mra_is_encoded_equals p u a b = Ok false.
Proof.
  intros p u a b H. unfold mra_is_encoded_equals, mra_short in *. cbv zeta.
  destruct (Nat.eqb (length (trim u a)) 0), (Nat.eqb (length (trim u b)) 0); try reflexivity.
  cbn [orb] in *. destruct (Nat.eqb (blen (trim u a)) 1), (Nat.eqb (blen (trim u b)) 1); try reflexivity.
  destruct H; discriminate.
Qed.
Theorem C30_reflexive : forall p u a, mra_short u a = false -> mra_is_encoded_equals p u a a = Ok true.
Proof.
  intros p u a H. unfold mra_is_encoded_equals, mra_short in *. cbv zeta.
  apply orb_false_iff in H as [-> ->]. cbn [orb]. now rewrite seq_eqb_refl.
Qed.
Theorem C30_decision_same_length : forall p u a b, ascii_str a -> ascii_str b ->
  mra_short u a = false -> mra_short u b = false -> a <> b ->
  mra_code a <> [] -> length (mra_code a) = length (mra_code b) ->
  mra_is_encoded_equals p u a b
  = Ok (Nat.leb (mra_threshold (2 * length (mra_code a)))
         (6 - (length (mra_code a) - agreeing_positions (mra_code a) (mra_code b)))).
Proof.
  intros p u a b Aa Ab Sa Sb Hab Hne L.
  assert (Ea : mra_encode u a = Ok (mra_code a)).
  { rewrite C29_code by assumption. unfold mra_short in Sa. apply orb_false_iff in Sa as [S1 S2].
    rewrite ascii_blen in S2 by (eapply ascii_str_incl; [apply trim_incl|assumption]).
    destruct (length (trim u a)) as [|[|n]]; try discriminate. reflexivity. }
  assert (Eb : mra_encode u b = Ok (mra_code b)).
  { rewrite C29_code by assumption. unfold mra_short in Sb. apply orb_false_iff in Sb as [S1 S2].
    rewrite ascii_blen in S2 by (eapply ascii_str_incl; [apply trim_incl|assumption]).
    destruct (length (trim u b)) as [|[|n]]; try discriminate. reflexivity. }
  unfold mra_is_encoded_equals, mra_short in *. cbv zeta.
  apply orb_false_iff in Sa as [-> ->]. apply orb_false_iff in Sb as [-> ->]. cbn [orb].
  replace (seq_eqb a b) with false by (symmetry; now apply seq_eqb_neq).
  rewrite Ea, Eb. cbn [bind].
  pose proof (mra_code_clean a Aa) as Ca. pose proof (mra_code_clean b Ab) as Cb.
  assert (Xa : ascii_str (mra_code a)) by (intros c Hc; now apply Ca).
  assert (Xb : ascii_str (mra_code b)) by (intros c Hc; now apply Cb).
  assert (Sp : forall l, clean_codes l -> forall c, In c l -> c <> 32).
  { intros l Hl c Hc ->. apply Hl in Hc as (_ & K & _). discriminate K. }
  rewrite !ascii_blen, <- L by assumption. unfold abs_diff. rewrite Nat.sub_diag. cbn [Nat.add Nat.leb].
  rewrite (mra_rate_equal_length p (mra_code a) (mra_code b)); try assumption;
    [|now apply Sp|now apply Sp].
  cbn [bind]. unfold get_minimum_rating, mra_threshold, abs_diff. do 2 f_equal.
  - replace (length (mra_code a) + length (mra_code a))%nat with (2 * length (mra_code a))%nat by lia. reflexivity.
  - pose proof (first3_length (halve_runs upper_consonant (drop_inner_vowels
       (filter (fun c => negb (mra_noise c)) (map ascii_up a))))) as L6. fold (mra_code a) in L6. lia.
Qed.
Theorem C30_same_up_to_case : forall p u a b, ascii_str a -> ascii_str b -> mra_short u a = false ->
  map ascii_up a = map ascii_up b -> mra_is_encoded_equals p u a b = Ok true.
Proof.
  intros p u a b Aa Ab Sa E. destruct (list_eq_dec N.eq_dec a b) as [<-|Hab]; [now apply C30_reflexive|].
  assert (Ec : mra_code a = mra_code b) by (unfold mra_code; now rewrite E).
  assert (Sb : mra_short u b = false).
  { unfold mra_short in *. apply orb_false_iff in Sa as [S1 S2].
    assert (T : length (trim u a) = length (trim u b)).
    { rewrite <- (map_length ascii_up (trim u a)), <- (map_length ascii_up (trim u b)), <- !trim_up. now rewrite E. }
    rewrite ascii_blen in * by (eapply ascii_str_incl; [apply trim_incl|assumption]).
    rewrite <- T. now rewrite S1, S2. }
  assert (N : mra_code a <> []).
  { apply mra_code_nonempty.
    assert (D : exists c, In c a /\ is_ascii_alpha c = true).
    { clear - E Hab. revert b E Hab. induction a as [|x a IH]; intros [|y b] E Hab; try discriminate; [congruence|].
      cbn [map] in E. injection E as E1 E2. destruct (N.eq_dec x y) as [->|Hn].
      - destruct (IH b E2) as (c & Hc & K); [congruence|]. exists c. split; [now right|assumption].
      - exists x. split; [now left|]. apply is_ascii_alpha_iff.
        destruct (ascii_up_cases x) as [[? X]|[? X]]; [lia|].
        destruct (ascii_up_cases y) as [[? Y]|[? Y]]; rewrite X, Y in E1; lia. }
    destruct D as (c & Hc & K). exists c. split; [assumption|]. apply is_ascii_alpha_iff in K.
    unfold mra_noise. apply isin_false. intros I. cbn [In] in I.
    repeat (destruct I as [I|I]; [lia|]). destruct I. }
  rewrite C30_decision_same_length by (assumption || congruence). f_equal.
  rewrite <- Ec, agreeing_self, Nat.sub_diag.
  unfold mra_threshold. apply Nat.leb_le. repeat destruct (Nat.leb _ _); try destruct (Nat.eqb _ _); lia.
Qed.
Theorem C30_transitive_refuted :
  ~ (forall p u a b c, mra_is_encoded_equals p u a b = Ok true -> mra_is_encoded_equals p u b c = Ok true ->
       mra_is_encoded_equals p u a c = Ok true).
Proof.
  intros H. specialize (H Checked latin1_only $ "ab" $ "ac" $ "dc").
  assert (K : mra_is_encoded_equals Checked latin1_only $ "ab" $ "dc" = Ok true) by (apply H; vm_compute; reflexivity).
  vm_compute in K. discriminate.
Qed.
Example C30_nonvacuous : mra_is_encoded_equals Checked latin1_only $ "Smith" $ "Smyth" = Ok true
  /\ mra_is_encoded_equals Checked latin1_only $ "Franciszek" $ "Frances" = Ok true
  /\ mra_is_encoded_equals Checked latin1_only $ "Smith" $ "Jones" = Ok false.
Proof. split; [|split]; vm_compute; reflexivity. Qed.

(** C31: where the functions return and where they panic. *)
Theorem C31_encode_total_ascii : forall u s, ascii_str s -> exists r, mra_encode u s = Ok r.
Proof. intros u s A. rewrite C29_code by assumption. eauto. Qed.
Theorem C31_compare_total : forall p u a b, ascii_str a -> ascii_str b ->
  (exists c, In c a /\ mra_noise c = false) -> (exists c, In c b /\ mra_noise c = false) ->
  exists r, mra_is_encoded_equals p u a b = Ok r.
Proof.
  intros p u a b Aa Ab Na Nb.
  destruct (mra_short u a) eqn:Sa; [exists false; apply C30_blank_or_single_is_false; auto|].
  destruct (mra_short u b) eqn:Sb; [exists false; apply C30_blank_or_single_is_false; auto|].
  unfold mra_is_encoded_equals, mra_short in *. cbv zeta.
  pose proof Sa as Sa'. pose proof Sb as Sb'.
  apply orb_false_iff in Sa as [-> ->]. apply orb_false_iff in Sb as [-> ->]. cbn [orb].
  destruct (seq_eqb a b); [eauto|].
  assert (Ea : mra_encode u a = Ok (mra_code a)).
  { unfold mra_encode. cbv zeta. rewrite Sa'. now apply mra_pipeline_ascii. }
  assert (Eb : mra_encode u b = Ok (mra_code b)).
  { unfold mra_encode. cbv zeta. rewrite Sb'. now apply mra_pipeline_ascii. }
  rewrite Ea, Eb. cbn [bind]. destruct (Nat.leb 3 _); [eauto|].
  destruct (mra_rate_ok p (mra_code a) (mra_code b)) as [r ->];
    [now apply mra_code_nonempty|now apply mra_code_nonempty|]. cbn [bind]. eauto.
Qed.
Theorem C31_encode_total_refuted : ~ (forall u s, UnicodeOK u -> exists r, mra_encode u s = Ok r).
Proof.
  intros H. destruct (H latin1_only $ "aøøø" latin1_only_ok) as [r Hr]. vm_compute in Hr. discriminate.
Qed.
Theorem C31_compare_total_ascii_refuted :
  ~ (forall u a b, ascii_str a -> ascii_str b -> exists r, mra_is_encoded_equals Checked u a b = Ok r).
Proof.
  intros H. destruct (H latin1_only $ "--" $ "..") as [r Hr]; [now apply ascii_strb..|]. vm_compute in Hr. discriminate.
Qed.
(** Without overflow checks the outcome depends on the order of the arguments. *)
Theorem C31_release_symmetry_refuted :
  ~ (forall u a b, mra_is_encoded_equals Wrapping u a b = mra_is_encoded_equals Wrapping u b a).
Proof. intros H. specialize (H latin1_only $ "ab" $ "--"). vm_compute in H. discriminate. Qed.
Example C31_nonvacuous : mra_is_encoded_equals Wrapping latin1_only $ "ab" $ "--" = Panic
  /\ mra_is_encoded_equals Wrapping latin1_only $ "--" $ "ab" = Ok false.
Proof. split; vm_compute; reflexivity. Qed.
