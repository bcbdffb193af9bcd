(** * C01-C04: the encoder traits and CharSequence. *)
From Verif Require Import Base UnicodeM Lib Helper Soundex BaseLemmas Spec_common Lib_proofs.
Local Open Scope N_scope.

(** C01: the default [is_encoded_equals] compares the codes. *)
Theorem C01_is_encoded_equals_spec : forall (enc : encoder) a b x,
  is_encoded_equals enc a b = Ok x <->
  exists ca cb, enc a = Ok ca /\ enc b = Ok cb /\ (x = true <-> ca = cb).
Proof. exact ieq_defined. Qed.
Theorem C01_reflexive : forall (enc : encoder) a c,
  enc a = Ok c -> is_encoded_equals enc a a = Ok true.
Proof. exact ieq_refl. Qed.
Theorem C01_symmetric : forall (enc : encoder) a b x,
  is_encoded_equals enc a b = Ok x -> is_encoded_equals enc b a = Ok x.
Proof. exact ieq_sym. Qed.
Theorem C01_transitive : forall (enc : encoder) a b c,
  is_encoded_equals enc a b = Ok true -> is_encoded_equals enc b c = Ok true ->
  is_encoded_equals enc a c = Ok true.
Proof. exact ieq_trans. Qed.
(** It never loops or panics on its own: it panics exactly when a code it needs does. *)
Theorem C01_panics_iff : forall (enc : encoder) a b,
  is_encoded_equals enc a b = Panic <->
  enc a = Panic \/ (exists ca, enc a = Ok ca) /\ enc b = Panic.
Proof.
  intros enc a b. unfold is_encoded_equals.
  destruct (enc a) as [x| |]; cbn [bind].
  - destruct (enc b) as [y| |]; cbn [bind]; split; intros H; try discriminate; eauto.
    all: destruct H as [H|[_ H]]; discriminate.
  - split; auto.
  - split; [discriminate|]. intros [H|[[c H] _]]; discriminate.
Qed.
Example C01_nonvacuous :
  is_encoded_equals (soundex_encode latin1_only soundex_default) $ "Robert" $ "Rupert" = Ok true
  /\ is_encoded_equals (soundex_encode latin1_only soundex_default) $ "Robert" $ "Rubin" = Ok false.
Proof. split; reflexivity. Qed.

(** C02: [difference] counts the agreeing positions of the two codes. *)
Theorem C02_difference_spec : forall (enc : encoder) a b n,
  difference enc a b = Ok n <->
  exists ca cb, enc a = Ok ca /\ enc b = Ok cb /\ n = agreeing_positions ca cb.
Proof. exact difference_spec. Qed.
Theorem C02_symmetric : forall (enc : encoder) a b n,
  difference enc a b = Ok n -> difference enc b a = Ok n.
Proof.
  intros enc a b n H. apply difference_spec in H as (ca & cb & Ha & Hb & ->).
  apply difference_spec. exists cb, ca. repeat split; auto. apply agreeing_sym.
Qed.
Theorem C02_bounded : forall (enc : encoder) a b n ca cb,
  difference enc a b = Ok n -> enc a = Ok ca -> enc b = Ok cb ->
  (n <= length ca /\ n <= length cb)%nat.
Proof.
  intros enc a b n ca cb H Ha Hb. apply difference_spec in H as (ca' & cb' & Ha' & Hb' & ->).
  rewrite Ha in Ha'. rewrite Hb in Hb'. injection Ha' as <-. injection Hb' as <-.
  split; [apply agreeing_le_l | apply agreeing_le_r].
Qed.
Theorem C02_full_iff_equal : forall (enc : encoder) a b n ca cb,
  difference enc a b = Ok n -> enc a = Ok ca -> enc b = Ok cb -> length ca = length cb ->
  (n = length ca <-> ca = cb).
Proof.
  intros enc a b n ca cb H Ha Hb L. apply difference_spec in H as (ca' & cb' & Ha' & Hb' & ->).
  rewrite Ha in Ha'. rewrite Hb in Hb'. injection Ha' as <-. injection Hb' as <-.
  now apply agreeing_full.
Qed.
Theorem C02_empty_code : forall (enc : encoder) a b cb,
  enc a = Ok [] -> enc b = Ok cb -> difference enc a b = Ok 0%nat /\ difference enc b a = Ok 0%nat.
Proof.
  intros enc a b cb Ha Hb. split; apply difference_spec.
  - exists [], cb. repeat split; auto.
  - exists cb, []. repeat split; auto. symmetry. apply agreeing_nil_r.
Qed.
Example C02_nonvacuous :
  difference (soundex_encode latin1_only soundex_default) $ "Smith" $ "Smythe" = Ok 4%nat
  /\ difference (soundex_encode latin1_only soundex_default) $ "Anne" $ "Andrew" = Ok 2%nat.
Proof. split; reflexivity. Qed.

(** C03: ranges of a CharSequence select characters. *)
Theorem C03_range : forall s a b,
  cs_range (cs_from s) a b = Ok (firstn (N.to_nat b - N.to_nat a) (skipn (N.to_nat a) s)).
Proof. exact cs_range_spec. Qed.
Theorem C03_range_from : forall s a, cs_range_from (cs_from s) a = Ok (skipn (N.to_nat a) s).
Proof. exact cs_range_from_spec. Qed.
Theorem C03_range_to : forall s b, cs_range_to (cs_from s) b = Ok (firstn (N.to_nat b) s).
Proof. exact cs_range_to_spec. Qed.
Theorem C03_range_full : forall s, cs_range_full (cs_from s) = Ok s.
Proof. exact cs_range_full_spec. Qed.
Theorem C03_range_inclusive : forall p s a b, b < 18446744073709551615 ->
  cs_range_incl p (cs_from s) a b
  = Ok (firstn (N.to_nat b + 1 - N.to_nat a) (skipn (N.to_nat a) s)).
Proof. exact cs_range_incl_spec. Qed.
Theorem C03_range_to_inclusive : forall p s b, b < 18446744073709551615 ->
  cs_range_to_incl p (cs_from s) b = Ok (firstn (N.to_nat b + 1) s).
Proof.
  intros p s b H. unfold cs_range_to_incl. rewrite cs_range_incl_spec by assumption.
  cbn [N.to_nat skipn]. now rewrite Nat.sub_0_r.
Qed.
Theorem C03_split : forall s k, exists a b,
  cs_range_to (cs_from s) k = Ok a /\ cs_range_from (cs_from s) k = Ok b /\ a ++ b = s.
Proof.
  intros s k. rewrite cs_range_to_spec, cs_range_from_spec. do 2 eexists.
  repeat split. apply firstn_skipn.
Qed.
(** A sequence that was deserialised may state any length (C79): it cuts the open ranges, and nothing panics. *)
Theorem C03_any_sequence : forall c a b,
  cs_range c a b = Ok (firstn (N.to_nat b - N.to_nat a) (skipn (N.to_nat a) (cs_inner c)))
  /\ cs_range_from c a = Ok (firstn (N.to_nat (cs_len c) - N.to_nat a) (skipn (N.to_nat a) (cs_inner c)))
  /\ cs_range_to c b = Ok (firstn (N.to_nat b) (cs_inner c))
  /\ cs_range_full c = Ok (firstn (N.to_nat (cs_len c)) (cs_inner c)).
Proof.
  intros c a b. assert (K : forall x y, cs_range c x y = Ok (firstn (N.to_nat y - N.to_nat x) (skipn (N.to_nat x) (cs_inner c)))).
  { intros x y. exact (cs_range_spec (cs_inner c) x y). }
  unfold cs_range_from, cs_range_to, cs_range_full. rewrite !K. cbn [N.to_nat skipn]. rewrite !Nat.sub_0_r. auto.
Qed.
Theorem C03_len : forall s, cs_len (cs_from s) = N.of_nat (length s).
Proof. reflexivity. Qed.
Example C03_nonvacuous :
  cs_range (cs_from $ "aéb€c") 1 4 = Ok $ "éb€"
  /\ cs_range_to_incl Checked (cs_from $ "aéb€c") 1 = Ok $ "aé".
Proof. split; reflexivity. Qed.

(** C04: an inclusive range ending at [usize::MAX]. *)
Theorem C04_inclusive_max_checked : forall s a,
  cs_range_incl Checked (cs_from s) a 18446744073709551615 = Panic
  /\ cs_range_to_incl Checked (cs_from s) 18446744073709551615 = Panic.
Proof. intros. change 18446744073709551615 with usize_max. split; unfold cs_range_to_incl; now rewrite cs_incl_max. Qed.
Theorem C04_inclusive_max_wrapping : forall s a,
  cs_range_incl Wrapping (cs_from s) a 18446744073709551615 = Ok []
  /\ cs_range_to_incl Wrapping (cs_from s) 18446744073709551615 = Ok [].
Proof. intros. change 18446744073709551615 with usize_max. split; unfold cs_range_to_incl; now rewrite cs_incl_max. Qed.
(** Hence the law "s[a..=usize::MAX] is s[a..]" fails for every non-empty tail. *)
Theorem C04_tail_law_refuted : forall p s a,
  skipn (N.to_nat a) s <> [] ->
  cs_range_incl p (cs_from s) a 18446744073709551615 <> cs_range_from (cs_from s) a.
Proof.
  intros p s a H. change 18446744073709551615 with usize_max. rewrite cs_incl_max, cs_range_from_spec. destruct p; [discriminate|].
  intros E. injection E as E. congruence.
Qed.
Example C04_nonvacuous : skipn (N.to_nat 1) $ "ab" <> [].
Proof. discriminate. Qed.
