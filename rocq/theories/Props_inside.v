(** * C97: names with the same code inside longer names. *)
From Verif Require Import Base UnicodeM Lib Helper Soundex Cologne Phonex MatchRating Metaphone Nysiis Caverphone DoubleMetaphone DaitchMokotoff DmRules
  BaseLemmas Spec_common Spec_soundex UnicodeLemmas Soundex_proofs Props_soundex.
Local Open Scope N_scope.

(** Names with the same code may be exchanged inside every longer name. *)
Definition exchangeable_inside (encode : ustr -> res ustr) : Prop := forall p a b q code,
  encode a = Ok code -> encode b = Ok code -> encode (p ++ a ++ q) = encode (p ++ b ++ q).
(** Not even when the same letters are added in front, or behind. *)
Definition not_with_front (encode : ustr -> res ustr) : Prop := exists p a b code ca cb,
  encode a = Ok code /\ encode b = Ok code /\ encode (p ++ a) = Ok ca /\ encode (p ++ b) = Ok cb /\ code <> [] /\ ca <> cb.
Definition not_with_end (encode : ustr -> res ustr) : Prop := exists a b q code ca cb,
  encode a = Ok code /\ encode b = Ok code /\ encode (a ++ q) = Ok ca /\ encode (b ++ q) = Ok cb /\ code <> [] /\ ca <> cb.

Lemma collapse_step : forall a b l, collapse (a :: b :: l) = if a =? b then collapse (b :: l) else a :: collapse (b :: l).
Proof. reflexivity. Qed.
Lemma collapse_left : forall x q, collapse (collapse x ++ q) = collapse (x ++ q).
Proof.
  induction x as [|a x IH]; intros q; [reflexivity|]. destruct x as [|b x]; [reflexivity|]. rewrite collapse_step.
  change ((a :: b :: x) ++ q) with (a :: b :: (x ++ q)). rewrite collapse_step. destruct (N.eqb_spec a b) as [->|D]; [exact (IH q)|].
  specialize (IH q). pose proof (collapse_cons b x) as Q. destruct (collapse (b :: x)) as [|b' x']; [discriminate Q|].
  injection Q as ->. cbn [app] in *. rewrite collapse_step.
  destruct (N.eqb_spec a b) as [E|_]; [contradiction|]. f_equal. exact IH.
Qed.
Lemma collapse_right : forall p x, collapse (p ++ collapse x) = collapse (p ++ x).
Proof.
  induction p as [|a p IH]; intros x.
  - pose proof (collapse_left x []) as H. rewrite !app_nil_r in H. exact H.
  - specialize (IH x). destruct p as [|b p].
    + cbn [app] in *. destruct x as [|c x]; [reflexivity|]. pose proof (collapse_cons c x) as Q.
      destruct (collapse (c :: x)) as [|c' x'] eqn:Ex; [discriminate Q|]. injection Q as ->. rewrite !collapse_step. now rewrite IH, Ex.
    + cbn [app] in *. rewrite !collapse_step. now rewrite IH.
Qed.
Lemma collapse_inside : forall p x y q, collapse x = collapse y -> collapse (p ++ x ++ q) = collapse (p ++ y ++ q).
Proof.
  intros p x y q E. rewrite <- collapse_right, <- (collapse_left x), E, collapse_left, collapse_right. reflexivity.
Qed.
Lemma leading_le : forall l, (length (leading_AZ l) <= length l)%nat.
Proof. induction l as [|c l IH]; cbn; [lia|]. destruct (_ && _); cbn; lia. Qed.
Definition all_AZ (l : ustr) : bool := Nat.eqb (length (leading_AZ l)) (length l).
Lemma all_AZ_app : forall x y, all_AZ (x ++ y) = all_AZ x && all_AZ y.
Proof.
  unfold all_AZ. induction x as [|c x IH]; intros y; [reflexivity|]. cbn [app leading_AZ length].
  destruct (_ && _); [exact (IH y)|]. reflexivity.
Qed.
Theorem C97_refined : forall u table, length table = 26%nat -> exchangeable_inside (refined_encode u table).
Proof.
  intros u table L p a b q code Ha Hb. rewrite !C10_refined_every_text in * by assumption.
  assert (Up : forall x y, upper_letters (is_alphabetic u) (to_upper u) (x ++ y)
    = upper_letters (is_alphabetic u) (to_upper u) x ++ upper_letters (is_alphabetic u) (to_upper u) y).
  { intros x y. unfold upper_letters. now rewrite filter_app, flat_map_app. }
  rewrite !Up. f_equal. generalize dependent (upper_letters (is_alphabetic u) (to_upper u) a). intros la Ha.
  generalize dependent (upper_letters (is_alphabetic u) (to_upper u) b). intros lb Hb.
  generalize (upper_letters (is_alphabetic u) (to_upper u) p). intros lp.
  generalize (upper_letters (is_alphabetic u) (to_upper u) q). intros lq.
  unfold refined_outcome in *. fold (all_AZ la) in Ha. fold (all_AZ lb) in Hb.
  fold (all_AZ (lp ++ la ++ lq)). fold (all_AZ (lp ++ lb ++ lq)). rewrite !all_AZ_app.
  destruct (all_AZ la) eqn:Va; [|discriminate Ha]. destruct (all_AZ lb) eqn:Vb; [|discriminate Hb].
  cbn [opt_res] in Ha, Hb. injection Ha as Ha. injection Hb as Hb.
  destruct (all_AZ lp && (true && all_AZ lq)); [|reflexivity]. f_equal.
  unfold refined_code in Ha, Hb. destruct la as [|x la].
  { subst code. destruct lb as [|y lb]; [reflexivity|discriminate Hb]. }
  subst code. destruct lb as [|y lb]; [discriminate Hb|]. injection Hb as -> E.
  assert (K : collapse (map (table_digit table) (lp ++ (x :: la) ++ lq)) = collapse (map (table_digit table) (lp ++ (x :: lb) ++ lq))).
  { rewrite !map_app. apply collapse_inside. symmetry. exact E. }
  unfold refined_code. destruct lp as [|z lp]; cbn [app] in *; now rewrite K.
Qed.

Ltac witness_codes := repeat (match goal with |- _ /\ _ => split end); match goal with |- ?x <> ?y => discriminate | _ => vm_compute; reflexivity end.
Ltac front p a b := exists p, a, b; do 3 eexists; witness_codes.
Ltac behind a b q := exists a, b, q; do 3 eexists; witness_codes.
(** No other encoder has this property: same letters in front. *)
Theorem C97_others_front : forall u,
  not_with_front (soundex_encode u soundex_default) /\ not_with_front (cologne_encode u)
  /\ not_with_front (metaphone_encode u (Some 4%nat)) /\ not_with_front (nysiis_encode u true) /\ not_with_front (nysiis_encode u false)
  /\ not_with_front (phonex_encode u 4) /\ not_with_front (caverphone1_encode u) /\ not_with_front (caverphone2_encode u)
  /\ not_with_front (mra_encode u) /\ not_with_front (dm_encode u (Some 4%nat)) /\ not_with_front (dm_encode_alternate u (Some 4%nat)).
Proof.
  intros u. repeat (match goal with |- _ /\ _ => split end).
  - front $ "p" $ "hb" $ "hab".
  - front $ "c" $ "a" $ "e".
  - front $ "m" $ "b" $ "ba".
  - front $ "e" $ "e" $ "ea".
  - front $ "e" $ "e" $ "ea".
  - front $ "h" $ "a" $ "ha".
  - front $ "c" $ "a" $ "e".
  - front $ "a" $ "a" $ "h".
  - front $ "b" $ "ab" $ "abb".
  - front $ "c" $ "a" $ "e".
  - front $ "c" $ "a" $ "e".
Qed.
(** The same letters behind. *)
Theorem C97_others_end : forall u,
  not_with_end (soundex_encode u soundex_default) /\ not_with_end (cologne_encode u)
  /\ not_with_end (metaphone_encode u (Some 4%nat)) /\ not_with_end (nysiis_encode u true) /\ not_with_end (nysiis_encode u false)
  /\ not_with_end (phonex_encode u 4) /\ not_with_end (caverphone1_encode u) /\ not_with_end (caverphone2_encode u)
  /\ not_with_end (mra_encode u) /\ not_with_end (dm_encode u (Some 4%nat)) /\ not_with_end (dm_encode_alternate u (Some 4%nat)).
Proof.
  intros u. repeat (match goal with |- _ /\ _ => split end).
  - behind $ "ab" $ "aba" $ "b".
  - behind $ "b" $ "ba" $ "b".
  - behind $ "a" $ "aa" $ "e".
  - behind $ "a" $ "ae" $ "e".
  - behind $ "a" $ "ae" $ "e".
  - behind $ "a" $ "as" $ "a".
  - behind $ "a" $ "ar" $ "a".
  - behind $ "a" $ "r" $ "a".
  - behind $ "ab" $ "abb" $ "b".
  - behind $ "a" $ "ah" $ "a".
  - behind $ "a" $ "ah" $ "a".
Qed.
Theorem C97_daitch_mokotoff : forall u, not_with_front (dms_encode u dms_default) /\ not_with_end (dms_encode u dms_default).
Proof.
  intros u. split.
  - front $ "p" $ "h" $ "g".
  - behind $ "a" $ "e" $ "u".
Qed.
Example C97_nonvacuous : let f := refined_encode latin1_only ENGLISH_MAPPING in
  f $ "Meier" = Ok $ "M809" /\ f $ "Maior" = Ok $ "M809" /\ f $ "Maiar" = Ok $ "M809".
Proof. cbv zeta. witness_codes. Qed.
