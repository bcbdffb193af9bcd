(** * C87: which encoders match whatever another one matches. *)
From Verif Require Import Base UnicodeM UnicodeReal Lib Helper Soundex Metaphone DoubleMetaphone Nysiis Phonex DaitchMokotoff
  MatchRating Caverphone Cologne Api BaseLemmas Spec_common Spec_soundex Spec_phonex Lib_proofs Soundex_proofs UnicodeLemmas
  DmRules Dm_proofs Upper_ok Props_soundex Props_metaphone Props_double_metaphone Props_nysiis Props_phonex_spec Phonex_spec_proofs
  Spec_dm Props_dm Props_api.
Local Open Scope N_scope.

(** [finer f e]: two names that [f] calls equal are also equal for [e]: a search by
    [e] finds everything a search by [f] finds. *)
Definition finer (f e : encoder) : Prop := forall a b,
  is_encoded_equals f a b = Ok true -> is_encoded_equals e a b = Ok true.

Lemma finer_codes : forall f e : encoder,
  (forall a b c, f a = Ok c -> f b = Ok c -> exists c', e a = Ok c' /\ e b = Ok c') -> finer f e.
Proof.
  intros f e H a b E. apply ieq_defined in E as (x & y & Ea & Eb & [T _]). rewrite <- (T eq_refl) in Eb.
  destruct (H a b x Ea Eb) as (c & Ca & Cb). apply ieq_defined. exists c, c. tauto.
Qed.
Lemma finer_map : forall (f e : encoder) (g : ustr -> ustr),
  (forall a c, f a = Ok c -> e a = Ok (g c)) -> finer f e.
Proof. intros f e g H. apply finer_codes. intros a b c Ea Eb. exists (g c). split; now apply H. Qed.

(** ** Limits *)
(** A strict Nysiis does with two names the same (equal codes, or a panic for both)
    when the other one calls them equal; for ASCII letters there is no panic. *)
Theorem C87_nysiis : forall u a b,
  is_encoded_equals (nysiis_enc u (nysiis_new false)) a b = Ok true ->
  nysiis_enc u (nysiis_new true) a = nysiis_enc u (nysiis_new true) b
  /\ (letters_are_ascii (is_alphabetic u) a -> is_encoded_equals (nysiis_enc u (nysiis_new true)) a b = Ok true).
Proof.
  intros u a b E. apply ieq_defined in E as (x & y & Ea & Eb & [T _]). rewrite <- (T eq_refl) in Eb.
  change (nysiis_encode u false a = Ok x) in Ea. change (nysiis_encode u false b = Ok x) in Eb.
  assert (St : forall s, nysiis_encode u false s = Ok x -> nysiis_encode u true s = slice_to (Nat.min (blen x) TRUE_LENGTH) x).
  { intros s. unfold nysiis_encode. cbv zeta. destruct (soundex_clean u s).
    - intros H. injection H as <-. reflexivity.
    - destruct (ny_end _); [intros H; discriminate H|]. destruct (ny_loop _ _ _); cbn [bind]; [|intros H; discriminate H..].
      intros H. injection H as ->. reflexivity. }
  assert (Q : nysiis_enc u (nysiis_new true) a = nysiis_enc u (nysiis_new true) b).
  { change (nysiis_encode u true a = nysiis_encode u true b). now rewrite (St a Ea), (St b Eb). }
  split; [exact Q|]. intros La. destruct (C18_strict_is_truncation u a La) as (r & _ & A2).
  change (nysiis_enc u (nysiis_new true) a = Ok (firstn 6 r)) in A2.
  apply ieq_defined. exists (firstn 6 r), (firstn 6 r).
  split; [exact A2|]. split; [rewrite <- Q; exact A2|tauto].
Qed.

Definition at_most (m : option nat) (n : nat) : Prop := match m with None => True | Some k => (n <= k)%nat end.

Lemma one_byte : forall s, blen s = 1%nat -> length s = 1%nat.
Proof.
  intros [|x [|y s]] H; [discriminate H|reflexivity|]. exfalso. cbn [blen] in H.
  pose proof (utf8_len_pos x). pose proof (utf8_len_pos y). lia.
Qed.
Theorem C87_metaphone : forall u m n, at_most m n -> (1 <= n)%nat ->
  finer (metaphone_enc u (metaphone_new m)) (metaphone_enc u (metaphone_new (Some n))).
Proof.
  intros u m n M Hn. apply (finer_map _ _ (firstn n)). intros a c.
  change (metaphone_enc u (metaphone_new m) a) with (metaphone_encode u m a).
  change (metaphone_enc u (metaphone_new (Some n)) a) with (metaphone_encode u (Some n) a).
  destruct (Nat.eq_dec (blen (str_upper u a)) 1) as [B|B].
  - unfold metaphone_encode. rewrite B. cbn [Nat.eqb]. intros E. injection E as <-.
    rewrite firstn_all2; [reflexivity|]. now rewrite (one_byte _ B).
  - destruct m as [k|]; cbn [at_most] in M.
    + now apply C23_truncation_of_larger.
    + now apply C23_max_length_is_truncation.
Qed.
(** Not with limit 0, for which a name of one letter is its own code. *)
Theorem C87_metaphone_zero_refuted : forall u, is_encoded_equals (metaphone_enc u (metaphone_new None)) $ "B" $ "Be" = Ok true
  /\ is_encoded_equals (metaphone_enc u (metaphone_new (Some 0%nat))) $ "B" $ "Be" = Ok false.
Proof. intros u. split; vm_compute; reflexivity. Qed.

Theorem C87_double_metaphone : forall u m n alternate a b, at_most m n ->
  (forall k, m = Some k -> N.of_nat k <= 9223372036854775807) -> N.of_nat n <= 9223372036854775807 ->
  dmetaphone_equal u (dmetaphone_new m) a b alternate = Ok true ->
  dmetaphone_equal u (dmetaphone_new (Some n)) a b alternate = Ok true.
Proof.
  intros u m n alternate a b M Hm Hn E.
  assert (Tr : forall s r, double_metaphone u m s = Ok r ->
    double_metaphone u (Some n) s = Ok {| dm_primary := firstn n (dm_primary r); dm_alternate := firstn n (dm_alternate r) |}).
  { intros s [p q] H. destruct m as [k|]; cbn [at_most] in M.
    - now apply (C26_truncation_of_larger u n k).
    - now apply C26_truncation. }
  assert (D : exists x y, double_metaphone u m a = Ok x /\ double_metaphone u m b = Ok y).
  { unfold dmetaphone_equal in E.
    destruct (C75_double_metaphone_otherwise u m a Hm) as (A0 & A1 & A2).
    destruct (C75_double_metaphone_otherwise u m b Hm) as (B0 & B1 & B2).
    destruct alternate; apply bind_Ok in E as (x & X & E); apply bind_Ok in E as (y & Y & _);
      rewrite ?A0, ?A1, ?A2 in X; rewrite ?B0, ?B1, ?B2 in Y;
      destruct (double_metaphone u m a); try discriminate X;
      destruct (double_metaphone u m b); try discriminate Y; eauto. }
  destruct D as (x & y & Dx & Dy).
  rewrite (C75_double_metaphone_equal u m a b alternate x y Hm Dx Dy) in E.
  rewrite (C75_double_metaphone_equal u (Some n) a b alternate _ _ ltac:(intros k K; injection K as <-; exact Hn) (Tr a x Dx) (Tr b y Dy)).
  cbn [dm_primary dm_alternate]. injection E as E. f_equal.
  destruct alternate; apply seq_eqb_eq in E; apply seq_eqb_eq; now rewrite E.
Qed.

Lemma firstn_enough : forall {A} n (l k : list A), (n <= length l)%nat -> firstn n (l ++ k) = firstn n l.
Proof. intros A n l k H. rewrite firstn_app. replace (n - length l)%nat with 0%nat by lia. apply app_nil_r. Qed.
Lemma pad_to_pad : forall m n d (code : ustr), (m <= n)%nat -> pad_to m d (pad_to n d code) = pad_to m d code.
Proof.
  intros m n d code L. unfold pad_to.
  rewrite (firstn_enough m (firstn n _)) by (rewrite firstn_length, app_length, repeat_length; lia).
  rewrite firstn_firstn. rewrite Nat.min_l by exact L.
  replace n with (m + (n - m))%nat by lia. rewrite repeat_app, app_assoc.
  apply firstn_enough. rewrite app_length, repeat_length. lia.
Qed.

Theorem C87_phonex : forall u m n a b, (2 <= m)%nat -> (m <= n)%nat ->
  letters_are_ascii (is_alphabetic u) a -> letters_are_ascii (is_alphabetic u) b ->
  is_encoded_equals (phonex_encode u n) a b = Ok true -> is_encoded_equals (phonex_encode u m) a b = Ok true.
Proof.
  intros u m n a b Hm L La Lb E. apply ieq_defined in E as (x & y & Ea & Eb & [T _]). rewrite <- (T eq_refl) in Eb.
  assert (Sh : forall s, letters_are_ascii (is_alphabetic u) s -> phonex_encode u n s = Ok x ->
    phonex_encode u m s = Ok (pad_to m (# "0") x)).
  { intros s Ls H. apply C66_phonex_is_its_definition in H as (t & code & P & C & ->); [|lia|exact Ls].
    apply C66_phonex_is_its_definition; [exact Hm|exact Ls|]. exists t, code. repeat split; [exact P|exact C|].
    now rewrite pad_to_pad. }
  apply ieq_defined. exists (pad_to m (# "0") x), (pad_to m (# "0") x).
  split; [now apply Sh|]. split; [now apply Sh|tauto].
Qed.
(** Limits of at least five bytes, for every text. *)
Theorem C87_phonex_any : forall u m n, LettersOK u -> (5 <= m)%nat -> (m <= n)%nat ->
  finer (phonex_encode u n) (phonex_encode u m).
Proof.
  intros u m n U Hm L. apply finer_codes. intros a b c Ea Eb.
  set (g := fun r : ustr => match r with [] => [] | f :: ds => f :: pad_to (m - utf8_len f) (# "0") ds end).
  assert (Fit : forall k f ds t, (5 <= k)%nat -> phonex_fitted k t (f :: ds) = f :: pad_to (k - utf8_len f) (# "0") ds).
  { intros k f ds t K. unfold phonex_fitted. destruct k; [lia|].
    assert (Q : (utf8_len f <? S k)%nat = true) by (apply Nat.ltb_lt; pose proof (utf8_len_pos f); lia).
    now rewrite Q. }
  assert (Nil : forall k t, (5 <= k)%nat -> phonex_fitted k t [] = repeat (# "0") k) by (intros [|k] t K; [lia|reflexivity]).
  assert (Sh : forall s, phonex_encode u n s = Ok c -> phonex_encode u m s = Ok (g c)).
  { intros s H. apply (C66_every_text u n s U) in H as (t & code & P & C & ->).
    apply (C66_every_text u m s U). exists t, code. split; [exact P|]. split; [exact C|].
    destruct code as [|f ds].
    - rewrite !Nil by lia. destruct n as [|n]; [lia|]. cbn [repeat g].
      change (utf8_len (# "0")) with 1%nat. destruct m as [|m]; [lia|]. cbn [repeat]. f_equal.
      unfold pad_to. replace (S m - 1)%nat with m by lia.
      rewrite firstn_enough by (rewrite repeat_length; lia).
      replace n with (m + (n - m))%nat by lia. rewrite repeat_app, firstn_enough by (rewrite repeat_length; lia).
      rewrite firstn_all2 by (now rewrite repeat_length). reflexivity.
    - rewrite !Fit by lia. cbn [g]. f_equal. apply pad_to_pad. lia. }
  exists (g c). split; now apply Sh.
Qed.

(** ** Refined Soundex and Soundex *)
Definition capital (c : N) : Prop := # "A" <= c <= # "Z".
(** The Soundex table [t2] tells apart no letters that the refined table [t1] does
    not: neither by their digits nor by being passed over. *)
Definition table_refines (t1 t2 : ustr) (special : bool) (allowed : N -> Prop) : Prop := forall x y,
  capital x -> capital y -> allowed x -> allowed y -> table_digit t1 x = table_digit t1 y ->
  table_digit t2 x = table_digit t2 y /\ table_transparent t2 special x = table_transparent t2 special y.

Lemma collapse_through : forall (g : N -> N) (p : N -> bool) rest x y, (p x = true -> g x = y) ->
  collapse (y :: map g (filter p rest)) = collapse (y :: map g (filter p (tl (collapse (x :: rest))))).
Proof.
  intros g p. induction rest as [|z r IH]; intros x y H; [reflexivity|].
  change (collapse (x :: z :: r)) with (if x =? z then collapse (z :: r) else x :: collapse (z :: r)).
  destruct (N.eqb_spec x z) as [->|D].
  - rewrite <- (IH z y H). cbn [filter]. destruct (p z) eqn:P; [|reflexivity].
    cbn [map]. rewrite (H eq_refl). cbn [collapse]. now rewrite N.eqb_refl.
  - cbn [tl]. rewrite (collapse_cons z r). cbn [filter]. destruct (p z) eqn:P.
    + cbn [map].
      change (collapse (y :: g z :: map g (filter p r)))
        with (if y =? g z then collapse (g z :: map g (filter p r)) else y :: collapse (g z :: map g (filter p r))).
      change (collapse (y :: g z :: map g (filter p (tl (collapse (z :: r))))))
        with (if y =? g z then collapse (g z :: map g (filter p (tl (collapse (z :: r)))))
              else y :: collapse (g z :: map g (filter p (tl (collapse (z :: r)))))).
      now rewrite (IH z (g z) (fun _ => eq_refl)).
    + apply IH. congruence.
Qed.

Section Refined.
Variables (t1 t2 : ustr) (special : bool) (allowed : N -> Prop).
Hypothesis allowed_dec : forall c, {allowed c} + {~ allowed c}.
Hypothesis R : table_refines t1 t2 special allowed.
Let d1 := table_digit t1.
Let d2 := table_digit t2.
Let tr := table_transparent t2 special.
Let letters := map N.of_nat (seq 65 26).
Let rep (d : N) : option N := find (fun c => (d1 c =? d) && if allowed_dec c then true else false) letters.
Let g (d : N) : N := match rep d with Some c => d2 c | None => 0 end.
Let p (d : N) : bool := match rep d with Some c => negb (tr c) | None => true end.
Lemma rep_spec : forall c, capital c -> allowed c -> exists c', rep (d1 c) = Some c' /\ d2 c' = d2 c /\ tr c' = tr c.
Proof.
  intros c C A. unfold rep. destruct (find _ letters) as [c'|] eqn:F.
  - exists c'. split; [reflexivity|]. apply find_some in F as [I H]. apply andb_true_iff in H as [H1 H2].
    apply N.eqb_eq in H1. destruct (allowed_dec c') as [A'|]; [|discriminate H2].
    assert (C' : capital c').
    { unfold letters in I. apply in_map_iff in I as (k & <- & K). apply in_seq in K. unfold capital. lia. }
    now apply R.
  - exfalso. assert (I : In c letters).
    { unfold letters. apply in_map_iff. exists (N.to_nat c). unfold capital in C. split; [lia|]. apply in_seq. lia. }
    apply (find_none _ _ F) in I. cbv beta in I. rewrite N.eqb_refl in I. destruct (allowed_dec c); [discriminate I|contradiction].
Qed.
Lemma digits_from_refined : forall f q, (forall c, In c (f :: q) -> capital c /\ allowed c) ->
  soundex_digits d2 tr f q
  = filter (fun d => negb (d =? # "0")) (tl (collapse (d2 f :: map g (filter p (tl (collapse (map d1 (f :: q)))))))).
Proof.
  intros f q H. unfold soundex_digits. f_equal. f_equal. cbn [map].
  rewrite <- (collapse_through g p (map d1 q) (d1 f) (d2 f)).
  - f_equal. f_equal. assert (Hq : forall c, In c q -> capital c /\ allowed c) by (intros c I; apply H; now right).
    clear H. induction q as [|c q IH]; [reflexivity|]. cbn [filter map].
    destruct (Hq c (or_introl eq_refl)) as [C A]. destruct (rep_spec c C A) as (c' & E & D & T).
    assert (P : p (d1 c) = negb (tr c)) by (unfold p; rewrite E; now rewrite T).
    rewrite P. assert (IH' := IH (fun x I => Hq x (or_intror I))).
    destruct (negb (tr c)); [|exact IH']. cbn [map]. f_equal; [|exact IH'].
    unfold g. now rewrite E, D.
  - intros _. destruct (H f (or_introl eq_refl)) as [C A]. destruct (rep_spec f C A) as (c' & E & D & T).
    unfold g. now rewrite E, D.
Qed.
Lemma code_from_refined : forall a b, (forall c, In c (a ++ b) -> capital c /\ allowed c) ->
  refined_code d1 a = refined_code d1 b -> soundex_code d2 tr a = soundex_code d2 tr b.
Proof.
  intros [|f q] [|f' q'] H E; try discriminate E; [reflexivity|].
  assert (E1 : f = f') by exact (f_equal (hd 0) E).
  assert (E2 : collapse (map d1 (f :: q)) = collapse (map d1 (f' :: q'))) by exact (f_equal (@tl N) E).
  cbn [soundex_code]. f_equal; [exact E1|]. f_equal.
  rewrite !digits_from_refined by (intros c I; apply H; apply in_or_app; auto). now rewrite E2, E1.
Qed.
End Refined.

(** What RefinedSoundex with table [t1] calls equal, Soundex with a table that tells
    no more letters apart calls equal; the letters of the two names may be restricted. *)
Theorem C87_soundex_tables : forall u t1 t2 special (allowed : N -> Prop), length t1 = 26%nat -> length t2 = 26%nat ->
  (forall c, {allowed c} + {~ allowed c}) -> table_refines t1 t2 special allowed ->
  forall a b, (forall c, In c (upper_letters (is_alphabetic u) (to_upper u) (a ++ b)) -> allowed c) ->
  is_encoded_equals (refined_encode u t1) a b = Ok true ->
  is_encoded_equals (soundex_encode u (soundex_new t2 special)) a b = Ok true.
Proof.
  intros u t1 t2 special allowed L1 L2 Dec R a b Al E.
  apply ieq_defined in E as (x & y & Ea & Eb & [T _]). rewrite <- (T eq_refl) in Eb. clear T y.
  rewrite C10_refined_every_text in Ea, Eb by exact L1.
  assert (Cap : forall s, opt_res (refined_outcome (table_digit t1) s) = Ok x ->
    leading_AZ s = s /\ refined_code (table_digit t1) s = x).
  { intros s. unfold refined_outcome. destruct (Nat.eqb_spec (length (leading_AZ s)) (length s)) as [Q|Q]; [|intros H; discriminate H].
    intros H. injection H as H. split; [|exact H]. clear - Q. induction s as [|c s IH]; [reflexivity|].
    cbn [leading_AZ] in *. destruct (_ && _); [|discriminate Q]. f_equal. apply IH. cbn in Q. lia. }
  assert (AZ : forall s, leading_AZ s = s -> forall c, In c s -> capital c).
  { clear. induction s as [|c s IH]; intros H x I; [destruct I|]. cbn [leading_AZ] in H.
    destruct (_ && _) eqn:B; [|discriminate H]. injection H as H. apply andb_true_iff in B as [B1 B2].
    apply N.leb_le in B1. apply N.leb_le in B2. destruct I as [<-|I]; [split; assumption|now apply IH]. }
  destruct (Cap _ Ea) as [Aa Ra]. destruct (Cap _ Eb) as [Ab Rb].
  assert (Q : soundex_code (table_digit t2) (table_transparent t2 special) (upper_letters (is_alphabetic u) (to_upper u) a)
            = soundex_code (table_digit t2) (table_transparent t2 special) (upper_letters (is_alphabetic u) (to_upper u) b)).
  { apply (code_from_refined t1 t2 special allowed Dec R); [|congruence].
    intros c I. split.
    - apply in_app_or in I as [I|I]; [eapply AZ; [exact Aa|exact I]|eapply AZ; [exact Ab|exact I]].
    - apply Al. unfold upper_letters in *. rewrite filter_app, flat_map_app. exact I. }
  assert (Out : forall s, leading_AZ (upper_letters (is_alphabetic u) (to_upper u) s) = upper_letters (is_alphabetic u) (to_upper u) s ->
    soundex_encode u (soundex_new t2 special) s
    = Ok (soundex_code (table_digit t2) (table_transparent t2 special) (upper_letters (is_alphabetic u) (to_upper u) s))).
  { intros s H. rewrite C06_soundex_every_text by exact L2. unfold soundex_outcome. cbv zeta. rewrite H, Nat.eqb_refl. reflexivity. }
  apply ieq_defined. eexists. eexists. split; [now apply Out|]. split; [now apply Out|]. tauto.
Qed.

Lemma refines_by_table : forall t1 t2 special (allowed : N -> Prop) (ok : N -> bool), (forall c, allowed c -> ok c = true) ->
  forallb (fun x => forallb (fun y => negb (ok x && ok y && (table_digit t1 x =? table_digit t1 y))
      || ((table_digit t2 x =? table_digit t2 y) && Bool.eqb (table_transparent t2 special x) (table_transparent t2 special y)))
    (map N.of_nat (seq 65 26))) (map N.of_nat (seq 65 26)) = true ->
  table_refines t1 t2 special allowed.
Proof.
  intros t1 t2 special allowed ok Hok H x y Cx Cy Ax Ay E.
  assert (I : forall c, capital c -> In c (map N.of_nat (seq 65 26))).
  { intros c C. apply in_map_iff. exists (N.to_nat c). unfold capital in C. split; [lia|]. apply in_seq. lia. }
  rewrite forallb_forall in H. specialize (H x (I x Cx)). cbv beta in H. rewrite forallb_forall in H.
  specialize (H y (I y Cy)). cbv beta in H. rewrite (Hok x Ax), (Hok y Ay), E, N.eqb_refl in H. cbn [negb andb orb] in H.
  apply andb_true_iff in H as [H1 H2]. apply N.eqb_eq in H1. now apply eqb_prop in H2.
Qed.
(** With the tables in the crate: the genealogy Soundex, and the one in which H and W
    separate, for all names; the default one for names without H and W. *)
Theorem C87_refined_genealogy : forall u,
  finer (refined_encode u ENGLISH_MAPPING) (soundex_encode u (soundex_from DEFAULT_US_ENGLISH_GENEALOGY_MAPPING_SOUNDEX)).
Proof.
  intros u a b. apply (C87_soundex_tables u ENGLISH_MAPPING DEFAULT_US_ENGLISH_GENEALOGY_MAPPING_SOUNDEX
     (sx_special_case_h_w (soundex_from DEFAULT_US_ENGLISH_GENEALOGY_MAPPING_SOUNDEX)) (fun _ => True)); [reflexivity|reflexivity|auto| |auto].
  apply (refines_by_table _ _ _ _ (fun _ => true)); [reflexivity|vm_compute; reflexivity].
Qed.
Theorem C87_refined_separating : forall u,
  finer (refined_encode u ENGLISH_MAPPING) (soundex_encode u (soundex_new DEFAULT_US_ENGLISH_MAPPING_SOUNDEX false)).
Proof.
  intros u a b. apply (C87_soundex_tables u ENGLISH_MAPPING DEFAULT_US_ENGLISH_MAPPING_SOUNDEX false (fun _ => True)); [reflexivity|reflexivity|auto| |auto].
  apply (refines_by_table _ _ _ _ (fun _ => true)); [reflexivity|vm_compute; reflexivity].
Qed.
Theorem C87_refined_soundex : forall u a b,
  (forall c, In c (upper_letters (is_alphabetic u) (to_upper u) (a ++ b)) -> c <> # "H" /\ c <> # "W") ->
  is_encoded_equals (refined_encode u ENGLISH_MAPPING) a b = Ok true ->
  is_encoded_equals (soundex_encode u soundex_default) a b = Ok true.
Proof.
  intros u a b Al E.
  apply (C87_soundex_tables u ENGLISH_MAPPING DEFAULT_US_ENGLISH_MAPPING_SOUNDEX true (fun c => c <> # "H" /\ c <> # "W"));
    [reflexivity|reflexivity| | |exact Al|exact E].
  - intros c. destruct (N.eq_dec c (# "H")); [right; tauto|]. destruct (N.eq_dec c (# "W")); [right; tauto|left; tauto].
  - apply (refines_by_table _ _ _ _ (fun c => negb (c =? # "H") && negb (c =? # "W"))); [|vm_compute; reflexivity].
    intros c [H W]. apply N.eqb_neq in H. apply N.eqb_neq in W. now rewrite H, W.
Qed.
Theorem C87_refined_soundex_refuted : forall u,
  is_encoded_equals (refined_encode u ENGLISH_MAPPING) $ "Ashcraft" $ "Asacraft" = Ok true
  /\ is_encoded_equals (soundex_encode u soundex_default) $ "Ashcraft" $ "Asacraft" = Ok false.
Proof. intros u. split; vm_compute; reflexivity. Qed.

(** ** Daitch-Mokotoff: equal lists of codes, equal codes *)
Theorem C87_daitch_mokotoff : forall u text flag items d a b out, built_from text flag items d ->
  dms_soundex u d a = Ok out -> dms_soundex u d b = Ok out -> is_encoded_equals (dms_encode u d) a b = Ok true.
Proof.
  intros u text flag items d a b out B Ea Eb.
  destruct (C36_encode_soundex u text flag items d a B) as (o & A1 & A2).
  destruct (C36_encode_soundex u text flag items d b B) as (o' & B1 & B2).
  assert (o = out) by congruence. assert (o' = out) by congruence. subst.
  apply ieq_defined. eexists. eexists. split; [exact A2|]. split; [exact B2|tauto].
Qed.

(** ** No default encoder is finer than another one *)
Definition pairs : list (ustr * ustr) := [($ "Qxc", $ "Ccl"); ($ "Qyu", $ "Ccl"); ($ "Hsl", $ "Ccl"); ($ "Clj", $ "Zli"); ($ "Hgl", $ "Ccl");
     ($ "Vov", $ "Vou"); ($ "Ywf", $ "Hfa"); ($ "Klz", $ "Ccl"); ($ "Cxl", $ "Kli"); ($ "Cus", $ "Cwk"); ($ "Clw", $ "Cyl")].
Lemma some_inj : forall {A} (x y : A), Some x = Some y -> x = y.
Proof. intros A x y H. now injection H. Qed.
Theorem C87_defaults_independent : forall u d i j f e, daitch_default = Ok d -> i <> j ->
  nth_error (default_encoders u d) i = Some f -> nth_error (default_encoders u d) j = Some e ->
  exists a b, ascii_str (a ++ b) /\ is_encoded_equals f a b = Ok true /\ is_encoded_equals e a b = Ok false.
Proof.
  intros u d i j f e D Hij Fi Ej.
  assert (D' : d = dms_default). { assert (K : daitch_default = Ok dms_default) by (vm_compute; reflexivity). congruence. }
  subst d. clear D.
  assert (Ck : map (fun x => map (fun e => is_encoded_equals e (fst (snd x)) (snd (snd x))) (default_encoders u dms_default))
                 (combine (seq 0 11) pairs)
             = map (fun i => map (fun j => Ok (Nat.eqb i j)) (seq 0 11)) (seq 0 11)).
  { vm_compute. reflexivity. }
  assert (Hi : (i < 11)%nat) by (apply (nth_error_Some (default_encoders u dms_default)); congruence).
  assert (Hj : (j < 11)%nat) by (apply (nth_error_Some (default_encoders u dms_default)); congruence).
  destruct (nth_error (combine (seq 0 11) pairs) i) as [[k [a b]]|] eqn:Pi.
  2:{ apply nth_error_None in Pi. cbn in Pi. lia. }
  assert (Row : map (fun e => is_encoded_equals e a b) (default_encoders u dms_default) = map (fun j => Ok (Nat.eqb i j)) (seq 0 11)).
  { assert (X := f_equal (fun l => nth_error l i) Ck). cbv beta in X. rewrite !nth_error_map, Pi in X.
    rewrite (nth_error_nth' _ 0%nat) in X by (rewrite seq_length; lia). rewrite seq_nth in X by lia. cbn [option_map fst snd] in X.
    exact (some_inj _ _ X). }
  assert (At : forall k h, nth_error (default_encoders u dms_default) k = Some h -> is_encoded_equals h a b = Ok (Nat.eqb i k)).
  { intros k' h Hk. assert (K : (k' < 11)%nat) by (apply (nth_error_Some (default_encoders u dms_default)); congruence).
    assert (X := f_equal (fun l => nth_error l k') Row). cbv beta in X. rewrite !nth_error_map, Hk in X.
    rewrite (nth_error_nth' _ 0%nat) in X by (rewrite seq_length; lia). rewrite seq_nth in X by lia. cbn [option_map] in X.
    exact (some_inj _ _ X). }
  exists a, b. split; [|split].
  - assert (As : forallb (fun x => forallb (fun c => c <? 128) (fst (snd x) ++ snd (snd x))) (combine (seq 0 11) pairs) = true)
      by (vm_compute; reflexivity).
    rewrite forallb_forall in As. specialize (As _ (nth_error_In _ _ Pi)). cbn [fst snd] in As. rewrite forallb_forall in As.
    intros c I. apply N.ltb_lt. now apply As.
  - rewrite (At i f Fi). now rewrite Nat.eqb_refl.
  - rewrite (At j e Ej). f_equal. now apply Nat.eqb_neq.
Qed.

Example C87_nonvacuous :
  is_encoded_equals (nysiis_enc real_unicode (nysiis_new false)) $ "Macintosh" $ "Mackentosh" = Ok true
  /\ is_encoded_equals (metaphone_enc real_unicode (metaphone_new None)) $ "Thompson" $ "Thomson" = Ok false
  /\ is_encoded_equals (metaphone_enc real_unicode (metaphone_new (Some 2%nat))) $ "Thompson" $ "Thomson" = Ok true
  /\ is_encoded_equals (metaphone_enc real_unicode (metaphone_new None)) $ "Knight" $ "Night" = Ok true
  /\ dmetaphone_equal real_unicode (dmetaphone_new None) $ "Smith" $ "Smyth" true = Ok true
  /\ is_encoded_equals (phonex_encode real_unicode 8) $ "Peter" $ "Pedro" = Ok true
  /\ LettersOK real_unicode
  /\ is_encoded_equals (refined_encode real_unicode ENGLISH_MAPPING) $ "Braz" $ "Broz" = Ok true
  /\ is_encoded_equals (refined_encode real_unicode ENGLISH_MAPPING) $ "Braz" $ "Brozen" = Ok false
  /\ table_refines ENGLISH_MAPPING DEFAULT_US_ENGLISH_MAPPING_SOUNDEX false (fun _ => True).
Proof.
  repeat match goal with |- _ /\ _ => split end;
    try (match goal with |- _ = Ok _ => vm_compute; reflexivity end); [exact real_letters_ok|].
  apply (refines_by_table _ _ _ _ (fun _ => true)); [reflexivity|vm_compute; reflexivity].
Qed.

Print Assumptions C87_nysiis. Print Assumptions C87_metaphone. Print Assumptions C87_double_metaphone.
Print Assumptions C87_phonex. Print Assumptions C87_phonex_any. Print Assumptions C87_soundex_tables.
Print Assumptions C87_refined_genealogy. Print Assumptions C87_refined_soundex. Print Assumptions C87_daitch_mokotoff.
Print Assumptions C87_defaults_independent.
