(** * Names without a NYSIIS key: proofs. *)
From Verif Require Import Base UnicodeM Lib Helper Nysiis BaseLemmas Spec_common Spec_rewrite Spec_nysiis Spec_blank
  Rewrite_proofs Soundex_proofs UnicodeLemmas Nysiis_proofs Nysiis_spec_proofs.
Local Open Scope N_scope.

Ltac kind c := repeat match goal with |- context[?k =? c] => rewrite (N.eqb_sym k c) end.
Ltac is c k := destruct (N.eqb_spec c k) as [->|?].

(** What a step writes first. *)
Lemma transcode_hd : forall p c n m, exists x t, ny_transcode p c n m = x :: t.
Proof.
  intros p c n m. unfold ny_transcode.
  repeat match goal with |- context[if ?b then _ else _] => destruct b end; do 2 eexists; reflexivity.
Qed.

Lemma loop_step : forall n p c r x t, (length (c :: r) <= S n)%nat ->
  ny_transcode p c (hd_error r) (hd_error (tl r)) = x :: t ->
  (length t <= length r)%nat ->
  ny_loop (S n) p (c :: r) =
    (pushed <- ny_loop n x (t ++ skipn (length t) r) ;; Ok (if p =? x then pushed else x :: pushed)).
Proof.
  intros n p c r x t L E Lt. cbn [ny_loop]. rewrite E.
  replace (Nat.ltb (length (c :: r)) (length (x :: t))) with false.
  - cbn [length app skipn]. reflexivity.
  - symmetry. apply Nat.ltb_ge. cbn. lia.
Qed.
Lemma loop_ok : forall n p r, (length r <= n)%nat -> exists o, ny_loop n p r = Ok o.
Proof. intros. now apply ny_loop_ok. Qed.

Lemma hisses_SS : forall r, hisses (# "S" :: # "S" :: r) <-> hisses (# "S" :: r).
Proof. intros r. split; [intros H; inversion H; assumption|]. intros H. now apply hi_S. Qed.
Lemma hisses_SCH : forall r, hisses (# "S" :: # "C" :: # "H" :: r) <-> hisses (# "S" :: r).
Proof.
  intros r. split; [|apply hi_SCH]. intros H. inversion H as [| | |r0 K|r0 K]; subst; [inversion K|exact K].
Qed.
Definition is_CH (r : ustr) : bool := opt_is (hd_error r) (# "C") && opt_is (hd_error (tl r)) (# "H").
Lemma is_CH_iff : forall r, is_CH r = true -> exists r', r = # "C" :: # "H" :: r'.
Proof.
  intros [|a [|b r]] H; unfold is_CH in H; cbn [hd_error tl opt_is] in H.
  - discriminate H.
  - rewrite andb_false_r in H. discriminate H.
  - revert H. cbn. intros H. apply andb_true_iff in H as [A B]. apply N.eqb_eq in A. apply N.eqb_eq in B. subst. now exists r.
Qed.
Lemma hisses_S : forall r, is_CH r = false -> (hisses (# "S" :: r) <-> hisses r).
Proof.
  intros r E. split; [|apply hi_S]. intros H. inversion H as [| | |r0 K|r0 K]; subst; [exact K|]. discriminate E.
Qed.
Lemma hisses_head : forall c r, hisses (c :: r) -> c = # "H" \/ c = # "Z" \/ c = # "S".
Proof. intros c r H. inversion H; auto. Qed.

Lemma trans_S : forall p r, ny_transcode p (# "S") (hd_error r) (hd_error (tl r)) = if is_CH r then $ "SSS" else $ "S".
Proof. intros p r. unfold is_CH. destruct r as [|a [|b r]]; reflexivity. Qed.

(** Something else is written. *)
Lemma trans_other : forall p c n m x t, is_ascii_lower c = false -> (p = # "A" \/ p = # "S") ->
  ~ In c $ "SZH" -> ~ In c $ "AEIOU" -> (p = # "A" -> c <> # "W") ->
  ny_transcode p c n m = x :: t -> x <> # "A" /\ x <> # "S".
Proof.
  intros p c n m x t Hl Hp N1 N2 N3 E. cbn in N1.
  assert (V : ny_vowel c = false) by (apply not_true_is_false; intros V; apply (upper_vowel_iff c Hl) in V; tauto).
  assert (c <> # "E") as NE by (intros ->; apply N2; cbn; tauto).
  assert (c <> # "A") as NA by (intros ->; apply N2; cbn; tauto).
  unfold ny_transcode in E. rewrite V in E.
  rewrite (proj2 (N.eqb_neq c (# "E")) NE), (proj2 (N.eqb_neq c (# "S"))), (proj2 (N.eqb_neq c (# "H"))), (proj2 (N.eqb_neq c (# "Z"))) in E by (intros ->; apply N1; tauto).
  cbn [andb orb] in E.
  assert (W : (c =? # "W") && ny_vowel p = false).
  { destruct Hp as [->| ->]; [|now rewrite andb_false_r]. rewrite (proj2 (N.eqb_neq c (# "W"))); auto. }
  rewrite W in E.
  repeat match type of E with (if ?b then _ else _) = _ => destruct b end;
    injection E as <- _; split; try discriminate; try assumption. intros ->. apply N1. tauto.
Qed.

Lemma after_S : forall n r, (length r <= n)%nat -> nolower r ->
  (ny_loop n (# "S") r = Ok [] <-> hisses r).
Proof.
  intros n. induction n as [|n IH]; intros r L HU.
  { destruct r; [|cbn in L; lia]. cbn. split; [constructor|reflexivity]. }
  destruct r as [|c r]; [cbn; split; [constructor|reflexivity]|].
  assert (Hc : is_ascii_lower c = false) by (apply HU; now left).
  assert (HU' : nolower r) by (intros x Hx; apply HU; now right).
  assert (Lr : (length r <= n)%nat) by (cbn in L; lia).
  assert (one : forall x, ny_transcode (# "S") c (hd_error r) (hd_error (tl r)) = [x] ->
     ny_loop (S n) (# "S") (c :: r) = (pushed <- ny_loop n x r ;; Ok (if # "S" =? x then pushed else x :: pushed))).
  { intros x E. rewrite (loop_step n _ c r x [] L E) by (cbn; lia). reflexivity. }
  destruct (N.eqb_spec c (# "S")) as [->|D1].
  { destruct (is_CH r) eqn:CH.
    - pose proof (trans_S (# "S") r) as E. rewrite CH in E. apply is_CH_iff in CH as [r' ->].
      rewrite (loop_step n _ _ _ _ _ L E) by (cbn; lia). cbn [skipn length app]. rewrite hisses_SCH, <- hisses_SS.
      rewrite <- (IH (# "S" :: # "S" :: r')).
      + rewrite N.eqb_refl. destruct (ny_loop n 83 (83 :: 83 :: r')) as [o| |]; cbn; split; congruence.
      + cbn in *. lia.
      + intros x [<-|[<-|Hx]]; [reflexivity|reflexivity|]. apply HU'. right. now right.
    - pose proof (trans_S (# "S") r) as E. rewrite CH in E. rewrite (one _ E), (hisses_S r CH), <- (IH r Lr HU').
      rewrite N.eqb_refl. destruct (ny_loop n 83 r) as [o| |]; cbn; split; congruence. }
  destruct (N.eqb_spec c (# "Z")) as [->|D2].
  { rewrite (one (# "S") eq_refl). assert (hisses (90 :: r) <-> hisses r) as ->.
    { split; [intros H; inversion H; assumption|apply hi_Z]. }
    rewrite <- (IH r Lr HU'), N.eqb_refl. destruct (ny_loop n 83 r) as [o| |]; cbn; split; congruence. }
  destruct (N.eqb_spec c (# "H")) as [->|D3].
  { rewrite (one (# "S") eq_refl). assert (hisses (72 :: r) <-> hisses r) as ->.
    { split; [intros H; inversion H; assumption|apply hi_H]. }
    rewrite <- (IH r Lr HU'), N.eqb_refl. destruct (ny_loop n 83 r) as [o| |]; cbn; split; congruence. }
  split; [|intros H; apply hisses_head in H; intuition congruence].
  intros H. exfalso.
  destruct (transcode_hd (# "S") c (hd_error r) (hd_error (tl r))) as (x & t & E).
  assert (x <> # "S").
  { destruct (ny_vowel c) eqn:V.
    - unfold ny_transcode in E. rewrite V in E. destruct ((c =? 69) && opt_is (hd_error r) 86);
      injection E as <- _; discriminate.
    - apply (trans_other (# "S") c (hd_error r) (hd_error (tl r)) x t Hc); try assumption; [now right|..].
      + cbn. intuition congruence.
      + intros I. apply (upper_vowel_iff c Hc) in I. congruence.
      + discriminate. }
  assert (Lt : (length t <= length r)%nat).
  { destruct (transcode_len (# "S") c (hd_error r) (hd_error (tl r))) as (_ & K).
    pose proof (ny_loop_ok (c :: r) (S n) (# "S") L) as [o Ho]. cbn [ny_loop] in Ho. rewrite E in Ho.
    destruct (Nat.ltb_spec (length (c :: r)) (length (x :: t))); [discriminate|]. cbn in *; lia. }
  rewrite (loop_step n _ c r x t L E Lt) in H.
  destruct (ny_loop n x (t ++ skipn (length t) r)) as [o| |]; cbn [bind] in H; try discriminate H.
  rewrite (proj2 (N.eqb_neq _ _)) in H by congruence. discriminate H.
Qed.

Lemma only_head : forall c r, only_A_then_S (c :: r) -> In c $ "AEIOUWHSZ".
Proof.
  intros c r H. inversion H as [c0 r0 V _|r0 _|c0 r0 _ _|c0 r0 Z _]; subst; cbn in *; tauto.
Qed.
Lemma only_nil : ~ only_A_then_S [].
Proof. intros H. inversion H. Qed.

Lemma push_S : forall R : res ustr, bind R (fun pushed => Ok (# "S" :: pushed)) = Ok $ "S" <-> R = Ok [].
Proof.
  intros [o| |]; cbn; split; intros H; try discriminate H.
  - injection H as ->. reflexivity.
  - injection H as ->. reflexivity.
Qed.
Lemma after_A : forall n r, (length r <= n)%nat -> nolower r ->
  (ny_loop n (# "A") r = Ok $ "S" <-> only_A_then_S r).
Proof.
  intros n. induction n as [|n IH]; intros r L HU.
  { destruct r; [|cbn in L; lia]. cbn. split; [discriminate|intros H; now apply only_nil in H]. }
  destruct r as [|c r]; [cbn; split; [discriminate|intros H; now apply only_nil in H]|].
  assert (Hc : is_ascii_lower c = false) by (apply HU; now left).
  assert (HU' : nolower r) by (intros x Hx; apply HU; now right).
  assert (Lr : (length r <= n)%nat) by (cbn in L; lia).
  assert (one : forall x, ny_transcode (# "A") c (hd_error r) (hd_error (tl r)) = [x] ->
     ny_loop (S n) (# "A") (c :: r) = (pushed <- ny_loop n x r ;; Ok (if # "A" =? x then pushed else x :: pushed))).
  { intros x E. rewrite (loop_step n _ c r x [] L E) by (cbn; lia). reflexivity. }
  assert (ZS : In c $ "SZ" -> only_A_then_S (c :: r) <-> hisses (c :: r)).
  { intros I. split; [|now apply as_hiss]. intros H. inversion H as [c0 r0 V K|r0 K|c0 r0 V K|c0 r0 V K]; subst; [..|exact K]; exfalso; revert I.
    - revert V. clear. cbn. intros V I. intuition congruence.
    - clear. cbn. intuition congruence.
    - clear. cbn. intuition congruence. }
  destruct (N.eqb_spec c (# "S")) as [->|D1].
  { rewrite ZS by (cbn; tauto). destruct (is_CH r) eqn:CH.
    - pose proof (trans_S (# "A") r) as E. rewrite CH in E. apply is_CH_iff in CH as [r' ->].
      rewrite (loop_step n _ _ _ _ _ L E) by (cbn; lia). cbn [skipn length app]. rewrite hisses_SCH, <- hisses_SS.
      rewrite <- (after_S n (# "S" :: # "S" :: r')).
      + change (65 =? 83) with false. cbv iota. apply push_S.
      + cbn in *. lia.
      + intros x [<-|[<-|Hx]]; [reflexivity|reflexivity|]. apply HU'. right. now right.
    - pose proof (trans_S (# "A") r) as E. rewrite CH in E. rewrite (one _ E), (hisses_S r CH), <- (after_S n r Lr HU').
      change (65 =? 83) with false. cbv iota. apply push_S. }
  destruct (N.eqb_spec c (# "Z")) as [->|D2].
  { rewrite ZS by (cbn; tauto). rewrite (one (# "S") eq_refl). assert (hisses (90 :: r) <-> hisses r) as ->.
    { split; [intros H; inversion H; assumption|apply hi_Z]. }
    rewrite <- (after_S n r Lr HU'). change (65 =? 83) with false. cbv iota.
    apply push_S. }
  assert (again : (pushed <- ny_loop n (# "A") r ;; Ok (if # "A" =? # "A" then pushed else # "A" :: pushed)) = Ok $ "S"
     <-> only_A_then_S r).
  { rewrite <- (IH r Lr HU'), N.eqb_refl. destruct (ny_loop n 65 r) as [o| |]; cbn; split; congruence. }
  destruct (ny_vowel c) eqn:V.
  { assert (I : In c $ "AEIOU") by (apply (upper_vowel_iff c Hc), V).
    assert (only_A_then_S (c :: r) <-> only_A_then_S r) as ->.
    { split; [|now apply as_vowel]. intros H. inversion H as [c0 r0 _ K|r0 K|c0 r0 _ K|c0 r0 Z K]; subst; try assumption; exfalso; revert I.
      revert Z. clear. cbn. intros Z I. intuition congruence. }
    destruct ((c =? # "E") && opt_is (hd_error r) (# "V")) eqn:EV.
    - apply andb_true_iff in EV as [E1 E2]. apply N.eqb_eq in E1. subst c. destruct r as [|v r]; [discriminate E2|].
      cbn in E2. apply N.eqb_eq in E2. subst v.
      rewrite (loop_step n _ _ _ (# "A") $ "F" L eq_refl) by (cbn; lia). cbn [length skipn app].
      split; [|intros H; apply only_head in H; cbn in H; intuition congruence].
      intros H. exfalso. destruct n as [|n]; [cbn in Lr; lia|].
      assert (LF : (length (70%N :: r) <= S n)%nat) by (cbn in *; lia).
      rewrite (loop_step n _ (# "F") r (# "F") [] LF eq_refl) in H by (cbn; lia). cbn [length skipn app] in H.
      change (65 =? 70) with false in H. cbv iota in H. rewrite N.eqb_refl in H.
      destruct (ny_loop n 70 r) as [o| |]; cbn in H; discriminate H.
    - assert (E : ny_transcode (# "A") c (hd_error r) (hd_error (tl r)) = [# "A"]).
      { unfold ny_transcode. rewrite EV, V. reflexivity. }
      rewrite (one _ E). exact again. }
  assert (NV : ~ In c $ "AEIOU") by (intros I; apply (upper_vowel_iff c Hc) in I; congruence).
  destruct (N.eqb_spec c (# "W")) as [->|D4].
  { rewrite (one (# "A") eq_refl), again. split; [apply as_W|].
    intros H. inversion H as [c0 r0 Q K|r0 K|c0 r0 _ K|c0 r0 Z K]; subst; try assumption.
    exfalso. clear -Z. cbn in Z. intuition congruence. }
  destruct (N.eqb_spec c (# "H")) as [->|D3].
  { destruct r as [|x r].
    { assert (~ only_A_then_S $ "H") as NH.
      { intros H. inversion H as [c0 r0 Q K|r0 K|c0 r0 Q K|c0 r0 Z K]; subst; [now apply NV|].
        clear -Z. cbn in Z. intuition congruence. }
      split; [|tauto]. intros H. exfalso. rewrite (one (# "A") eq_refl) in H. destruct n; discriminate H. }
    assert (Hx : is_ascii_lower x = false) by (apply HU'; now left).
    assert (only_A_then_S (72 :: x :: r) <-> (~ In x $ "AEIOU" /\ only_A_then_S (x :: r))) as ->.
    { split; [|intros [A B]; now apply as_H].
      intros H. inversion H as [c0 r0 Q K|r0 K|c0 r0 Q K|c0 r0 Z K]; subst.
      - exfalso. now apply NV.
      - now split.
      - exfalso. clear -Z. cbn in Z. intuition congruence. }
    assert (E : ny_transcode (# "A") (# "H") (hd_error (x :: r)) (hd_error (tl (x :: r)))
       = [if ny_vowel x then # "H" else # "A"]).
    { cbn [hd_error tl]. unfold ny_transcode, ny_vowel_opt. cbn [option_map]. fold (ny_vowel x).
      replace (is_vowel (Some (ascii_low x)) false) with (ny_vowel x) by reflexivity.
      destruct (ny_vowel x); reflexivity. }
    rewrite (one _ E). destruct (ny_vowel x) eqn:Vx.
    - change (65 =? 72) with false. cbv iota. split.
      + destruct (ny_loop n 72 (x :: r)) as [o| |]; cbn; intros H; discriminate H.
      + intros [Q _]. exfalso. apply Q, (upper_vowel_iff x Hx), Vx.
    - rewrite again. split; [|tauto]. intros H. split; [|exact H]. intros I.
      apply (upper_vowel_iff x Hx) in I. congruence. }
  split; [|intros H; apply only_head in H; cbn in H, NV; intuition congruence].
  intros H. exfalso.
  destruct (transcode_hd (# "A") c (hd_error r) (hd_error (tl r))) as (x & t & E).
  destruct (trans_other (# "A") c (hd_error r) (hd_error (tl r)) x t Hc) as [NA NS]; try assumption.
  { now left. }
  { cbn. intuition congruence. }
  { intros _. exact D4. }
  assert (Lt : (length t <= length r)%nat).
  { pose proof (ny_loop_ok (c :: r) (S n) (# "A") L) as [o Ho]. cbn [ny_loop] in Ho. rewrite E in Ho.
    destruct (Nat.ltb_spec (length (c :: r)) (length (x :: t))); [discriminate|]. cbn in *; lia. }
  rewrite (loop_step n _ c r x t L E Lt) in H.
  destruct (ny_loop n x (t ++ skipn (length t) r)) as [o| |]; cbn [bind] in H; try discriminate H.
  rewrite (proj2 (N.eqb_neq _ _)) in H by congruence. injection H. congruence.
Qed.

(** The ends of the key. *)
Lemma finish_nil : forall k, ny_finish k = [] <-> k = [] \/ k = $ "AS".
Proof.
  intros k. split.
  2: { intros [->| ->]; reflexivity. }
  intros H. pose proof (proj2 (ny_finish_spec k (ny_finish k)) eq_refl) as F. rewrite H in F.
  destruct F as [[L E]|(L & k1 & k2 & F1 & F2 & F3)]; [now left|].
  right. assert (K2 : k2 = $ "A").
  { destruct F3 as [E|[E N]]; [exact E|]. subst k2. exfalso.
    assert (k1 = []).
    { destruct F2 as [(a & -> & _ & E)|[E _]]; [|now symmetry]. destruct a; discriminate E. }
    subst k1. destruct F1 as [E|[E _]]; subst k; cbn in L; lia. }
  subst k2. assert (K1 : k1 = $ "A").
  { destruct F2 as [(a & -> & Na & E)|[E _]]; [|now symmetry]. destruct a as [|x [|y a]]; [congruence|discriminate E|discriminate E]. }
  subst k1. destruct F1 as [E|[E _]]; [exact E|]. subst k. cbn in L. lia.
Qed.

Lemma hisses_letters : forall r, hisses r -> forall c, In c r -> In c $ "SZHC".
Proof.
  intros r H. induction H as [|r _ IH|r _ IH|r _ IH|r _ IH]; intros c Hc; [destruct Hc|..].
  1-3: destruct Hc as [<-|Hc]; [cbn; tauto|auto].
  destruct Hc as [<-|[<-|[<-|Hc]]]; [cbn; tauto..|]. apply IH. now right.
Qed.
Lemma only_letters : forall r, only_A_then_S r -> forall c, In c r -> In c $ "AEIOUWHSZC".
Proof.
  intros r H. induction H as [c0 r V _ IH|r _ IH|c0 r _ _ IH|c0 r _ K]; intros c Hc.
  - destruct Hc as [<-|Hc]; [cbn in *; tauto|auto].
  - destruct Hc as [<-|Hc]; [cbn; tauto|auto].
  - destruct Hc as [<-|Hc]; [cbn; tauto|auto].
  - apply (hisses_letters _ K) in Hc. cbn in *. tauto.
Qed.
Lemma hisses_last : forall r, hisses r -> r = [] \/ In (last r 0) $ "SZH".
Proof.
  intros r H. induction H as [|r K IH|r K IH|r K IH|r K IH]; [now left|right..].
  1-3: destruct IH as [->|IH]; [cbn; tauto|]; destruct r as [|y r]; [cbn; tauto|exact IH].
  destruct IH as [IH|IH]; [discriminate IH|]. destruct r as [|y r]; [cbn; tauto|exact IH].
Qed.
Lemma only_last : forall r, only_A_then_S r -> In (last r 0) $ "SZH".
Proof.
  intros r H. induction H as [c0 r V K IH|r K IH|c0 r V K IH|c0 r V K].
  - destruct r as [|y r]; [now apply only_nil in K|exact IH].
  - destruct r as [|y r]; [now apply only_nil in K|exact IH].
  - exact IH.
  - apply hisses_last in K as [K|K]; [discriminate K|exact K].
Qed.

Lemma start_A : forall name, hd_error (start_rw nysiis_start name) = Some (# "A") ->
  start_rw nysiis_start name = name.
Proof.
  intros name. unfold start_rw. destruct (find (fun e => starts_with name (fst e)) nysiis_start) as [[p q]|] eqn:F; [|reflexivity].
  apply find_some in F as [F _]. cbn [In nysiis_start] in F.
  repeat (destruct F as [F|F]; [injection F as <- <-; cbn; discriminate|]). destruct F.
Qed.
Lemma end_cases : forall a, end_rw nysiis_end a = a \/
  exists r, In (last (end_rw nysiis_end a) 0) $ "YD" /\ end_rw nysiis_end a = r ++ [last (end_rw nysiis_end a) 0].
Proof.
  intros a. pose proof (proj2 (end_rewritten_iff nysiis_end a _) eq_refl) as E.
  destruct E as [(p & q & r & t1 & t2 & Et & _ & Eq & _)|[_ Eq]]; [right|now left].
  assert (I : In (p, q) nysiis_end) by (rewrite Et; apply in_or_app; right; now left).
  exists r. rewrite Eq. cbn [In nysiis_end] in I.
  repeat (destruct I as [I|I]; [injection I as <- <-; rewrite last_last; split; [cbn; tauto|reflexivity]|]). destruct I.
Qed.
Lemma end_same : forall a, ~ In (last a 0) $ "ETD" -> end_rw nysiis_end a = a.
Proof.
  intros a H. pose proof (proj2 (end_rewritten_iff nysiis_end a _) eq_refl) as E.
  destruct E as [(p & q & r & t1 & t2 & Et & Ea & _ & _)|[_ Eq]]; [|exact Eq]. exfalso. apply H. rewrite Ea.
  assert (I : In (p, q) nysiis_end) by (rewrite Et; apply in_or_app; right; now left).
  cbn [In nysiis_end] in I.
  repeat (destruct I as [I|I]; [injection I as <- <-;
    match goal with |- context[r ++ [?x; ?y]] => change (r ++ [x; y]) with (r ++ [x] ++ [y]) end;
    rewrite app_assoc, last_last; cbn; tauto|]). destruct I.
Qed.

Lemma keyless_name : forall name, nolower name ->
  ((name = [] \/ exists r, ny_end (ny_start name) = # "A" :: r /\ ny_loop (length r) (# "A") r = Ok $ "S")
   <-> nysiis_keyless name).
Proof.
  intros name HU. unfold nysiis_keyless. split; (intros [->|(r & E & H)]; [now left|right]).
  - rewrite after_A in H; [|lia|].
    + rewrite ny_end_spec, ny_start_spec in E. destruct (end_cases (start_rw nysiis_start name)) as [Q|(q & I & Q)].
      * rewrite Q in E. exists r. split; [|exact H]. rewrite <- E. symmetry. apply start_A. now rewrite E.
      * exfalso. rewrite E in I. destruct r as [|y r]; [now apply only_nil in H|].
        apply only_last in H. change (last (65 :: y :: r) 0) with (last (y :: r) 0) in I.
        clear -I H. cbn [In] in I, H. intuition congruence.
    + intros x Hx. apply (ny_end_nolower _ (ny_start_nolower _ HU)). rewrite E. now right.
  - subst name. exists r. assert (R : ny_end (ny_start (# "A" :: r)) = # "A" :: r).
    { rewrite ny_end_spec, ny_start_spec. change (start_rw nysiis_start (65 :: r)) with (65 :: r).
      apply end_same. destruct r as [|y r]; [now apply only_nil in H|]. apply only_last in H.
      change (last (65 :: y :: r) 0) with (last (y :: r) 0).
      intros I. clear -I H. cbn [In] in I, H. intuition congruence. }
    split; [exact R|]. apply after_A; [lia| |exact H]. intros x Hx. apply HU. now right.
Qed.

Lemma nysiis_blank : forall u s strict, nolower (soundex_clean u s) ->
  (nysiis_encode u strict s = Ok [] <-> nysiis_keyless (soundex_clean u s)).
Proof.
  intros u s strict HU. rewrite <- (keyless_name _ HU). unfold nysiis_encode.
  destruct (soundex_clean u s) as [|f q] eqn:E; [split; [now left|reflexivity]|].
  assert (Hne : ny_end (ny_start (f :: q)) <> []) by (apply ny_end_ne, ny_start_ne; discriminate).
  destruct (ny_end (ny_start (f :: q))) as [|c r]; [congruence|].
  destruct (ny_loop_ok r (length r) c (le_n _)) as [o Ho]. rewrite Ho. cbn [bind].
  assert (X : (if strict then slice_to (Nat.min (blen (ny_finish (c :: o))) TRUE_LENGTH) (ny_finish (c :: o))
     else Ok (ny_finish (c :: o))) = Ok [] <-> ny_finish (c :: o) = []).
  { destruct strict; [|split; [intros Y; now injection Y|intros ->; reflexivity]].
    split; [|intros ->; reflexivity]. intros Y. apply slice_to_spec in Y as (t & Y1 & Y2).
    cbn [app] in Y1. destruct (ny_finish (c :: o)) as [|x k]; [reflexivity|]. exfalso.
    pose proof (utf8_len_pos x). cbn [blen] in Y2. unfold TRUE_LENGTH in Y2. lia. }
  cbv zeta. rewrite X, finish_nil. split.
  - intros [Y|Y]; [discriminate Y|]. injection Y as -> ->. right. exists r. now split.
  - intros [Y|(r0 & Y & Z)]; [discriminate Y|]. injection Y as -> ->. right. rewrite Ho in Z. now injection Z as ->.
Qed.
