(** * Letters that may be exchanged: NYSIIS. *)
From Verif Require Import Base UnicodeM Lib Helper Nysiis BaseLemmas Spec_common Spec_doubled Spec_exchange
  UnicodeLemmas Soundex_proofs Exchange_proofs Exchange_caverphone_proofs Exchange_phonex_proofs.
Local Open Scope N_scope.

Definition nysiis_groups : list ustr := [$ "AOU"; $ "GQ"].
Definition ny_alike (x y : N) : Prop := ny_vowel x = ny_vowel y
  /\ (exists g, forall p n nn, ny_transcode p x n nn = [g] /\ ny_transcode p y n nn = [g])
  /\ isin x $ "VNCHEIDTR" = false /\ isin y $ "VNCHEIDTR" = false.
Lemma ny_alike_members : forall x y g, In g nysiis_groups -> In x g -> In y g -> ny_alike x y.
Proof.
  intros x y g Ig Ix Iy. unfold ny_alike.
  destruct Ig as [<-|[<-|[]]]; vm_compute in Ix, Iy;
    repeat (destruct Ix as [<-|Ix]; [|]); try destruct Ix;
    repeat (destruct Iy as [<-|Iy]; [|]); try destruct Iy; (split; [reflexivity|]); (split; [eexists; intros; split; reflexivity|]); split; reflexivity.
Qed.

Section Alike.
Variables x y : N.
Hypothesis Al : ny_alike x y.
Lemma other : forall e, In e $ "VNCHEIDTR" -> (x =? e) = false /\ (y =? e) = false /\ (e =? x) = false /\ (e =? y) = false.
Proof.
  intros e Ie. destruct Al as (_ & _ & Ox & Oy). apply isin_false in Ox, Oy.
  assert (x <> e) by (intros ->; now apply Ox). assert (y <> e) by (intros ->; now apply Oy).
  repeat split; apply N.eqb_neq; congruence.
Qed.
Lemma transcode_around : forall p c P B, exists t, 
  ny_transcode p c (hd_error (P ++ x :: B)) (hd_error (tl (P ++ x :: B))) = t /\
  ny_transcode p c (hd_error (P ++ y :: B)) (hd_error (tl (P ++ y :: B))) = t /\ (1 <= length t)%nat /\ (length t <= S (length P))%nat.
Proof.
  intros p c P B.
  destruct (other (# "V")) as (Vx & Vy & _); [cbn; tauto|]. destruct (other (# "N")) as (Nx & Ny & _); [cbn; tauto|].
  destruct (other (# "C")) as (Cx & Cy & _); [cbn; tauto|]. destruct (other (# "H")) as (Hx & Hy & _); [cbn; tauto|].
  destruct Al as (V & _). unfold ny_vowel in V. destruct P as [|d [|e P]]; cbn [app hd_error tl length]; unfold ny_transcode, opt_is, ny_vowel_opt; cbn [option_map].
  - rewrite Vx, Nx, Cx, Hx, Vy, Ny, Cy, Hy, V, !andb_false_r. cbn [andb].
    repeat match goal with |- context [if ?b then _ else _] => destruct b end; eexists; (split; [reflexivity|]); (split; [reflexivity|]); cbn; lia.
  - rewrite Hx, Hy, !andb_false_r.
    repeat match goal with |- context [if ?b then _ else _] => destruct b end; eexists; (split; [reflexivity|]); (split; [reflexivity|]); cbn; lia.
  - repeat match goal with |- context [if ?b then _ else _] => destruct b end; eexists; (split; [reflexivity|]); (split; [reflexivity|]); cbn; lia.
Qed.
Lemma ny_loop_alike : forall n P p B, ny_loop n p (P ++ x :: B) = ny_loop n p (P ++ y :: B).
Proof.
  induction n as [|n IH]; intros P p B; destruct P as [|c P]; cbn [app ny_loop]; try reflexivity.
  - destruct Al as (_ & (g & T) & _). destruct (T p (hd_error B) (hd_error (tl B))) as [-> ->]. cbn [app length skipn]. reflexivity.
  - destruct (transcode_around p c P B) as (t & -> & -> & L1 & L2). cbn [length]. rewrite !app_length. cbn [length].
    destruct (Nat.ltb _ _); [reflexivity|]. destruct t as [|c' t]; [cbn in L1; lia|]. cbn [length app skipn] in *.
    rewrite !skipn_app. replace (length t - length P)%nat with 0%nat by lia. cbn [skipn]. rewrite !app_assoc. now rewrite IH.
Qed.
Lemma ends_around : forall p A B e, ~ In e p -> ends_with (A ++ e :: B) p = ends_with B p.
Proof.
  intros p A B e H. assert (Q : ends_with (A ++ e :: B) p = true <-> ends_with B p = true).
  { rewrite !ends_with_spec. split; intros [a E].
    - destruct (app_suffix a p A B e) as (b & -> & _); [congruence|exact H|]. now exists b.
    - exists (A ++ e :: a). rewrite E. now rewrite <- app_assoc. }
  destruct (ends_with (A ++ e :: B) p), (ends_with B p); intuition congruence.
Qed.
Lemma last2_around : forall to A B e, (2 <= length B)%nat -> ny_replace_last2 to (A ++ e :: B) = A ++ e :: ny_replace_last2 to B.
Proof.
  intros to A B e L. unfold ny_replace_last2. rewrite app_length. cbn [length]. rewrite firstn_app.
  replace (length A + S (length B) - 2)%nat with (length A + (length B - 1))%nat by lia.
  rewrite firstn_all2 by lia. replace (length A + (length B - 1) - length A)%nat with (S (length B - 2)) by lia. cbn [firstn].
  now rewrite <- app_assoc.
Qed.
Lemma ends_two : forall s a b, ends_with s [a; b] = true -> (2 <= length s)%nat.
Proof. intros s a b H. apply ends_with_spec in H as [r ->]. rewrite app_length. cbn. lia. Qed.
Lemma end_around : forall A B e, isin e $ "VNCHEIDTR" = false -> ny_end (A ++ e :: B) = A ++ e :: ny_end B.
Proof.
  intros A B e H. apply isin_false in H.
  assert (K : forall p, In p [$ "EE"; $ "IE"; $ "DT"; $ "RT"; $ "RD"; $ "NT"; $ "ND"] -> forall A B, ends_with (A ++ e :: B) p = ends_with B p).
  { intros p Ip A' B'. apply ends_around. intros I. apply H. cbn in Ip. repeat (destruct Ip as [<-|Ip]; [vm_compute in I |- *; tauto|]). destruct Ip. }
  unfold ny_end. rewrite (K $ "EE"), (K $ "IE") by (cbn; tauto).
  assert (M : (if ends_with B $ "EE" || ends_with B $ "IE" then ny_replace_last2 $ "Y" (A ++ e :: B) else A ++ e :: B)
    = A ++ e :: (if ends_with B $ "EE" || ends_with B $ "IE" then ny_replace_last2 $ "Y" B else B)).
  { destruct (ends_with B $ "EE" || ends_with B $ "IE") eqn:E; [|reflexivity]. apply last2_around. apply orb_true_iff in E as [E|E]; apply ends_two in E; exact E. }
  rewrite M. set (B' := if ends_with B $ "EE" || _ then _ else _). rewrite !K by (cbn; tauto).
  destruct (ends_with B' $ "DT" || ends_with B' $ "RT" || ends_with B' $ "RD" || ends_with B' $ "NT" || ends_with B' $ "ND") eqn:E; [|reflexivity].
  apply last2_around. rewrite !orb_true_iff in E. destruct E as [[[[E|E]|E]|E]|E]; apply ends_two in E; exact E.
Qed.
(** [strip_prefix] of a prefix in which neither letter occurs among those from the third one on. *)
Lemma replace_around : forall p to, length to = length p -> forall e A B, ~ In e (skipn 2 p) -> (2 <= length A)%nat ->
  ny_replace_start p to (A ++ e :: B) = ny_replace_start p to A ++ e :: B /\ length (ny_replace_start p to A) = length A.
Proof.
  intros p to Lt e A B H L. unfold ny_replace_start.
  assert (G : forall p A, ~ In e (skipn (length A) p) -> strip_prefix p (A ++ e :: B) = match strip_prefix p A with Some r => Some (r ++ e :: B) | None => None end).
  { clear. induction p as [|c p IH]; intros A H; [reflexivity|]. destruct A as [|a A]; cbn [app strip_prefix length skipn] in *.
    - destruct (N.eqb_spec c e) as [->|]; [elim H; now left|reflexivity].
    - destruct (c =? a); [|reflexivity]. now apply IH. }
  rewrite G.
  - destruct (strip_prefix p A) as [r|] eqn:E; [|now split]. apply strip_prefix_spec in E. rewrite <- app_assoc. split; [reflexivity|]. rewrite E, !app_length. lia.
  - intros I. apply H. assert (M : skipn (length A) p = skipn (length A - 2) (skipn 2 p)).
    { rewrite skipn_skipn. f_equal. lia. }
    rewrite M in I. rewrite <- (firstn_skipn (length A - 2) (skipn 2 p)). apply in_or_app. now right.
Qed.
Lemma start_around : forall A, (2 <= length A)%nat -> exists A', (2 <= length A')%nat /\
  forall e B, isin e $ "VNCHEIDTR" = false -> ny_start (A ++ e :: B) = A' ++ e :: B.
Proof.
  intros A L. exists (ny_start A).
  assert (R : forall p to, length to = length p -> forall e, ~ In e (skipn 2 p) -> forall A, (2 <= length A)%nat -> forall B,
    ny_replace_start p to (A ++ e :: B) = ny_replace_start p to A ++ e :: B /\ length (ny_replace_start p to A) = length A).
  { intros p to Q e H A' L' B. now apply replace_around. }
  assert (R2 : forall p to, length to = length p -> (length p <= 2)%nat -> forall A, (2 <= length A)%nat -> length (ny_replace_start p to A) = length A).
  { intros p to Q Lp A' L'. apply (R p to Q 0); [rewrite skipn_all2 by lia; intros []|exact L'|exact []]. }
  assert (R3 : forall A, (2 <= length A)%nat -> length (ny_replace_start $ "MAC" $ "MCC" A) = length A /\ length (ny_replace_start $ "SCH" $ "SSS" A) = length A).
  { intros A' L'. split; [apply (R $ "MAC" $ "MCC" eq_refl 0)|apply (R $ "SCH" $ "SSS" eq_refl 0)]; try exact L'; try exact []; vm_compute; intuition discriminate. }
  unfold ny_start. set (A1 := ny_replace_start $ "MAC" $ "MCC" A). assert (L1 : (2 <= length A1)%nat) by (unfold A1; rewrite (proj1 (R3 A L)); exact L).
  set (A2 := ny_replace_start $ "KN" $ "NN" A1). assert (L2 : (2 <= length A2)%nat) by (unfold A2; rewrite R2; [exact L1|reflexivity|cbn; lia|exact L1]).
  set (A3 := ny_replace_start $ "K" $ "C" A2). assert (L3 : (2 <= length A3)%nat) by (unfold A3; rewrite R2; [exact L2|reflexivity|cbn; lia|exact L2]).
  set (A4 := if starts_with A3 $ "PH" || _ then _ else _).
  assert (L4 : (2 <= length A4)%nat). { unfold A4. destruct (_ || _); [|exact L3]. rewrite app_length. cbn. lia. }
  split; [rewrite (proj2 (R3 A4 L4)); exact L4|]. intros e B He. apply isin_false in He.
  rewrite (proj1 (R $ "MAC" $ "MCC" eq_refl e ltac:(intros I; apply He; vm_compute in I |- *; tauto) A L B)). fold A1.
  rewrite (proj1 (R $ "KN" $ "NN" eq_refl e ltac:(intros []) A1 L1 B)). fold A2.
  rewrite (proj1 (R $ "K" $ "C" eq_refl e ltac:(intros []) A2 L2 B)). fold A3.
  assert (E4 : (if starts_with (A3 ++ e :: B) $ "PH" || starts_with (A3 ++ e :: B) $ "PF" then $ "FF" ++ skipn 2 (A3 ++ e :: B) else A3 ++ e :: B) = A4 ++ e :: B).
  { unfold A4. destruct A3 as [|a [|b A3]]; cbn [length] in L3; [lia..|].
    assert (Q : forall c d, starts_with ((a :: b :: A3) ++ e :: B) [c; d] = starts_with (a :: b :: A3) [c; d]).
    { intros c d. unfold starts_with. cbn [app strip_prefix]. destruct (c =? a); [|reflexivity]. now destruct (d =? b). }
    rewrite !Q. destruct (_ || _); reflexivity. }
  rewrite E4. apply (R $ "SCH" $ "SSS" eq_refl e); [|exact L4]. intros I. apply He. vm_compute in I |- *. tauto.
Qed.
End Alike.
Lemma nysiis_exchange : forall u strict x y, # "A" <= x <= # "Z" -> # "A" <= y <= # "Z" -> together nysiis_groups x y ->
  exchangeable (nysiis_encode u strict) with_two_letters any_text x y.
Proof.
  intros u strict x y Hx Hy [->|(g & Ig & Ix & Iy)] a b Ha _; [reflexivity|]. assert (Al := ny_alike_members x y g Ig Ix Iy).
  unfold nysiis_encode. rewrite !clean_around by assumption.
  destruct (start_around _ (with_two_letters_clean u a Ha)) as (A' & L' & E). pose proof Al as (_ & _ & Ox & Oy).
  destruct (soundex_clean u a ++ x :: soundex_clean u b) as [|c1 r1] eqn:Q1; [destruct (soundex_clean u a); discriminate Q1|]. rewrite <- Q1; clear Q1 c1 r1.
  destruct (soundex_clean u a ++ y :: soundex_clean u b) as [|c1 r1] eqn:Q1; [destruct (soundex_clean u a); discriminate Q1|]. rewrite <- Q1; clear Q1 c1 r1.
  rewrite !E, !end_around by assumption. destruct A' as [|c A']; [cbn in L'; lia|]. cbn [app].
  rewrite !app_length. cbn [length]. now rewrite (ny_loop_alike x y Al).
Qed.
