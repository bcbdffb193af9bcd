(** * Letters that may be exchanged: Phonex. *)
From Verif Require Import Base UnicodeM Lib Helper Phonex BaseLemmas Spec_common Spec_doubled Spec_exchange
  UnicodeLemmas Soundex_proofs Props_doubled Exchange_proofs.
Local Open Scope N_scope.

(** What the loop looks at. *)
Definition px_alike (x y : N) : Prop :=
  (forall next last, px_transcode x next last = px_transcode y next last) /\ (x =? # "C") = (y =? # "C")
  /\ px_is_vowel (Some x) = px_is_vowel (Some y) /\ isin x $ "DG" = false /\ isin y $ "DG" = false /\ x <> # "S" /\ y <> # "S".
Definition phonex_late_groups : list ustr := [$ "AEIOUY"; $ "BFPV"; $ "HW"; $ "JKQXZ"; $ "MN"].
Definition phonex_groups : list ustr := [$ "AEIOUY"; $ "FV"].
Lemma px_alike_members : forall x y g, In g phonex_late_groups -> In x g -> In y g -> px_alike x y.
Proof.
  intros x y g Ig Ix Iy. unfold px_alike.
  destruct Ig as [<-|[<-|[<-|[<-|[<-|[]]]]]]; vm_compute in Ix, Iy;
    repeat (destruct Ix as [<-|Ix]; [|]); try destruct Ix;
    repeat (destruct Iy as [<-|Iy]; [|]); try destruct Iy; (split; [intros; reflexivity|]);
    (split; [reflexivity|]); (split; [reflexivity|]); (split; [reflexivity|]); (split; [reflexivity|]); split; discriminate.
Qed.
Lemma px_next_alike : forall x y c last, px_alike x y -> px_transcode c (Some x) last = px_transcode c (Some y) last.
Proof.
  intros x y c last (_ & C & V & D1 & D2 & _). unfold px_transcode, opt_is, isin_opt. rewrite C, V, D1, D2. reflexivity.
Qed.
Lemma px_step_alike : forall x y i c st, px_alike x y -> px_step i c (Some x) st = px_step i c (Some y) st.
Proof. intros x y i c st H. unfold px_step. now rewrite (px_next_alike x y c _ H). Qed.
Lemma px_skip_alike : forall x y i c st, px_alike x y -> snd (px_step i c (Some x) st) = false.
Proof.
  intros x y i c st (_ & _ & _ & D & _). unfold px_step, px_transcode, isin_opt, opt_is. rewrite D.
  repeat match goal with |- context [if ?b then _ else _] => destruct b end; reflexivity.
Qed.
Lemma px_loop_alike : forall x y max b, px_alike x y -> forall n a i st, (length a <= n)%nat -> (i <> 0 \/ a <> [])%nat ->
  px_loop max i (a ++ x :: b) st = px_loop max i (a ++ y :: b) st.
Proof.
  intros x y max b H. induction n as [|n IH]; intros a i st L D.
  - destruct a; [|cbn in L; lia]. cbn [app]. destruct i as [|i]; [destruct D as [D|D]; congruence|].
    rewrite !px_unfold. destruct H as (T & _). unfold px_step. now rewrite T.
  - destruct a as [|c a].
    { cbn [app]. destruct i as [|i]; [destruct D as [D|D]; congruence|]. rewrite !px_unfold. destruct H as (T & _). unfold px_step. now rewrite T. }
    cbn [length] in L. cbn [app]. rewrite !px_unfold. destruct (Nat.eqb _ _); [reflexivity|].
    destruct a as [|e a]; cbn [app hd_error].
    + rewrite (px_step_alike x y i c st H). assert (F := px_skip_alike x y i c st H). rewrite (px_step_alike x y i c st H) in F.
      destruct (px_step i c (Some y) st) as [st' sk]. cbn [snd] in F. subst sk. apply (IH [] (S i) st'); [cbn; lia|left; lia].
    + destruct (px_step i c (Some e) st) as [st' [|]].
      * apply (IH a (S (S i)) st'); [cbn [length] in L; lia|left; lia].
      * apply (IH (e :: a) (S i) st'); [lia|left; lia].
Qed.

(** ** The preparation *)
Lemma drop_leading_S_split : forall R x Q, x <> # "S" -> drop_leading_S (R ++ x :: Q) = drop_leading_S R ++ x :: Q.
Proof.
  induction R as [|c R IH]; intros x Q H; cbn [app drop_leading_S].
  - apply N.eqb_neq in H. now rewrite H.
  - destruct (c =? # "S"); [now apply IH|reflexivity].
Qed.
Lemma drop_trailing_S_split : forall A x B, x <> # "S" -> drop_trailing_S (A ++ x :: B) = A ++ x :: drop_trailing_S B.
Proof.
  intros A x B H. unfold drop_trailing_S. rewrite rev_app_distr. cbn [rev]. rewrite <- app_assoc. cbn [app].
  rewrite drop_leading_S_split, rev_app_distr by exact H. cbn [rev]. rewrite rev_involutive, <- app_assoc. reflexivity.
Qed.
Definition px_prep (s : ustr) : ustr := px_first (px_drop_H (px_pairs s)).
Lemma px_pairs_late : forall c d A, exists c', forall B, px_pairs (c :: d :: A ++ B) = c' :: d :: A ++ B.
Proof.
  intros c d A. unfold px_pairs. repeat match goal with |- context [if ?b then _ else _] => destruct b end; eexists; reflexivity.
Qed.
Lemma px_first_late : forall c, exists c', forall B, px_first (c :: B) = c' :: B.
Proof.
  intros c. unfold px_first. repeat match goal with |- context [if ?b then _ else _] => destruct b end; eexists; reflexivity.
Qed.
Lemma px_prep_late : forall A, (2 <= length A)%nat -> exists p P, forall B, px_prep (A ++ B) = (p :: P) ++ B.
Proof.
  intros [|c [|d A]] L; cbn [length] in L; [lia..|]. unfold px_prep. destruct (px_pairs_late c d A) as [c' E].
  unfold px_drop_H. destruct (c' =? # "H") eqn:H.
  - destruct (px_first_late d) as [d' F]. exists d', A. intros B. cbn [app]. rewrite E, H. now rewrite F.
  - destruct (px_first_late c') as [d' F]. exists d', (d :: A). intros B. cbn [app]. rewrite E, H. now rewrite F.
Qed.
(** Letters which are alike as first ones, and as second ones, too. *)
Definition px_early (x y : N) : Prop := exists f, (forall B, px_first (x :: B) = f :: B) /\ (forall B, px_first (y :: B) = f :: B)
  /\ isin x $ "HKPWNR" = false /\ isin y $ "HKPWNR" = false.
Lemma px_early_ok : forall x y, together phonex_groups x y -> x = y \/ (px_early x y /\ px_alike x y).
Proof.
  intros x y [->|(g & Ig & Ix & Iy)]; [now left|]. right. split.
  - unfold px_early.
    destruct Ig as [<-|[<-|[]]]; vm_compute in Ix, Iy;
      repeat (destruct Ix as [<-|Ix]; [|]); try destruct Ix;
      repeat (destruct Iy as [<-|Iy]; [|]); try destruct Iy; eexists; repeat split.
  - destruct Ig as [<-|[<-|[]]]; [apply (px_alike_members x y $ "AEIOUY")|apply (px_alike_members x y $ "BFPV")]; try assumption;
      vm_compute in Ix, Iy |- *; tauto.
Qed.
Lemma px_prep_early : forall x y A B, px_early x y -> (length A < 2)%nat ->
  px_prep (A ++ x :: B) = px_prep (A ++ y :: B) \/ exists p, px_prep (A ++ x :: B) = [p] ++ x :: B /\ px_prep (A ++ y :: B) = [p] ++ y :: B.
Proof.
  intros x y A B (f & Fx & Fy & Ox & Oy) L. apply isin_false in Ox, Oy.
  assert (Q : forall e, In e $ "HKPWNR" -> (x =? e) = false /\ (y =? e) = false).
  { intros e Ie. split; apply N.eqb_neq; intros ->; [now apply Ox|now apply Oy]. }
  destruct (Q (# "H")) as [Hx Hy]; [cbn; tauto|]. destruct (Q (# "K")) as [Kx Ky]; [cbn; tauto|]. destruct (Q (# "P")) as [Px Py]; [cbn; tauto|].
  destruct (Q (# "W")) as [Wx Wy]; [cbn; tauto|]. destruct (Q (# "N")) as [Nx Ny]; [cbn; tauto|]. destruct (Q (# "R")) as [Rx Ry]; [cbn; tauto|].
  unfold px_prep. destruct A as [|c [|]]; [..|cbn in L; lia]; cbn [app].
  - left. replace (px_pairs (x :: B)) with (x :: B) by (unfold px_pairs; rewrite Kx, Px, Wx; now destruct B).
    replace (px_pairs (y :: B)) with (y :: B) by (unfold px_pairs; rewrite Ky, Py, Wy; now destruct B).
    unfold px_drop_H. now rewrite Hx, Hy, Fx, Fy.
  - unfold px_pairs. rewrite Hx, Hy, Nx, Ny, Rx, Ry, !andb_false_r. unfold px_drop_H. destruct (c =? # "H").
    + left. now rewrite Fx, Fy.
    + right. destruct (px_first_late c) as [c' E]. exists c'. now rewrite !E.
Qed.
Lemma with_two_letters_clean : forall u s, with_two_letters s -> (2 <= length (soundex_clean u s))%nat.
Proof.
  intros u s (a & c & b & d & e & -> & Hc & Hd). change (a ++ c :: b ++ d :: e) with (a ++ [c] ++ b ++ [d] ++ e). rewrite !clean_app, !app_length.
  destruct (with_letter_clean u [c]) as (f & r & ->); [now exists [], c, []|]. destruct (with_letter_clean u [d]) as (f' & r' & ->); [now exists [], d, []|].
  cbn [length]. lia.
Qed.
Lemma clean_around : forall u a x b, # "A" <= x <= # "Z" -> soundex_clean u (a ++ x :: b) = soundex_clean u a ++ x :: soundex_clean u b.
Proof. intros u a x b H. change (a ++ x :: b) with (a ++ [x] ++ b). now rewrite !clean_app, (letter_clean u x H). Qed.
Lemma phonex_late_exchange : forall u max x y, # "A" <= x <= # "Z" -> # "A" <= y <= # "Z" -> together phonex_late_groups x y ->
  exchangeable (phonex_encode u max) with_two_letters any_text x y.
Proof.
  intros u max x y Hx Hy [->|(g & Ig & Ix & Iy)] a b Ha _; [reflexivity|]. assert (Al := px_alike_members x y g Ig Ix Iy).
  unfold phonex_encode, px_preprocess. rewrite !clean_around by assumption. pose proof Al as (_ & _ & _ & _ & _ & Sx & Sy).
  rewrite !drop_trailing_S_split by assumption. fold (px_prep (soundex_clean u a ++ x :: drop_trailing_S (soundex_clean u b))).
  fold (px_prep (soundex_clean u a ++ y :: drop_trailing_S (soundex_clean u b))).
  destruct (px_prep_late _ (with_two_letters_clean u a Ha)) as (p & P & E). rewrite !E.
  now rewrite (px_loop_alike x y max _ Al (length (p :: P)) (p :: P)) by (try lia; right; discriminate).
Qed.
Lemma phonex_exchange : forall u max x y, # "A" <= x <= # "Z" -> # "A" <= y <= # "Z" -> together phonex_groups x y ->
  exchangeable (phonex_encode u max) any_text any_text x y.
Proof.
  intros u max x y Hx Hy T a b _ _. destruct (px_early_ok x y T) as [->|[Ea Al]]; [reflexivity|].
  unfold phonex_encode, px_preprocess. rewrite !clean_around by assumption. pose proof Al as (_ & _ & _ & _ & _ & Sx & Sy).
  rewrite !drop_trailing_S_split by assumption. fold (px_prep (soundex_clean u a ++ x :: drop_trailing_S (soundex_clean u b))).
  fold (px_prep (soundex_clean u a ++ y :: drop_trailing_S (soundex_clean u b))).
  destruct (Nat.lt_ge_cases (length (soundex_clean u a)) 2) as [L|L].
  - destruct (px_prep_early x y _ (drop_trailing_S (soundex_clean u b)) Ea L) as [->|(p & -> & ->)]; [reflexivity|].
    now rewrite (px_loop_alike x y max _ Al 1 [p]) by (try (cbn; lia); right; discriminate).
  - destruct (px_prep_late _ L) as (p & P & E). rewrite !E.
    now rewrite (px_loop_alike x y max _ Al (length (p :: P)) (p :: P)) by (try lia; right; discriminate).
Qed.
