(** * Proofs about Phonex. *)
From Verif Require Import Base UnicodeM Lib Helper Phonex BaseLemmas Spec_common
  Soundex_proofs UnicodeLemmas Caverphone_proofs Nysiis_proofs.
Local Open Scope N_scope.

Definition digit06 (c : N) : Prop := # "0" <= c <= # "6".
Definition digit16 (c : N) : Prop := # "1" <= c <= # "6".

Lemma px_transcode_digit : forall c next l d sk, px_transcode c next l = (Some d, sk) -> digit06 d.
Proof.
  intros c next l d sk. unfold px_transcode, digit06.
  repeat (match goal with |- context[if ?b then _ else _] => destruct b end);
    intros E; injection E as <- <- || discriminate E; split; discriminate.
Qed.
Lemma px_transcode_skip : forall c next l d, px_transcode c next l = (d, true) ->
  isin c $ "MN" = true /\ isin_opt next $ "DG" = true /\ d = Some (# "5").
Proof.
  intros c next l d. unfold px_transcode.
  destruct (isin c $ "BPFV"); [discriminate|].
  destruct (isin c $ "CSKGJQXZ"); [discriminate|].
  destruct (isin c $ "DT"); [destruct (opt_is _ _); discriminate|].
  destruct (c =? 76); [destruct (_ || _); discriminate|].
  destruct (isin c $ "MN") eqn:E1; [intros E; injection E as <- <-; auto|].
  destruct (c =? 82); [destruct (_ || _); discriminate|]. discriminate.
Qed.

(** The state after the first character: the first letter, then digits. *)
Record px_inv (max : nat) (f : N) (st : px_state) : Prop := {
  inv_ds : exists ds, px_result st = rev ds ++ [f] /\ (forall d, In d ds -> digit16 d)
             /\ no_adjacent_equal ds
             /\ (forall a x, ds = a ++ [x] -> px_last st = x /\ px_last_push st = x);
  inv_code : digit06 (px_code st);
  inv_len : (blen (px_result st) <= max)%nat
}.

Lemma px_step_inv : forall max f i c next st st' sk, i <> 0%nat ->
  px_inv max f st -> blen (px_result st) <> max -> px_step i c next st = (st', sk) -> px_inv max f st'.
Proof.
  intros max f i c next st st' sk Hi [(ds & Er & Hd & Hn & Hl) Hc Hlen] Hne H.
  unfold px_step in H. replace (Nat.eqb i 0) with false in H by (symmetry; now apply Nat.eqb_neq).
  destruct (px_transcode c next _) as [nc skip] eqn:Et.
  set (code := match nc with Some c0 => c0 | None => px_code st end) in *.
  assert (Hcode : digit06 code).
  { unfold code. destruct nc as [d|]; [now apply px_transcode_digit in Et|exact Hc]. }
  replace (Nat.eqb (if skip then S i else i) 0) with false in H
    by (symmetry; apply Nat.eqb_neq; destruct skip; lia).
  injection H as <- <-. cbn [negb]. rewrite andb_true_r.
  destruct (negb (px_last st =? code) && negb (code =? 48)) eqn:Ep.
  - apply andb_true_iff in Ep as [E1 E2]. apply negb_true_iff in E1, E2.
    apply N.eqb_neq in E1, E2.
    assert (H16 : digit16 code) by (unfold digit16, digit06 in *; lia).
    split; cbn [px_result px_last px_last_push px_code].
    + exists (ds ++ [code]). split; [|split; [|split]].
      * rewrite Er, rev_app_distr. reflexivity.
      * intros d Hdd. apply in_app_or in Hdd as [Hdd|[<-|[]]]; auto.
      * destruct (snoc_cases ds) as [->|(a & x & E)]; [exact I|]. rewrite E, <- app_assoc.
        apply nae_snoc. rewrite <- E. split; [exact Hn|]. destruct (Hl a x E). congruence.
      * intros a x E. apply app_inj_tail in E as [_ <-]. auto.
    + exact Hcode.
    + cbn [blen]. rewrite ascii_utf8_len by (unfold digit16 in *; lia). lia.
  - split; cbn [px_result px_last px_last_push px_code]; auto.
    exists ds. do 3 (split; [assumption|]). intros a x E. destruct (Hl a x E); auto.
Qed.

Lemma px_loop_inv : forall n max f i chars st, (length chars <= n)%nat -> i <> 0%nat ->
  px_inv max f st -> px_inv max f (px_loop max i chars st).
Proof.
  induction n as [|n IH]; intros max f i chars st L Hi H.
  - destruct chars; [exact H|cbn in L; lia].
  - destruct chars as [|c r]; [exact H|]. cbn [px_loop].
    destruct (Nat.eqb (blen (px_result st)) max) eqn:E; [exact H|]. apply Nat.eqb_neq in E.
    destruct (px_step i c (hd_error r) st) as [st' sk] eqn:Es.
    pose proof (px_step_inv _ _ _ _ _ _ _ _ Hi H E Es) as H'.
    destruct r as [|d r']; [exact H'|]. cbn [length] in L.
    destruct sk; apply IH; auto; cbn [length]; lia.
Qed.

Definition px_init : px_state :=
  {| px_result := []; px_code := # "0"; px_last := # "0"; px_last_push := # "0" |}.
Lemma px_first_inv : forall max c next st' sk,
  (utf8_len c <= max)%nat -> (c < 128 -> (2 <= max)%nat) ->
  px_step 0 c next px_init = (st', sk) -> px_inv max c st'.
Proof.
  intros max c next st' sk Hw Hm H. unfold px_step in H. cbn [Nat.eqb] in H.
  destruct (px_transcode c next _) as [nc skip] eqn:Et.
  set (code := match nc with Some c0 => c0 | None => px_code px_init end) in *.
  assert (Hcode : digit06 code).
  { unfold code. destruct nc as [d|]; [now apply px_transcode_digit in Et|]. split; discriminate. }
  cbn [px_init px_result px_last px_last_push] in H. injection H as <- <-. destruct skip.
  - apply px_transcode_skip in Et as (E1 & _ & ->).
    assert (c < 128).
    { apply isin_In in E1. cbn in E1. destruct E1 as [<-|[<-|[]]]; reflexivity. }
    subst code. cbn. split; cbn [px_result px_last px_last_push px_code].
    + exists [ # "5" ]. split; [reflexivity|]. split.
      { intros d [<-|[]]. split; discriminate. }
      split; [exact I|]. intros a x E. destruct a as [|? [|]]; try discriminate.
      injection E as <-. auto.
    + exact Hcode.
    + cbn [blen]. rewrite (ascii_utf8_len c) by assumption. specialize (Hm H). cbn. lia.
  - cbn [Nat.eqb negb]. rewrite andb_false_r. split; cbn [px_result px_last px_last_push px_code].
    + exists []. split; [reflexivity|]. split; [intros d []|]. split; [exact I|].
      intros a x E. destruct a; discriminate.
    + exact Hcode.
    + cbn [blen]. lia.
Qed.

Lemma px_loop_result : forall max chars c r, chars = c :: r -> (0 < max)%nat ->
  (utf8_len c <= max)%nat -> (c < 128 -> (2 <= max)%nat) ->
  px_inv max c (px_loop max 0 chars px_init).
Proof.
  intros max chars c r -> H0 H1 H2. cbn [px_loop]. change (blen (px_result px_init)) with 0%nat.
  replace (Nat.eqb 0 max) with false by (symmetry; apply Nat.eqb_neq; lia).
  destruct (px_step 0 c (hd_error r) px_init) as [st' sk] eqn:Es.
  pose proof (px_first_inv _ _ _ _ _ H1 H2 Es) as H'.
  destruct r as [|d r']; [exact H'|].
  destruct sk; eapply px_loop_inv; auto; apply le_n.
Qed.

Lemma encode_px : forall u max s, phonex_encode u max s
  = Ok (rev (px_result (px_loop max 0 (px_preprocess u s) px_init))
        ++ repeat (# "0") (max - blen (px_result (px_loop max 0 (px_preprocess u s) px_init)))).
Proof. intros. unfold phonex_encode. cbv zeta. now rewrite blen_rev. Qed.

(** First letters of preprocessed text. *)
Definition px_initials : ustr := $ "ABCDFGHLMNRSTWX".
Lemma drop_trailing_S_uppers : forall s, uppers s -> uppers (drop_trailing_S s).
Proof.
  intros s H. unfold drop_trailing_S.
  assert (K : forall t, uppers t -> uppers (drop_leading_S t)).
  { induction t as [|c t IH]; intros Ht; [exact Ht|]. cbn. destruct (c =? 83); [|exact Ht].
    apply IH. intros x Hx. apply Ht. now right. }
  intros c Hc. apply in_rev in Hc. revert c Hc. apply K. intros c Hc. apply H. now apply in_rev.
Qed.
Lemma uppers_cons : forall c s, uppers (c :: s) <-> is_ascii_upper c = true /\ uppers s.
Proof. intros c s. change (c :: s) with ([c] ++ s). rewrite uppers_app. unfold uppers at 1. split.
  - intros [H1 H2]. split; auto. apply H1. now left.
  - intros [H1 H2]. split; auto. intros x [<-|[]]. exact H1.
Qed.
Lemma px_pairs_uppers : forall s, uppers s -> uppers (px_pairs s).
Proof.
  intros [|a [|b r]] H; auto. apply uppers_cons in H as [Ha H]. unfold px_pairs.
  repeat (match goal with |- context[if ?b then _ else _] => destruct b end); apply uppers_cons; auto.
Qed.
Lemma px_drop_H_uppers : forall s, uppers s -> uppers (px_drop_H s).
Proof.
  intros [|a r] H; auto. apply uppers_cons in H as [Ha H]. unfold px_drop_H.
  destruct (a =? 72); auto. apply uppers_cons; auto.
Qed.
Lemma px_first_initial : forall s c r, uppers s -> px_first s = c :: r -> In c px_initials /\ uppers r.
Proof.
  intros [|a s] c r H E; [discriminate|]. apply uppers_cons in H as [Ha H].
  apply is_ascii_upper_cases in Ha. cbn [In] in Ha.
  repeat (destruct Ha as [<-|Ha]; [injection E as <- <-; split; [apply isin_In; reflexivity|exact H]|]).
  destruct Ha.
Qed.
Lemma preprocess_initial : forall u s c r, letters_are_ascii (is_alphabetic u) s ->
  px_preprocess u s = c :: r -> In c px_initials /\ uppers r.
Proof.
  intros u s c r H E. eapply px_first_initial; [|exact E].
  apply px_drop_H_uppers, px_pairs_uppers, drop_trailing_S_uppers.
  rewrite clean_ascii by assumption. apply ascii_letters_uppers.
Qed.
