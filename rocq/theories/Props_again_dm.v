(** * C95, Double Metaphone: no number of encodings is enough for all names. *)
From Verif Require Import Base UnicodeM Lib Helper DoubleMetaphone BaseLemmas Spec_common Spec_contextual Spec_double_metaphone
  UnicodeLemmas Contextual_proofs Props_size Props_double_metaphone Props_double_metaphone_spec Typo_double_metaphone_proofs Props_again.
Local Open Scope N_scope.

Lemma reads_kk : forall m k t, t = repeat (# "K") (2 * k + 2 * m) ->
  dm_reads t (2 * k) (repeat (# "K") m) (repeat (# "K") m).
Proof.
  induction m as [|m IH]; intros k t E.
  - constructor. rewrite E, repeat_length. lia.
  - assert (Nth : forall i, (i < 2 * k + 2 * S m)%nat -> nth_error t i = Some (# "K")).
    { intros i L. rewrite E. apply nth_error_repeat. exact L. }
    apply (dr_letter t (2 * k) (# "K") (doubled $ "K" $ "K") $ "K" $ "K" 1 (repeat (# "K") m) (repeat (# "K") m)); [apply Nth; lia| | |].
    + apply (ro_listed double_metaphone_table (nothing 0) (# "K") $ "K" (fun _ => doubled $ "K" $ "K")); [cbn [In double_metaphone_table]; tauto|now left].
    + apply g_yes; [|constructor]. apply (next_is t (2 * k) (# "K")); [apply Nth; lia|now left].
    + replace (2 * k + 1 + 1)%nat with (2 * S k)%nat by lia. apply IH. rewrite E. f_equal. lia.
Qed.
Lemma halved : forall u m, double_metaphone u None (repeat (# "K") (2 * m))
  = Ok {| dm_primary := repeat (# "K") m; dm_alternate := repeat (# "K") m |}.
Proof.
  intros u m. set (t := repeat (# "K") (2 * m)).
  assert (I : forall x, In x t -> x = # "K") by (intros x H; now apply repeat_spec in H).
  assert (A : ascii_str t) by (intros x H; apply I in H; subst x; reflexivity).
  apply (C69_double_metaphone_is_its_definition u None t t _ _ A).
  - apply trimmed_none. intros c H B. apply I in H. subst c. destruct B as [B|B]; [discriminate B|lia].
  - assert (U : map ascii_up t = t) by (unfold t; clear; generalize (2 * m)%nat; intros j; induction j as [|j IHj]; [reflexivity|]; cbn [repeat map]; now rewrite IHj). rewrite U.
    exists 0%nat, (repeat (# "K") m), (repeat (# "K") m). split; [|split; [|split; reflexivity]].
    + right. split; [reflexivity|]. intros w r J X.
      assert (F : forall y, In y w -> y = # "K") by (intros y Hy; apply I; rewrite X; apply in_or_app; now left).
      cbn in J. repeat (destruct J as [<-|J]; [first [specialize (F (# "N") ltac:(cbn; tauto)) | specialize (F (# "G") ltac:(cbn; tauto))
        | specialize (F (# "P") ltac:(cbn; tauto)) | specialize (F (# "W") ltac:(cbn; tauto))]; discriminate F|]). destruct J.
    + apply (reads_kk m 0). unfold t. f_equal.
Qed.
Definition primary_of (u : Unicode) (max : option nat) (s : ustr) : res ustr := r <- double_metaphone u max s ;; Ok (dm_primary r).
Definition alternate_of (u : Unicode) (max : option nat) (s : ustr) : res ustr := r <- double_metaphone u max s ;; Ok (dm_alternate r).
Lemma halved_again : forall u n m, encoded (primary_of u None) n (repeat (# "K") (2 ^ n * m)) = Ok (repeat (# "K") m)
  /\ encoded (alternate_of u None) n (repeat (# "K") (2 ^ n * m)) = Ok (repeat (# "K") m).
Proof.
  intros u. induction n as [|n IH]; intros m; [cbn; now rewrite Nat.add_0_r|].
  replace (2 ^ S n * m)%nat with (2 * (2 ^ n * m))%nat by (cbn [Nat.pow]; lia).
  cbn [encoded]. unfold primary_of at 1, alternate_of at 1. rewrite halved. cbn [bind dm_primary dm_alternate]. apply IH.
Qed.
(** However often the code is encoded again, for some name that is once too few. *)
Theorem C95_double_metaphone_never_enough : forall u n, exists s code,
  encoded (primary_of u None) n s = Ok code /\ primary_of u None code <> Ok code
  /\ encoded (alternate_of u None) n s = Ok code /\ alternate_of u None code <> Ok code.
Proof.
  intros u n. exists (repeat (# "K") (2 ^ n * 2)), $ "KK". destruct (halved_again u n 2) as [P A].
  split; [exact P|]. split; [vm_compute; discriminate|]. split; [exact A|]. vm_compute. discriminate.
Qed.
(** The alternate code of some names never settles, with and without the limit of four. *)
Theorem C95_double_metaphone_alternate_never_settles : forall u max n, max = None \/ max = Some 4%nat ->
  encoded (alternate_of u max) (1 + 2 * n) $ "Snome" = Ok $ "XNM" /\ encoded (alternate_of u max) (2 + 2 * n) $ "Snome" = Ok $ "SNM".
Proof.
  intros u max n M.
  assert (E1 : alternate_of u max $ "Snome" = Ok $ "XNM") by (destruct M as [->| ->]; vm_compute; reflexivity).
  assert (E2 : alternate_of u max $ "XNM" = Ok $ "SNM") by (destruct M as [->| ->]; vm_compute; reflexivity).
  assert (E3 : alternate_of u max $ "SNM" = Ok $ "XNM") by (destruct M as [->| ->]; vm_compute; reflexivity).
  assert (L : forall k, encoded (alternate_of u max) (2 * k) $ "XNM" = Ok $ "XNM").
  { induction k as [|k IH]; [reflexivity|]. replace (2 * S k)%nat with (S (S (2 * k))) by lia.
    cbn [encoded]. rewrite E2. cbn [bind]. rewrite E3. cbn [bind]. exact IH. }
  assert (L2 : forall k, encoded (alternate_of u max) (2 * k) $ "SNM" = Ok $ "SNM").
  { induction k as [|k IH]; [reflexivity|]. replace (2 * S k)%nat with (S (S (2 * k))) by lia.
    cbn [encoded]. rewrite E3. cbn [bind]. rewrite E2. cbn [bind]. exact IH. }
  split; cbn [Nat.add encoded]; rewrite E1; cbn [bind]; [apply L|]. rewrite E2. cbn [bind]. apply L2.
Qed.
