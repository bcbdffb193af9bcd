(** * C18-C20: Nysiis. *)
From Verif Require Import Base UnicodeM Lib Helper Nysiis BaseLemmas Spec_common
  Soundex_proofs UnicodeLemmas Nysiis_proofs.
Local Open Scope N_scope.

(** C18: strict is truncation to six characters. *)
Theorem C18_strict_is_truncation : forall u s,
  letters_are_ascii (is_alphabetic u) s ->
  exists r, nysiis_encode u false s = Ok r /\ nysiis_encode u true s = Ok (firstn 6 r).
Proof.
  intros u s H. destruct (nysiis_key u s) as (key & E1 & E2 & _ & _ & _ & Hu).
  rewrite (clean_ascii u s H) in *. specialize (Hu (ascii_letters_uppers s)).
  rewrite E1, E2. eexists. split; [reflexivity|]. destruct (ascii_letters s); [reflexivity|].
  assert (A : ascii_str (ny_finish key)).
  { apply uppers_ascii. eapply finished_uppers; [apply finish_finished|assumption]. }
  rewrite ascii_blen by assumption. rewrite slice_to_ascii by (auto; lia). f_equal.
  destruct (Nat.le_ge_cases (length (ny_finish key)) 6).
  - rewrite Nat.min_l by assumption. rewrite firstn_all, firstn_all2 by assumption. reflexivity.
  - now rewrite Nat.min_r by assumption.
Qed.
(** In general a strict key is a prefix of the full key, of at most 6 bytes. *)
Theorem C18_strict_is_byte_prefix : forall u s r,
  nysiis_encode u true s = Ok r ->
  exists t, nysiis_encode u false s = Ok (r ++ t) /\ (blen r <= 6)%nat
            /\ (t <> [] -> blen r = 6%nat).
Proof.
  intros u s r H. destruct (nysiis_key u s) as (key & E1 & E2 & _). rewrite E2 in H. rewrite E1.
  destruct (soundex_clean u s); [injection H as <-; exists []; repeat split; auto; cbn; [lia|congruence]|].
  apply slice_to_spec in H as (t & Et & L). exists t. rewrite Et in L |- *. rewrite blen_app in L.
  split; [reflexivity|]. split; [lia|]. intros Ht.
  assert (blen t <> 0)%nat by (intros K; apply Ht, blen_zero, K). lia.
Qed.
Example C18_nonvacuous :
  nysiis_encode latin1_only false $ "Diggell and Brown" = Ok $ "DAGALANDBRAN" /\
  nysiis_encode latin1_only true $ "Diggell and Brown" = Ok $ "DAGALA".
Proof. split; reflexivity. Qed.

(** C19: shape of the key, for every input. *)
Theorem C19_key_tail_letters : forall u s r,
  nysiis_encode u false s = Ok r ->
  forall c, In c (tl r) -> ~ In c $ "EIOUQZMK".
Proof.
  intros u s r H. destruct (nysiis_key u s) as (key & E1 & _ & _ & Ht & _).
  rewrite E1 in H. injection H as <-. destruct (soundex_clean u s); [intros c []|].
  intros c Hc. eapply finished_tail in Hc; [exact Hc|apply finish_finished|exact Ht].
Qed.
(** No two adjacent characters are equal, except possibly a final YY left by
    rewriting a final AY to Y. *)
Theorem C19_key_no_repetition : forall u s r,
  nysiis_encode u false s = Ok r ->
  no_adjacent_equal r \/ exists p, r = p ++ $ "YY" /\ no_adjacent_equal (p ++ $ "Y").
Proof.
  intros u s r H. destruct (nysiis_key u s) as (key & E1 & _ & Hn & _).
  rewrite E1 in H. injection H as <-. destruct (soundex_clean u s); [now left|].
  destruct (proj1 (finish_finished key)) as [|a b E|a b E Ha].
  - now left.
  - left. rewrite E in Hn. now apply nae_prefix in Hn.
  - rewrite E in Hn. apply nae_prefix in Hn as Hp. destruct (snoc_cases a) as [Ea|(a' & x & Ea)]; [congruence|].
    subst a. destruct (N.eq_dec x (# "Y")) as [->|Hx].
    + right. exists a'. split; [now rewrite <- app_assoc|exact Hp].
    + left. rewrite <- app_assoc. apply nae_snoc. split; [exact Hp|congruence].
Qed.
Theorem C19_no_repetition_refuted :
  ~ (forall u s r, UnicodeOK u -> nysiis_encode u false s = Ok r -> no_adjacent_equal r).
Proof.
  intros H. specialize (H latin1_only $ "Byay" $ "BYY" latin1_only_ok eq_refl). cbn in H. tauto.
Qed.
Theorem C19_key_never_ends_in_A : forall u s a,
  nysiis_encode u false s = Ok (a ++ $ "A") -> a = [].
Proof.
  intros u s a H. destruct (nysiis_key u s) as (key & E1 & _ & Hn & _).
  rewrite E1 in H. injection H as H. destruct (soundex_clean u s); [destruct a; discriminate|].
  now apply (proj2 (finish_finished key) Hn).
Qed.
Theorem C19_key_uppercase : forall u s r,
  letters_are_ascii (is_alphabetic u) s -> nysiis_encode u false s = Ok r ->
  forall c, In c r -> # "A" <= c <= # "Z".
Proof.
  intros u s r HA H. destruct (nysiis_key u s) as (key & E1 & _ & _ & _ & _ & Hu).
  rewrite (clean_ascii u s HA) in *. specialize (Hu (ascii_letters_uppers s)).
  rewrite E1 in H. injection H as <-. destruct (ascii_letters s); [intros c []|].
  intros c Hc. apply is_ascii_upper_lt. revert c Hc.
  eapply finished_uppers; [apply finish_finished|assumption].
Qed.
(** The key may be empty although the name has letters. *)
Theorem C19_key_nonempty_refuted : nysiis_encode latin1_only false $ "As" = Ok [].
Proof. reflexivity. Qed.
Example C19_nonvacuous : nysiis_encode latin1_only false $ "Macintosh" = Ok $ "MCANT".
Proof. reflexivity. Qed.

(** C20: totality. *)
Theorem C20_nonstrict_total : forall u s, exists r, nysiis_encode u false s = Ok r.
Proof. intros u s. destruct (nysiis_key u s) as (key & E & _). eauto. Qed.
Theorem C20_strict_total_on_ascii_letters : forall u s,
  letters_are_ascii (is_alphabetic u) s -> exists r, nysiis_encode u true s = Ok r.
Proof. intros u s H. destruct (C18_strict_is_truncation u s H) as (r & _ & E). eauto. Qed.
Theorem C20_strict_total_refuted : nysiis_encode latin1_only true $ "BÉÀÈ" = Panic.
Proof. reflexivity. Qed.
(** Case and non-letters are ignored. *)
Theorem C20_ignores_case_and_nonletters : forall u strict s t,
  map ascii_up (filter (is_alphabetic u) s) = map ascii_up (filter (is_alphabetic u) t) ->
  nysiis_encode u strict s = nysiis_encode u strict t.
Proof. intros u strict s t H. unfold nysiis_encode. now rewrite (clean_case u s t H). Qed.
Example C20_nonvacuous : nysiis_encode latin1_only true $ "O'Daniel" = Ok $ "ODANAL"
  /\ nysiis_encode latin1_only true $ "BÉÀÈÀ" = Panic.
Proof. split; reflexivity. Qed.
