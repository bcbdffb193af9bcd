(** * C12-C14: Cologne. *)
From Verif Require Import Base UnicodeM Lib Cologne BaseLemmas Spec_common Spec_cologne
  Soundex_proofs Cologne_proofs.
Local Open Scope N_scope.

(** C12: total, digits 0-8, a 0 only in front, at most two digits per letter. *)
Theorem C12_cologne_total : forall u s, exists r, cologne_encode u s = Ok r.
Proof. intros. unfold cologne_encode. eauto. Qed.
Theorem C12_cologne_digits : forall u s r, cologne_encode u s = Ok r ->
  (forall c, In c r -> # "0" <= c <= # "8") /\ (forall c, In c (tl r) -> c <> # "0").
Proof.
  intros u s r H. rewrite encode_codes in H. injection H as <-. split.
  - intros c Hc. apply reduce_incl in Hc as [Hc Hn]. apply codes_chars in Hc as [Hc|Hc]; congruence.
  - intros c Hc. now apply reduce_tail_no_zero in Hc.
Qed.
Theorem C12_cologne_length : forall u s r, cologne_encode u s = Ok r ->
  (length r <= 2 * length (str_upper u s))%nat.
Proof.
  intros u s r H. rewrite encode_codes in H. injection H as <-.
  etransitivity; [apply reduce_length|]. etransitivity; [apply codes_length|].
  pose proof (filter_length_le _ (fun c => isin c $ "ABCDEFGHIJKLMNOPQRSTUVWXYZ")
    (map fold_upper (str_upper u s))) as L. rewrite map_length in L. lia.
Qed.
Example C12_nonvacuous : cologne_encode latin1_only $ "Müller-Lüdenscheidt" = Ok $ "65752682"
  /\ cologne_encode latin1_only $ "Arbeitsamt" = Ok $ "071862".
Proof. split; reflexivity. Qed.

(** C13: the table. *)
Theorem C13_cologne_is_its_table : forall u s,
  cologne_encode u s = Ok (cologne_code (str_upper u s)).
Proof. exact encode_spec. Qed.
Example C13_nonvacuous : cologne_code $ "WIKIPEDIA" = $ "3412".
Proof. reflexivity. Qed.

(** C14: invariances. *)
Theorem C14_ascii_case : forall u s, cologne_encode u (map ascii_up s) = cologne_encode u s.
Proof. intros. now rewrite !encode_codes, str_upper_ascii_up. Qed.
Theorem C14_umlauts : forall u s, cologne_encode u (map umlaut_base s) = cologne_encode u s.
Proof. intros. now rewrite !encode_codes, upper_umlaut. Qed.
Theorem C14_sharp_s : forall u a b,
  cologne_encode u (a ++ # "ß" :: b) = cologne_encode u (a ++ # "s" :: b).
Proof. exact encode_sharp_s. Qed.
(** A character that is not a letter is ignored at either end of the text or in
    front of another one... *)
Theorem C14_nonletter_beside_nonletter : forall u a n b,
  n < 128 -> is_ascii_alpha n = false ->
  (a = [] \/ b = [] \/ exists x b', b = x :: b' /\ x < 128 /\ is_ascii_alpha x = false) ->
  cologne_encode u (a ++ n :: b) = cologne_encode u (a ++ b).
Proof.
  assert (K : forall u c, c < 128 -> is_ascii_alpha c = false ->
     map fold_upper (to_upper u c) = [c] /\ isin c $ "ABCDEFGHIJKLMNOPQRSTUVWXYZ" = false).
  { intros u c L H. unfold is_ascii_alpha in H. apply orb_false_iff in H as [H1 H2]. split.
    - rewrite to_upper_ascii by assumption. unfold ascii_up. rewrite H2. cbn [map]. f_equal.
      unfold fold_upper. repeat (match goal with |- context[c =? ?k] =>
        replace (c =? k) with false by (symmetry; apply N.eqb_neq; lia) end). reflexivity.
    - rewrite <- upper_isin. exact H1. }
  intros u a n b L Hn H. rewrite !encode_codes. do 2 f_equal.
  change (n :: b) with ([n] ++ b). rewrite !str_upper_app, !map_app.
  destruct (K u n L Hn) as [E1 E2].
  replace (map fold_upper (str_upper u [n])) with [n]
    by (unfold str_upper; cbn [flat_map]; now rewrite app_nil_r).
  cbn [app]. apply codes_nonletter; [assumption|].
  destruct H as [->|[->|(x & b' & -> & Lx & Hx)]]; [now left|now right|]. right.
  destruct (K u x Lx Hx) as [E3 E4]. unfold str_upper. cbn [flat_map]. rewrite map_app, E3. exact E4.
Qed.
(** ... but between letters it is not: dropping non-letters is not an invariance. *)
Theorem C14_drop_nonletters_refuted :
  ~ (forall u a n b, UnicodeOK u -> is_alphabetic u n = false ->
       cologne_encode u (a ++ n :: b) = cologne_encode u (a ++ b)).
Proof.
  intros H. specialize (H latin1_only $ "P" (# "-") $ "H" latin1_only_ok eq_refl). discriminate.
Qed.
Example C14_nonvacuous :
  cologne_encode latin1_only $ "straße, ÖL!" = cologne_encode latin1_only $ "STRASE, OL".
Proof. reflexivity. Qed.
