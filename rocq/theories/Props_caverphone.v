(** * C15-C17: Caverphone 1 and 2. *)
From Verif Require Import Base UnicodeM Lib Helper Caverphone BaseLemmas Spec_common
  Soundex_proofs UnicodeLemmas Caverphone_proofs.
Local Open Scope N_scope.

(** A Caverphone code: letters of the alphabet, filled up with '1'. *)
Definition caverphone_format (n : nat) (r : ustr) : Prop :=
  length r = n /\
  exists body k, r = body ++ repeat (# "1") k /\ forall c, In c body -> In c $ "AFKLMNPRSTWY".

Lemma format_pad : forall n txt, (forall c, In c txt -> In c final_set) ->
  caverphone_format n (pad_to n (# "1") txt).
Proof.
  intros n txt H. split; [apply pad_to_length|]. exists (firstn n txt), (n - length txt)%nat.
  split; [apply pad_to_alt|]. intros c Hc. apply H.
  rewrite <- (firstn_skipn n txt). apply in_or_app. now left.
Qed.

(** C15 and C16: on a text whose lowercase characters (after lowercasing) are
    all ASCII the code is returned and has the format. *)
Theorem C15_caverphone1_format : forall u s,
  (forall c, In c (str_lower u s) -> is_lowercase u c = true -> c < 128) ->
  exists r, caverphone1_encode u s = Ok r /\ caverphone_format 6 r.
Proof.
  intros u s H. rewrite encode1_eq. change SIX_1 with (repeat (# "1") 6).
  assert (K : only (fun _ => False) final_set
     (run_passes caverphone1_passes (remove_all_non_letter u (str_lower u s)))).
  { apply passes1_only, cleaned_only_ascii. intros c Hc. apply filter_In in Hc as [Hc Hl]. auto. }
  rewrite cut_ascii by (apply (only_ascii _ _ final_set_ascii K)).
  eexists. split; [reflexivity|]. apply format_pad, only_False, K.
Qed.
Theorem C15_caverphone2_format : forall u s,
  (forall c, In c (str_lower u s) -> is_lowercase u c = true -> c < 128) ->
  exists r, caverphone2_encode u s = Ok r /\ caverphone_format 10 r.
Proof.
  intros u s H. rewrite encode2_eq. change TEN_1 with (repeat (# "1") 10).
  assert (K : only (fun _ => False) final_set
     (run_passes caverphone2_passes (remove_all_non_letter u (str_lower u s)))).
  { apply passes2_only, cleaned_only_ascii. intros c Hc. apply filter_In in Hc as [Hc Hl]. auto. }
  rewrite cut_ascii by (apply (only_ascii _ _ final_set_ascii K)).
  eexists. split; [reflexivity|]. apply format_pad, only_False, K.
Qed.
Theorem C15_caverphone_ascii : forall u s, ascii_str s ->
  (exists r, caverphone1_encode u s = Ok r /\ caverphone_format 6 r)
  /\ (exists r, caverphone2_encode u s = Ok r /\ caverphone_format 10 r).
Proof.
  intros u s H. assert (K : forall c, In c (str_lower u s) -> is_lowercase u c = true -> c < 128).
  { intros c Hc _. rewrite str_lower_ascii in Hc by assumption.
    now apply (ascii_str_map_low s H). }
  split; [now apply C15_caverphone1_format | now apply C15_caverphone2_format].
Qed.
Example C15_nonvacuous :
  caverphone1_encode latin1_only $ "Thompson" = Ok $ "TMPSN1" /\
  caverphone2_encode latin1_only $ "Thompson" = Ok $ "TMPSN11111" /\
  caverphone2_encode latin1_only $ "42!" = Ok $ "1111111111".
Proof. repeat split; vm_compute; reflexivity. Qed.

(** C16: whatever is returned, for any input, is 6 (10) bytes long and made of
    the alphabet, '1' and characters outside ASCII that occur in the lowercased input. *)
Theorem C16_caverphone_returned : forall u s,
  (forall r, caverphone1_encode u s = Ok r ->
     blen r = 6%nat /\ forall c, In c r -> In c $ "AFKLMNPRSTWY1" \/ (128 <= c /\ In c (str_lower u s)))
  /\ (forall r, caverphone2_encode u s = Ok r ->
     blen r = 10%nat /\ forall c, In c r -> In c $ "AFKLMNPRSTWY1" \/ (128 <= c /\ In c (str_lower u s))).
Proof.
  assert (W : forall c, In c final_set -> In c $ "AFKLMNPRSTWY1").
  { intros c Hc. cbn [In final_set] in Hc.
    repeat (destruct Hc as [<-|Hc]; [apply isin_In; reflexivity|]). destruct Hc. }
  assert (One : forall c n, In c (repeat (# "1") n) -> In c $ "AFKLMNPRSTWY1").
  { intros c n Hc. apply repeat_spec in Hc. subst. apply isin_In. reflexivity. }
  intros u s. split; intros r H.
  - rewrite encode1_eq in H. apply slice0_spec in H as (t & E & L). split; [exact L|].
    intros c Hc. assert (Hc' : In c (r ++ t)) by (apply in_or_app; now left). rewrite <- E in Hc'.
    apply in_app_or in Hc' as [Hc'|Hc']; [|left; now apply (One c 6%nat)].
    pose proof (passes1_only (fun c => In c (str_lower u s)) _ (cleaned_only u (str_lower u s))) as K.
    unfold only in K. destruct (K c Hc') as [K'|K']; [left; apply W, K' | right; exact K'].
  - rewrite encode2_eq in H. apply slice0_spec in H as (t & E & L). split; [exact L|].
    intros c Hc. assert (Hc' : In c (r ++ t)) by (apply in_or_app; now left). rewrite <- E in Hc'.
    apply in_app_or in Hc' as [Hc'|Hc']; [|left; now apply (One c 10%nat)].
    pose proof (passes2_only (fun c => In c (str_lower u s)) _ (cleaned_only u (str_lower u s))) as K.
    unfold only in K. destruct (K c Hc') as [K'|K']; [left; apply W, K' | right; exact K'].
Qed.
(** encode never loops: it returns or panics; and it does panic on some input. *)
Theorem C16_caverphone_total_refuted :
  caverphone1_encode latin1_only $ "tptpté" = Panic
  /\ caverphone2_encode latin1_only $ "tptptptpté" = Panic.
Proof. split; vm_compute; reflexivity. Qed.
Theorem C16_caverphone_no_fuel : forall u s,
  caverphone1_encode u s <> NoFuel /\ caverphone2_encode u s <> NoFuel.
Proof.
  intros u s. rewrite encode1_eq, encode2_eq, !slice0. unfold slice_to.
  split; destruct (split_byte _ _) as [[? ?]|]; discriminate.
Qed.

(** C17: only the lowercase letters of the lowercased input matter. *)
Theorem C17_caverphone_cleaning : forall u s t,
  filter (is_lowercase u) (str_lower u s) = filter (is_lowercase u) (str_lower u t) ->
  caverphone1_encode u s = caverphone1_encode u t
  /\ caverphone2_encode u s = caverphone2_encode u t.
Proof.
  intros u s t H. rewrite !encode1_eq, !encode2_eq. unfold remove_all_non_letter. now rewrite H.
Qed.
Theorem C17_caverphone_ascii_case : forall u s,
  caverphone1_encode u (map ascii_up s) = caverphone1_encode u s
  /\ caverphone2_encode u (map ascii_up s) = caverphone2_encode u s.
Proof. intros u s. apply C17_caverphone_cleaning. now rewrite str_lower_ascii_up. Qed.
(** Inserting a character without lowercase letters in its lowercase form (a
    digit, a space, punctuation...) changes nothing, in texts free of the
    context-dependent capital sigma (U+03A3). *)
Theorem C17_caverphone_insert_nonletter : forall u a c b,
  ~ In 931 (a ++ c :: b) -> (forall x, In x (to_lower u c) -> is_lowercase u x = false) ->
  caverphone1_encode u (a ++ c :: b) = caverphone1_encode u (a ++ b)
  /\ caverphone2_encode u (a ++ c :: b) = caverphone2_encode u (a ++ b).
Proof.
  intros u a c b Hs Hc. apply C17_caverphone_cleaning. unfold str_lower.
  rewrite !str_lower_no_sigma.
  - rewrite !flat_map_app. cbn [flat_map]. rewrite !filter_app. f_equal.
    assert (E : filter (is_lowercase u) (to_lower u c) = []).
    { induction (to_lower u c) as [|x l IH]; [reflexivity|]. cbn. rewrite Hc by (now left).
      apply IH. intros y Hy. apply Hc. now right. }
    now rewrite E.
  - intros K. apply Hs. apply in_app_or in K as [K|K]; apply in_or_app; auto. right. now right.
  - exact Hs.
Qed.
Theorem C17_caverphone_ascii_letters_only : forall u s, ascii_str s ->
  caverphone1_encode u s = caverphone1_encode u (filter is_ascii_alpha s)
  /\ caverphone2_encode u s = caverphone2_encode u (filter is_ascii_alpha s).
Proof.
  intros u s H. apply C17_caverphone_cleaning.
  change (filter (is_lowercase u) (str_lower u s)) with (remove_all_non_letter u (str_lower u s)).
  change (filter (is_lowercase u) (str_lower u (filter is_ascii_alpha s)))
    with (remove_all_non_letter u (str_lower u (filter is_ascii_alpha s))).
  rewrite !cleaned_ascii by (try apply ascii_str_filter; assumption). f_equal.
  induction s as [|c s IH]; [reflexivity|]. apply ascii_str_cons in H as [_ H].
  cbn [filter]. destruct (is_ascii_alpha c) eqn:E; [|now apply IH]. cbn [filter]. rewrite E.
  f_equal. now apply IH.
Qed.
Example C17_nonvacuous :
  caverphone2_encode latin1_only $ "O'Brien 3rd" = caverphone2_encode latin1_only $ "obrienrd".
Proof. vm_compute. reflexivity. Qed.
Example C16_nonvacuous :
  caverphone1_encode latin1_only $ "Thompson" = Ok $ "TMPSN1" /\ caverphone2_encode latin1_only $ "Thompson" = Ok $ "TMPSN11111".
Proof. split; vm_compute; reflexivity. Qed.
