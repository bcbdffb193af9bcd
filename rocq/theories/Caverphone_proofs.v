(** * Proofs about Caverphone 1 and 2. *)
From Verif Require Import Base UnicodeM Lib Helper Caverphone BaseLemmas Spec_common
  Soundex_proofs UnicodeLemmas.
Local Open Scope N_scope.

(** Every character is in [S] or outside ASCII and satisfies [Q]. *)
Section Only.
Variable Q : N -> Prop.
Definition only (S t : ustr) : Prop := forall c, In c t -> In c S \/ (128 <= c /\ Q c).
Definition pass_sound (f : ustr -> ustr) (T : ustr -> ustr) : Prop :=
  forall S t, only S t -> only (T S) (f t).

Definition after_replace (p to S : ustr) : ustr :=
  to ++ match p with [a] => filter (fun c => negb (c =? a)) S | _ => S end.
Definition after_add (to S : ustr) : ustr := to ++ S.

Lemma replace_aux_in : forall p to s k c, In c (replace_aux p to k s) -> In c to \/ In c s.
Proof.
  intros p to. induction s as [|x s IH]; intros k c H; [destruct H|]. cbn [replace_aux] in H.
  destruct k as [|k].
  - destruct (starts_with (x :: s) p).
    + apply in_app_or in H as [H|H]; [now left|]. apply IH in H as [H|H]; auto. right. now right.
    + destruct H as [<-|H]; [right; now left|]. apply IH in H as [H|H]; auto. right. now right.
  - apply IH in H as [H|H]; auto. right. now right.
Qed.
Lemma replace1_in : forall a to s c, In c (replace [a] to s) -> In c to \/ (In c s /\ c <> a).
Proof.
  intros a to. unfold replace. induction s as [|x s IH]; intros c H; [destruct H|].
  cbn [replace_aux] in H. unfold starts_with in H. cbn [strip_prefix] in H.
  destruct (a =? x) eqn:E.
  - cbn [length Nat.sub] in H. apply in_app_or in H as [H|H]; [now left|].
    apply IH in H as [H|[H1 H2]]; auto. right. split; auto. now right.
  - apply N.eqb_neq in E. destruct H as [<-|H]; [right; split; [now left|congruence]|].
    apply IH in H as [H|[H1 H2]]; auto. right. split; auto. now right.
Qed.
Lemma replace_sound : forall p to, pass_sound (replace p to) (after_replace p to).
Proof.
  intros p to S t H c Hc. unfold after_replace.
  assert (G : In c to \/ In c t) by (now apply replace_aux_in in Hc).
  destruct p as [|a [|b p]].
  - destruct G as [G|G]; [left; apply in_or_app; now left|].
    destruct (H c G); [left; apply in_or_app|]; auto.
  - apply replace1_in in Hc as [Hc|[Hc Hn]]; [left; apply in_or_app; now left|].
    destruct (H c Hc) as [K|K]; auto. left. apply in_or_app. right. apply filter_In.
    split; auto. apply negb_true_iff. now apply N.eqb_neq.
  - destruct G as [G|G]; [left; apply in_or_app; now left|].
    destruct (H c G); [left; apply in_or_app|]; auto.
Qed.
Lemma replace_start_sound : forall p to, pass_sound (replace_start p to) (after_add to).
Proof.
  intros p to S t H c Hc. unfold replace_start in Hc. unfold after_add.
  destruct (strip_prefix p t) as [r|] eqn:E.
  - apply strip_prefix_spec in E. subst t. apply in_app_or in Hc as [Hc|Hc].
    + left. apply in_or_app. now left.
    + destruct (H c) as [K|K]; [apply in_or_app; now right| |]; auto. left. apply in_or_app. now right.
  - destruct (H c Hc); auto. left. apply in_or_app. now right.
Qed.
Lemma replace_end_sound : forall p to, pass_sound (fun t => replace_end t p to) (after_add to).
Proof.
  intros p to S t H c Hc. unfold replace_end in Hc. unfold after_add.
  assert (K : In c to \/ In c t).
  { destruct (ends_with t p); [|auto]. apply in_app_or in Hc as [Hc|Hc]; [|auto].
    right. rewrite <- (firstn_skipn (length t - length p) t). apply in_or_app. now left. }
  destruct K as [K|K].
  - left. apply in_or_app. now left.
  - destruct (H c K); auto. left. apply in_or_app. now right.
Qed.
Lemma replace_char_in : forall f s i c, In c (replace_char_aux f i s) ->
  exists k x, In x s /\ c = f k x.
Proof.
  intros f. induction s as [|x s IH]; intros i c H; [destruct H|]. cbn [replace_char_aux] in H.
  destruct H as [<-|H]; [exists i, x; split; auto; now left|].
  apply IH in H as (k & y & Hy & ->). exists k, y. split; auto. now right.
Qed.
Lemma first_vowel_sound : pass_sound first_vowel_to_A (after_add $ "A").
Proof.
  intros S t H c Hc. unfold first_vowel_to_A, replace_char in Hc. unfold after_add. cbn [app].
  apply replace_char_in in Hc as (k & x & Hx & ->).
  destruct (Nat.eqb k 0 && is_vowel (Some x) false); [left; now left|].
  destruct (H x Hx); auto. left. now right.
Qed.
Definition after_vowels (S : ustr) : ustr := # "3" :: filter (fun c => negb (isin c $ "aeiou")) S.
Lemma vowels_sound : pass_sound vowels_to_3 after_vowels.
Proof.
  intros S t H c Hc. unfold vowels_to_3, replace_char in Hc. unfold after_vowels.
  apply replace_char_in in Hc as (k & x & Hx & ->). cbn [is_vowel].
  destruct (isin x $ "aeiou") eqn:E; cbn [orb andb]; [left; now left|].
  destruct (H x Hx); auto. left. right. apply filter_In. split; auto. now rewrite E.
Qed.
Definition after_compact (chars S : ustr) : ustr :=
  map ascii_up chars ++ filter (fun c => negb (isin c chars)) S.
Lemma compact_in : forall chars s prev c, In c (compact_upper_aux chars prev s) ->
  In c (map ascii_up chars) \/ (In c s /\ isin c chars = false).
Proof.
  intros chars. induction s as [|x s IH]; intros prev c H; [destruct H|].
  cbn [compact_upper_aux] in H. destruct (isin x chars) eqn:E.
  - assert (K : c = ascii_up x \/ exists p, In c (compact_upper_aux chars p s)).
    { destruct prev as [d|].
      - destruct (negb (d =? x)); [destruct H as [<-|H]; [now left|]|]; right; eauto.
      - destruct H as [<-|H]; [now left|]; right; eauto. }
    destruct K as [->|[p K]].
    + left. apply in_map. now apply isin_In.
    + apply IH in K as [K|[K1 K2]]; auto. right. split; auto. now right.
  - destruct H as [<-|H]; [right; split; auto; now left|].
    apply IH in H as [K|[K1 K2]]; auto. right. split; auto. now right.
Qed.
Lemma compact_sound : forall chars,
  pass_sound (fun t => replace_compact_all_to_uppercase t chars) (after_compact chars).
Proof.
  intros chars S t H c Hc. unfold after_compact. apply compact_in in Hc as [Hc|[Hc Hn]].
  - left. apply in_or_app. now left.
  - destruct (H c Hc); auto. left. apply in_or_app. right. apply filter_In. split; auto. now rewrite Hn.
Qed.

Lemma run_sound : forall passes Ts S t, Forall2 pass_sound passes Ts -> only S t ->
  only (fold_left (fun S T => T S) Ts S) (run_passes passes t).
Proof.
  intros passes Ts S t H. revert S t. induction H as [|f T fs Ts Hf _ IH]; intros S t Ht; [exact Ht|].
  cbn. apply IH, Hf, Ht.
Qed.

Ltac soundness := lazymatch goal with
  | |- pass_sound (replace _ _) _ => apply replace_sound
  | |- pass_sound (replace_start _ _) _ => apply replace_start_sound
  | |- pass_sound (fun t => replace_end t _ _) _ => apply replace_end_sound
  | |- pass_sound (fun t => replace_compact_all_to_uppercase t _) _ => apply compact_sound
  | |- pass_sound first_vowel_to_A _ => apply first_vowel_sound
  | |- pass_sound vowels_to_3 _ => apply vowels_sound
  end.

Definition lower26 : ustr := $ "abcdefghijklmnopqrstuvwxyz".
Definition final_set : ustr := $ "AFKLMNPRSTWY".

Lemma only_weaken : forall S S' t, forallb (fun c => isin c S') S = true -> only S t -> only S' t.
Proof.
  intros S S' t H Ht c Hc. destruct (Ht c Hc); auto. left. rewrite forallb_forall in H.
  apply isin_In. auto.
Qed.
Lemma passes1_only : forall t, only lower26 t -> only final_set (run_passes caverphone1_passes t).
Proof.
  intros t Ht. eapply only_weaken; cycle 1.
  - eapply run_sound; [|exact Ht]. unfold caverphone1_passes.
    repeat (apply Forall2_cons; [soundness|]). apply Forall2_nil.
  - vm_compute. reflexivity.
Qed.
Lemma passes2_only : forall t, only lower26 t -> only final_set (run_passes caverphone2_passes t).
Proof.
  intros t Ht. eapply only_weaken; cycle 1.
  - eapply run_sound; [|exact Ht]. unfold caverphone2_passes.
    repeat (apply Forall2_cons; [soundness|]). apply Forall2_nil.
  - vm_compute. reflexivity.
Qed.
End Only.

Lemma lower26_In : forall c, is_ascii_lower c = true -> In c lower26.
Proof.
  intros c H. apply is_ascii_lower_iff in H. apply isin_In.
  assert (E : exists k, (k < 26)%nat /\ c = 97 + N.of_nat k).
  { exists (N.to_nat (c - 97)). split; lia. }
  destruct E as (k & Hk & ->). clear H.
  do 26 (destruct k as [|k]; [reflexivity|]). lia.
Qed.
Lemma cleaned_only : forall u t,
  only (fun c => In c t) lower26 (remove_all_non_letter u t).
Proof.
  intros u t c Hc. apply filter_In in Hc as [Hc Hl].
  destruct (N.ltb_spec c 128) as [L|L]; [|right; auto].
  left. rewrite is_lowercase_ascii in Hl by assumption. now apply lower26_In.
Qed.

Lemma encode1_eq : forall u s,
  caverphone1_encode u s
  = slice 0 6 (run_passes caverphone1_passes (remove_all_non_letter u (str_lower u s)) ++ SIX_1).
Proof. intros u [|c s]; [vm_compute; reflexivity|reflexivity]. Qed.
Lemma encode2_eq : forall u s,
  caverphone2_encode u s
  = slice 0 10 (run_passes caverphone2_passes (remove_all_non_letter u (str_lower u s)) ++ TEN_1).
Proof. intros u [|c s]; [vm_compute; reflexivity|reflexivity]. Qed.

Lemma slice0 : forall n s, slice 0 n s = slice_to n s.
Proof. intros n s. unfold slice. cbn [Nat.ltb Nat.leb]. rewrite Nat.sub_0_r. destruct s; reflexivity. Qed.

(** Cutting [txt ++ "1...1"] at byte [n] when [txt] is ASCII. *)
Lemma cut_ascii : forall n txt, ascii_str txt ->
  slice 0 n (txt ++ repeat (# "1") n) = Ok (pad_to n (# "1") txt).
Proof.
  intros n txt H. rewrite slice0, slice_to_ascii; [reflexivity| |].
  - apply ascii_str_app. split; [assumption|]. intros c Hc. apply repeat_spec in Hc. subst. reflexivity.
  - rewrite app_length, repeat_length. lia.
Qed.

(** The cleaned text of an ASCII input is ASCII, and so is the rewritten one. *)
Lemma only_ascii : forall S t, ascii_str S -> only (fun _ => False) S t -> ascii_str t.
Proof. intros S t HS H c Hc. destruct (H c Hc) as [K|[_ []]]. now apply HS. Qed.
Lemma only_False : forall S t, only (fun _ => False) S t -> forall c, In c t -> In c S.
Proof. intros S t H c Hc. destruct (H c Hc) as [K|[_ []]]. exact K. Qed.
Lemma final_set_ascii : ascii_str final_set.
Proof. apply ascii_strb. reflexivity. Qed.
Lemma cleaned_only_ascii : forall u s, (forall c, In c (remove_all_non_letter u (str_lower u s)) -> c < 128) ->
  only (fun _ => False) lower26 (remove_all_non_letter u (str_lower u s)).
Proof.
  intros u s H c Hc. left. specialize (H c Hc). apply filter_In in Hc as [_ Hc].
  rewrite is_lowercase_ascii in Hc by assumption. now apply lower26_In.
Qed.
Lemma cleaned_ascii : forall u s, ascii_str s ->
  remove_all_non_letter u (str_lower u s) = map ascii_low (filter is_ascii_alpha s).
Proof.
  intros u s H. rewrite str_lower_ascii by assumption. unfold remove_all_non_letter.
  induction s as [|c s IH]; [reflexivity|]. apply ascii_str_cons in H as [H1 H2].
  cbn [map filter]. rewrite is_lowercase_ascii by (now apply ascii_low_lt).
  replace (is_ascii_lower (ascii_low c)) with (is_ascii_alpha c).
  - destruct (is_ascii_alpha c); cbn [map]; now rewrite IH.
  - destruct (is_ascii_lower (ascii_low c)) eqn:E.
    + apply is_ascii_lower_iff in E. apply is_ascii_alpha_iff.
      destruct (ascii_low_cases c) as [[? E']|[? E']]; rewrite E' in E; lia.
    + destruct (is_ascii_alpha c) eqn:E2; [|reflexivity]. exfalso.
      apply is_ascii_alpha_iff in E2. assert (is_ascii_lower (ascii_low c) = true); [|congruence].
      apply is_ascii_lower_iff. destruct (ascii_low_cases c) as [[? E']|[? E']]; rewrite E'; lia.
Qed.
