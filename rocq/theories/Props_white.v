(** * C96: white space of every script.

    The twenty-five characters of the Unicode property White_Space, and what the encoders do with
    each of them under the real Unicode tables. *)
From Verif Require Import Base UnicodeM UnicodeReal Lib Helper Soundex MatchRating Caverphone Nysiis Phonex DoubleMetaphone RulesParser DaitchMokotoff DmRules
  BmLanguages BmEngine BaseLemmas Spec_common Spec_doubled Spec_exchange Spec_leave_out Spec_bm_name UnicodeLemmas Upper_ok Dm_proofs Bm_name_proofs
  Props_soundex Props_caverphone Props_nysiis Props_phonex Props_dm Props_doubled Props_double_metaphone Props_bm_engine Exchange_proofs Props_leave_out.
Local Open Scope N_scope.

(** The characters, as the Unicode standard lists them: tab to carriage return, space, next line, no-break
    space, ogham space, en quad to hair space, line and paragraph separator, narrow no-break space, medium
    mathematical space, ideographic space. *)
Definition white_space : ustr :=
  [9; 10; 11; 12; 13; 32; 133; 160; 5760; 8192; 8193; 8194; 8195; 8196; 8197; 8198; 8199; 8200; 8201; 8202; 8232; 8233; 8239; 8287; 12288].

Lemma in_ranges_In : forall l c, in_ranges c l = true -> exists a b, In (a, b) l /\ a <= c <= b.
Proof.
  induction l as [|[a b] l IH]; intros c H; [discriminate H|]. cbn [in_ranges] in H. destruct (N.ltb_spec c a) as [L|L]; [discriminate H|].
  apply orb_true_iff in H as [H|H].
  - apply N.leb_le in H. exists a, b. split; [now left|lia].
  - destruct (IH c H) as (x & y & I & B). exists x, y. split; [now right|exact B].
Qed.
Lemma between : forall n a c, a <= c <= a + N.of_nat n -> In c (map (fun i => a + N.of_nat i) (seq 0 (S n))).
Proof. intros n a c H. apply in_map_iff. exists (N.to_nat (c - a)). split; [lia|]. apply in_seq. lia. Qed.
Lemma white_iff : forall c, is_whitespace real_unicode c = true <-> In c white_space.
Proof.
  intros c. split.
  - unfold is_whitespace. destruct (N.ltb_spec c 256) as [L|L]; intros H.
    + rewrite !orb_true_iff, andb_true_iff, !N.leb_le, !N.eqb_eq in H.
      assert (K : c = 9 \/ c = 10 \/ c = 11 \/ c = 12 \/ c = 13 \/ c = 32 \/ c = 133 \/ c = 160) by lia.
      clear -K. repeat (destruct K as [->|K]; [cbn; tauto|]). subst c. cbn; tauto.
    + cbn [hi_whitespace real_unicode] in H. apply in_ranges_In in H as (a & b & I & B). clear -I B.
      assert (S : forall n, b = a + N.of_nat n -> incl (map (fun i => a + N.of_nat i) (seq 0 (Datatypes.S n))) white_space -> In c white_space).
      { intros n E K. apply K, between. now rewrite <- E. }
      cbn in I. repeat (destruct I as [I|I]; [injection I as <- <-|]); [..|destruct I];
        first [apply (S 0%nat eq_refl)|apply (S 1%nat eq_refl)|apply (S 10%nat eq_refl)];
        intros x Hx; cbn in Hx; repeat (destruct Hx as [<-|Hx]; [apply isin_In; reflexivity|]); destruct Hx.
  - intros H. unfold white_space in H. cbn [In] in H. repeat (destruct H as [<-|H]; [vm_compute; reflexivity|]). destruct H.
Qed.
Lemma white_eq : forall c, is_whitespace real_unicode c = isin c white_space.
Proof.
  intros c. destruct (isin c white_space) eqn:E.
  - now apply white_iff, isin_In.
  - destruct (is_whitespace real_unicode c) eqn:W; [|reflexivity]. apply white_iff, isin_In in W. congruence.
Qed.

(** ** Daitch-Mokotoff *)
(** Characters that no rule mentions: only their number of bytes matters. *)
Section Unknown.
Variable d : DMS.
Variable known : ustr.
Hypothesis Kkeys : forall k l, In (k, l) (dms_rules d) -> In k known /\ forall r, In r l -> incl (r_pattern r) known.
Hypothesis Kmore : incl $ "aeioumn" known.
Definition alike (a b : N) : Prop := a = b \/ (~ In a known /\ ~ In b known /\ utf8_len a = utf8_len b /\ a <> 0 /\ b <> 0).
Lemma alike_blen : forall s t, Forall2 alike s t -> blen s = blen t.
Proof. intros s t H. induction H as [|a b s t H T IH]; [reflexivity|]. cbn [blen]. rewrite IH. destruct H as [<-|(_ & _ & E & _)]; [reflexivity|now rewrite E]. Qed.
Lemma alike_starts : forall p s t, incl p known -> Forall2 alike s t -> starts_with s p = starts_with t p.
Proof.
  assert (step : forall x p y s, starts_with (y :: s) (x :: p) = (x =? y) && starts_with s p).
  { intros x p y s. unfold starts_with. cbn [strip_prefix]. destruct (x =? y); reflexivity. }
  induction p as [|x p IH]; intros s t I H; [reflexivity|]. destruct H as [|a b s t H T]; [reflexivity|]. rewrite !step.
  rewrite (IH s t) by (exact T || (intros y Hy; apply I; now right)). f_equal.
  destruct H as [<-|(A & B & _)]; [reflexivity|].
  assert (X : In x known) by (apply I; now left).
  transitivity false; [|symmetry]; apply N.eqb_neq; congruence.
Qed.
Lemma alike_vowel : forall s t i, Forall2 alike s t -> is_vowel (nth_char s i) false = is_vowel (nth_char t i) false.
Proof.
  intros s t i H. revert i. induction H as [|a b s t H T IH]; intros i; [destruct i; reflexivity|]. destruct i as [|i]; [|exact (IH i)].
  change (is_vowel (Some a) false = is_vowel (Some b) false). destruct H as [<-|(A & B & _)]; [reflexivity|].
  assert (G : forall x, ~ In x known -> isin x $ "aeiou" || false && (x =? # "y") = false).
  { intros x Hx. destruct (isin x $ "aeiou") eqn:E; [|reflexivity]. exfalso. apply Hx, Kmore. apply isin_In in E. cbn in E |- *. tauto. }
  unfold is_vowel. rewrite (G a A), (G b B). reflexivity.
Qed.
Lemma alike_assoc : forall a b, alike a b -> assoc a (dms_rules d) = assoc b (dms_rules d).
Proof.
  intros a b [<-|(A & B & _)]; [reflexivity|].
  assert (G : forall x, ~ In x known -> assoc x (dms_rules d) = None).
  { intros x Hx. assert (Q : forall k l, In (k, l) (dms_rules d) -> k <> x) by (intros k l I ->; apply Hx; exact (proj1 (Kkeys _ _ I))).
    clear - Q. induction (dms_rules d) as [|[k l] r IH]; [reflexivity|]. cbn. destruct (N.eqb_spec k x) as [E|E]; [exfalso; apply (Q k l); [now left|exact E]|].
    apply IH. intros k' l' I. apply (Q k' l'). now right. }
  now rewrite (G a A), (G b B).
Qed.
Lemma assoc_In : forall A (k : N) (l : list (N * A)) v, assoc k l = Some v -> In (k, v) l.
Proof.
  intros A k l. induction l as [|[k' v'] r IH]; intros v H; [discriminate H|]. cbn in H. destruct (N.eqb_spec k' k) as [->|E].
  - injection H as ->. now left.
  - right. now apply IH.
Qed.
Lemma alike_find : forall s t l, (forall r, In r l -> incl (r_pattern r) known) -> Forall2 alike s t ->
  find (fun rule => rule_matches rule s) l = find (fun rule => rule_matches rule t) l.
Proof.
  intros s t l. induction l as [|r l IH]; intros I H; [reflexivity|]. cbn. unfold rule_matches at 1 3.
  rewrite (alike_starts (r_pattern r) s t) by (assumption || (apply I; now left)).
  destruct (starts_with t (r_pattern r)); [reflexivity|]. apply IH; [intros x Hx; apply I; now right|exact H].
Qed.
Lemma alike_last : forall a b x, In x known -> alike a b -> (a =? x) = (b =? x).
Proof. intros a b x I [<-|(A & B & _)]; [reflexivity|]. transitivity false; [|symmetry]; apply N.eqb_neq; congruence. Qed.
Lemma alike_zero : forall a b, alike a b -> (a =? 0) = (b =? 0).
Proof. intros a b [<-|(_ & _ & _ & A & B)]; [reflexivity|]. transitivity false; [|symmetry]; now apply N.eqb_neq. Qed.
Lemma alike_loop : forall br s t skip la lb bs, Forall2 alike s t -> alike la lb ->
  dms_loop d br skip la bs s = dms_loop d br skip lb bs t.
Proof.
  intros br s t skip la lb bs H. revert skip la lb bs. induction H as [|a b s t H T IH]; intros skip la lb bs L; [reflexivity|].
  cbn [dms_loop]. destruct skip as [|k]; [|now apply IH].
  rewrite (alike_assoc a b H). destruct (assoc b (dms_rules d)) as [rules|] eqn:E; [|now apply IH].
  destruct (Kkeys _ _ (assoc_In _ _ _ _ E)) as [Kb Kp].
  assert (C : Forall2 alike (a :: s) (b :: t)) by now constructor.
  rewrite (alike_find (a :: s) (b :: t) rules Kp C). destruct (find (fun rule => rule_matches rule (b :: t)) rules) as [rule|] eqn:F; [|now apply IH].
  assert (M : In (# "m") known /\ In (# "n") known) by (split; apply Kmore; cbn; tauto). destruct M as [M1 M2].
  rewrite (alike_last la lb (# "m") M1 L), (alike_last la lb (# "n") M2 L), (alike_last a b (# "m") M1 H), (alike_last a b (# "n") M2 H), (alike_zero la lb L).
  replace (get_replacements rule (a :: s) (lb =? 0)) with (get_replacements rule (b :: t) (lb =? 0)).
  - destruct (apply_to_branches br _ bs (get_replacements rule (b :: t) (lb =? 0)) []) as [next| |]; [cbn [bind]; now apply IH|reflexivity..].
  - unfold get_replacements. destruct (lb =? 0); [reflexivity|]. cbv zeta. rewrite (alike_blen _ _ C), (alike_vowel _ _ _ C). reflexivity.
Qed.
End Unknown.

Definition dms_known : ustr := Eval vm_compute in
  $ "aeioumn" ++ flat_map (fun kl => fst kl :: flat_map (fun r => r_pattern r) (snd kl)) (dms_rules dms_default).
Lemma dms_known_all : forall k l, In (k, l) (dms_rules dms_default) -> In k dms_known /\ forall r, In r l -> incl (r_pattern r) dms_known.
Proof.
  assert (E : dms_known = $ "aeioumn" ++ flat_map (fun kl => fst kl :: flat_map (fun r => r_pattern r) (snd kl)) (dms_rules dms_default)) by (vm_compute; reflexivity).
  rewrite E. intros k l H. split.
  - apply in_or_app. right. apply in_flat_map. exists (k, l). split; [exact H|now left].
  - intros r R x X. apply in_or_app. right. apply in_flat_map. exists (k, l). split; [exact H|]. right. apply in_flat_map. now exists r.
Qed.
(** One character of each length that no rule mentions. *)
Definition others : ustr := [1; 161; 8195; 65536].
Lemma represented : forall k, exists k', In k' (0 :: dms_known ++ others) /\ alike dms_known k k'.
Proof.
  intros k. destruct (isin k (0 :: dms_known)) eqn:E.
  - apply isin_In in E. exists k. split; [destruct E as [<-|E]; [now left|right; apply in_or_app; now left]|now left].
  - assert (N0 : k <> 0) by (intros ->; discriminate E).
    assert (Nk : ~ In k dms_known) by (intros H; assert (In k (0 :: dms_known)) as H2 by (now right); apply isin_In in H2; congruence).
    assert (G : forall k', In k' others -> utf8_len k = utf8_len k' -> exists k', In k' (0 :: dms_known ++ others) /\ alike dms_known k k').
    { intros k' I U. exists k'. split; [right; apply in_or_app; now right|]. right. split; [exact Nk|].
      assert (D : ~ In k' dms_known /\ k' <> 0).
      { clear -I. split; [|intros ->; cbn in I; repeat (destruct I as [I|I]; [discriminate I|]); destruct I].
        intros H. apply isin_In in H. cbn in I. repeat (destruct I as [<-|I]; [vm_compute in H; discriminate H|]). destruct I. }
      tauto. }
    unfold utf8_len in G at 1. destruct (k <? 128); [apply (G 1); [cbn; tauto|reflexivity]|]. destruct (k <? 2048); [apply (G 161); [cbn; tauto|reflexivity]|].
    destruct (k <? 65536); [apply (G 8195)|apply (G 65536)]; (cbn; tauto) || reflexivity.
Qed.
Lemma needed_between : forall (out : res (list Branch) -> res ustr) br (contexts : list (ustr * ustr)) k,
  forallb (fun k => existsb (fun ab => negb (text_eqb (out (dms_loop dms_default br 0 0 [branch_default] (fst ab ++ [k] ++ snd ab))) (out (dms_loop dms_default br 0 0 [branch_default] (fst ab ++ snd ab))))) contexts)
   (0 :: dms_known ++ others) = true ->
  exists a b, In (a, b) contexts /\ out (dms_loop dms_default br 0 0 [branch_default] (a ++ [k] ++ b)) <> out (dms_loop dms_default br 0 0 [branch_default] (a ++ b)).
Proof.
  intros out br contexts k C. destruct (represented k) as (k' & I & A). rewrite forallb_forall in C. specialize (C k' I).
  apply existsb_exists in C as ((a & b) & J & C). exists a, b. split; [exact J|]. intros H. cbn [fst snd] in C.
  assert (Same : forall s, Forall2 (alike dms_known) s s) by (induction s; constructor; [now left|assumption]).
  assert (E : dms_loop dms_default br 0 0 [branch_default] (a ++ [k] ++ b) = dms_loop dms_default br 0 0 [branch_default] (a ++ [k'] ++ b)).
  { apply (alike_loop dms_default dms_known dms_known_all).
    - intros x X. cbn in X. repeat (destruct X as [<-|X]; [apply isin_In; vm_compute; reflexivity|]). destruct X.
    - apply Forall2_app; [apply Same|]. constructor; [exact A|apply Same].
    - now left. }
  rewrite <- E, H in C. rewrite text_eqb_refl in C. discriminate C.
Qed.
Lemma source_app : forall d a b, dms_source real_unicode d (a ++ b) = dms_source real_unicode d a ++ dms_source real_unicode d b.
Proof. intros d a b. unfold dms_source. now rewrite filter_app, map_app. Qed.
Lemma source_char : forall d c, ~ In c white_space -> dms_source real_unicode d [c] = [dms_char real_unicode d c].
Proof.
  intros d c H. unfold dms_source. cbn [filter]. rewrite white_eq. destruct (isin c white_space) eqn:E; [|reflexivity].
  exfalso. now apply H, isin_In.
Qed.
(** A text of small letters is its own source. *)
Definition contexts : list (ustr * ustr) := [($ "a", $ "j"); ($ "t", $ "ch"); ([], $ "b"); ($ "b", []); ($ "a", $ "a"); ($ "ba", $ "ab"); ($ "m", $ "n")].
Lemma contexts_source : forall a b, In (a, b) contexts -> dms_source real_unicode dms_default a = a /\ dms_source real_unicode dms_default b = b.
Proof. intros a b H. cbn in H. repeat (destruct H as [H|H]; [injection H as <- <-; split; vm_compute; reflexivity|]). destruct H. Qed.
Definition all_codes (r : res (list Branch)) : res ustr := l <- (branches <- r ;; Ok (map br_finish branches)) ;; Ok (join $ "|" l).
Definition first_code (r : res (list Branch)) : res ustr := l <- (branches <- r ;; Ok (map br_finish branches)) ;; Ok (match l with x :: _ => x | [] => [] end).

(** C96, Daitch-Mokotoff: exactly the white space may be left out anywhere, with any rules. *)
Theorem C96_daitch_mokotoff_rules : forall d c, In c white_space ->
  may_be_left_out (dms_soundex real_unicode d) any_text any_text c /\ may_be_left_out (dms_encode real_unicode d) any_text any_text c.
Proof. intros d c H. apply white_iff in H. split; intros a b _ _; apply C38_whitespace, filter_without; now rewrite H. Qed.
Theorem C96_daitch_mokotoff : forall c,
  (may_be_left_out (dms_soundex real_unicode dms_default) any_text any_text c <-> In c white_space)
  /\ (may_be_left_out (dms_encode real_unicode dms_default) any_text any_text c <-> In c white_space).
Proof.
  intros c. split; (split; [|intros H; now apply C96_daitch_mokotoff_rules]); intros K; destruct (isin c white_space) eqn:E; try (now apply isin_In); exfalso;
    assert (W : ~ In c white_space) by (intros H; apply isin_In in H; congruence).
  - destruct (needed_between all_codes true contexts (dms_char real_unicode dms_default c)) as (a & b & J & D); [vm_compute; reflexivity|].
    destruct (contexts_source a b J) as [Sa Sb]. apply D. specialize (K a b I I). change (a ++ c :: b) with (a ++ [c] ++ b) in K.
    unfold dms_soundex, inner_soundex in K. rewrite !source_app, Sa, Sb, (source_char _ _ W) in K. exact K.
  - destruct (needed_between first_code false contexts (dms_char real_unicode dms_default c)) as (a & b & J & D); [vm_compute; reflexivity|].
    destruct (contexts_source a b J) as [Sa Sb]. apply D. specialize (K a b I I). change (a ++ c :: b) with (a ++ [c] ++ b) in K.
    unfold dms_encode, inner_soundex in K. rewrite !source_app, Sa, Sb, (source_char _ _ W) in K. exact K.
Qed.

(** ** The encoders that keep letters only *)
Lemma white_not_letter : forall c, In c white_space -> is_alphabetic real_unicode c = false.
Proof. intros c H. unfold white_space in H. cbn [In] in H. repeat (destruct H as [<-|H]; [vm_compute; reflexivity|]). destruct H. Qed.
Theorem C96_letters_only : forall sx table strict max c, In c white_space ->
  may_be_left_out (soundex_encode real_unicode sx) any_text any_text c /\ may_be_left_out (refined_encode real_unicode table) any_text any_text c
  /\ may_be_left_out (nysiis_encode real_unicode strict) any_text any_text c /\ may_be_left_out (phonex_encode real_unicode max) any_text any_text c.
Proof.
  intros sx table strict max c H. apply white_not_letter in H.
  split; [|split; [|split]]; intros a b _ _.
  - apply C08_soundex_ignores_case_and_nonletters. now rewrite filter_without.
  - apply C08_refined_ignores_case_and_nonletters. now rewrite filter_without.
  - apply C20_ignores_case_and_nonletters. now rewrite filter_without.
  - apply C22_phonex_ignores_case_and_nonletters. now rewrite filter_without.
Qed.
Theorem C96_caverphone : forall c, In c white_space ->
  may_be_left_out (caverphone1_encode real_unicode) any_text without_sigma c /\ may_be_left_out (caverphone2_encode real_unicode) any_text without_sigma c.
Proof.
  intros c H.
  assert (K : forall a b, without_sigma (a ++ b) -> caverphone1_encode real_unicode (a ++ c :: b) = caverphone1_encode real_unicode (a ++ b)
    /\ caverphone2_encode real_unicode (a ++ c :: b) = caverphone2_encode real_unicode (a ++ b)).
  { intros a b T. apply C17_caverphone_insert_nonletter.
    - intros I. apply in_app_or in I as [I|[I|I]].
      + apply T, in_or_app. now left.
      + subst c. apply isin_In in H. discriminate H.
      + apply T, in_or_app. now right.
    - clear T. intros x Hx. unfold white_space in H. cbn [In] in H.
      repeat (destruct H as [<-|H]; [vm_compute in Hx; destruct Hx as [<-|[]]; vm_compute; reflexivity|]). destruct H. }
  split; intros a b _ T; now apply K.
Qed.

(** ** Match Rating Approach and Double Metaphone *)
Lemma white_upper : forall c, In c white_space -> to_upper real_unicode c = [c] /\ to_lower real_unicode c = [c] /\ c <> 931 /\ c <> 45
  /\ case_ignorable real_unicode c = false /\ cased real_unicode c = false.
Proof. intros c H. unfold white_space in H. cbn [In] in H. repeat (destruct H as [<-|H]; [vm_compute; repeat split; discriminate|]). destruct H. Qed.
Definition white (c : N) : bool := isin c white_space.
Theorem C96_match_rating : forall c, In c white_space -> may_be_left_out (mra_encode real_unicode) any_text (several white) c.
Proof.
  intros c H a b _ S.
  assert (SW : forall s, several white s -> several (is_whitespace real_unicode) s).
  { intros s K. unfold several in *. rewrite (filter_ext _ (fun x => negb (white x))); [exact K|]. intros x. now rewrite white_eq. }
  assert (S2 : several white (a ++ c :: b)).
  { unfold several in *. rewrite filter_app, app_length in *. cbn [filter] in *. destruct (negb (white c)); cbn [length] in *; lia. }
  rewrite !mra_several by now apply SW. change (a ++ c :: b) with (a ++ [c] ++ b). rewrite !clean_name_app.
  replace (clean_name real_unicode [c]) with (@nil N); [reflexivity|].
  unfold white_space in H. cbn [In] in H. repeat (destruct H as [<-|H]; [vm_compute; reflexivity|]). destruct H.
Qed.
(** White space before and after a text. *)
Theorem C96_double_metaphone : forall max w s w', (forall c, In c (w ++ w') -> In c white_space) ->
  double_metaphone real_unicode max (w ++ s ++ w') = double_metaphone real_unicode max s.
Proof. intros max w s w' H. apply C28_surrounding_whitespace. intros c Hc. now apply white_iff, H. Qed.

(** ** Beider-Morse: which white space separates the words does not matter *)
Lemma citc_white : forall p q c c', In c white_space -> In c' white_space ->
  case_ignorable_then_cased real_unicode (p ++ c :: q) = case_ignorable_then_cased real_unicode (p ++ c' :: q).
Proof.
  intros p q c c' H H'. apply white_upper in H as (_ & _ & _ & _ & I & K). apply white_upper in H' as (_ & _ & _ & _ & I' & K').
  induction p as [|x p IH]; cbn [app case_ignorable_then_cased].
  - now rewrite I, I', K, K'.
  - now rewrite IH.
Qed.
Lemma lower_after : forall s p q c c', In c white_space -> In c' white_space ->
  str_lower_aux real_unicode (p ++ c :: q) s = str_lower_aux real_unicode (p ++ c' :: q) s.
Proof.
  induction s as [|x s IH]; intros p q c c' H H'; [reflexivity|]. cbn [str_lower_aux]. rewrite (citc_white p q c c' H H').
  change (x :: p ++ c :: q) with ((x :: p) ++ c :: q). change (x :: p ++ c' :: q) with ((x :: p) ++ c' :: q). now rewrite (IH (x :: p) q c c' H H').
Qed.
Lemma lower_around : forall a q b c c', In c white_space -> In c' white_space -> exists a' b',
  str_lower_aux real_unicode q (a ++ c :: b) = a' ++ c :: b' /\ str_lower_aux real_unicode q (a ++ c' :: b) = a' ++ c' :: b'.
Proof.
  induction a as [|x a IH]; intros q b c c' H H'.
  - exists [], (str_lower_aux real_unicode (c :: q) b). cbn [app str_lower_aux].
    destruct (white_upper c H) as (_ & L & N1 & _). destruct (white_upper c' H') as (_ & L' & N1' & _).
    rewrite (proj2 (N.eqb_neq c 931) N1), (proj2 (N.eqb_neq c' 931) N1'), L, L'. split; [reflexivity|].
    cbn [app]. f_equal. exact (lower_after b [] q c' c H' H).
  - destruct (IH (x :: q) b c c' H H') as (a' & b' & E & E'). cbn [app str_lower_aux]. rewrite (citc_white a b c c' H H'), E, E'.
    set (h := if x =? 931 then _ else _). exists (h ++ a'), b'. rewrite <- !app_assoc. split; reflexivity.
Qed.
Lemma split_around : forall u a b c c' cur, is_whitespace u c = true -> is_whitespace u c' = true ->
  split_ws_aux u cur (a ++ c :: b) = split_ws_aux u cur (a ++ c' :: b).
Proof.
  intros u. induction a as [|x a IH]; intros b c c' cur H H'; cbn [app split_ws_aux]; [now rewrite H, H'|].
  destruct (is_whitespace u x); [destruct cur; now rewrite (IH b c c')|now apply IH].
Qed.
Theorem C96_beider_morse : forall rx e a b c c' languages, In c white_space -> In c' white_space ->
  (forall d r, ~ prefixed (pe_name_type e) (looked_at real_unicode (a ++ c :: b)) d r) ->
  (forall d r, ~ prefixed (pe_name_type e) (looked_at real_unicode (a ++ c' :: b)) d r) ->
  bm_encode_with_languages real_unicode rx e (a ++ c :: b) languages = bm_encode_with_languages real_unicode rx e (a ++ c' :: b) languages.
Proof.
  intros rx e a b c c' languages H H' P P'. destruct (words_of_exists real_unicode (looked_at real_unicode (a ++ c :: b))) as [ws W].
  apply C64_spacing with ws; [exact real_lower_ok|exact P|exact P'|exact W|].
  apply words_of_split in W. subst ws.
  replace (split_whitespace real_unicode (looked_at real_unicode (a ++ c :: b))) with (split_whitespace real_unicode (looked_at real_unicode (a ++ c' :: b))); [apply split_words_of|].
  unfold looked_at, str_lower. destruct (lower_around a [] b c c' H H') as (a' & b' & E & E'). rewrite E, E', !map_app. cbn [map].
  rewrite (proj2 (N.eqb_neq c (# "-"))) by (destruct (white_upper c H) as (_ & _ & _ & N1 & _); exact N1).
  rewrite (proj2 (N.eqb_neq c' (# "-"))) by (destruct (white_upper c' H') as (_ & _ & _ & N1 & _); exact N1).
  apply split_around; now apply white_iff.
Qed.
(** An Ashkenazi or Sephardic name has no prefix to lose. *)
Corollary C96_beider_morse_unprefixed : forall rx e a b c c' languages, pe_name_type e <> Generic -> In c white_space -> In c' white_space ->
  bm_encode_with_languages real_unicode rx e (a ++ c :: b) languages = bm_encode_with_languages real_unicode rx e (a ++ c' :: b) languages.
Proof.
  intros rx e a b c c' languages G H H'. apply C96_beider_morse; try assumption; intros d r P; inversion P; congruence.
Qed.

Lemma white_char : forall c, isin c white_space = true -> In c white_space.
Proof. intros c. apply isin_In. Qed.
Theorem C96_nonvacuous :
  In 160 white_space /\ In 8239 white_space /\ ~ In 8203 white_space /\ without_sigma ($ "Mac" ++ $ "Leod") /\ several white ($ "Mac" ++ $ "Leod")
  /\ dms_soundex real_unicode dms_default ($ "Mosko" ++ 160 :: $ "witz") = dms_soundex real_unicode dms_default $ "Moskowitz"
  /\ dms_soundex real_unicode dms_default ($ "a" ++ 8203 :: $ "j") <> dms_soundex real_unicode dms_default $ "aj"
  /\ caverphone2_encode real_unicode ($ "Mac" ++ 12288 :: $ "Leod") = caverphone2_encode real_unicode $ "MacLeod"
  /\ mra_encode real_unicode ($ "Mac" ++ 8195 :: $ "Leod") = mra_encode real_unicode $ "MacLeod"
  /\ double_metaphone real_unicode (Some 4%nat) ([5760; 133] ++ $ "Smith" ++ [8287]) = double_metaphone real_unicode (Some 4%nat) $ "Smith"
  /\ demo_code (demo Ashkenazi true 3) ($ "aa" ++ 160 :: $ "b") = Ok $ "rx_b|sx_b|xr_b|xs_b|xx_b" /\ pe_name_type (demo Ashkenazi true 3) <> Generic.
Proof.
  split; [now apply white_char|]. split; [now apply white_char|]. split; [intros H; apply isin_In in H; discriminate H|].
  split; [intros H; vm_compute in H; intuition discriminate|]. split; [apply Nat.leb_le; vm_compute; reflexivity|].
  split; [vm_compute; reflexivity|]. split; [vm_compute; discriminate|]. do 4 (split; [vm_compute; reflexivity|]). discriminate.
Qed.
