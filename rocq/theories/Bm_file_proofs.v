(** * Proofs about the Beider-Morse files. *)
From Verif Require Import Base UnicodeM Lib Helper RulesParser DaitchMokotoff BmLanguages BmRegex BmRule BmEngine
  BaseLemmas Spec_common Spec_rules Spec_dm_file Spec_bm Spec_bm_file
  Rules_proofs Dm_proofs Dm_build_proofs Bm_set_proofs.
Local Open Scope N_scope.

(** ** Reading *)
Section Reading.
Context {item : Type}.
Variable line : ustr -> item -> ustr -> Prop.
Variable next : ustr -> option (item * ustr).
Hypothesis next_spec : forall s i r, s <> [] -> (next s = Some (i, r) <-> line s i r).
Hypothesis progress : forall s i r, s <> [] -> line s i r -> (length r < length s)%nat.

Lemma reading_exists_aux : forall n s, (length s <= n)%nat -> exists items rem, reading line s items rem.
Proof.
  induction n as [|n IH]; intros s L.
  - destruct s; [|cbn in L; lia]. exists [], []. constructor.
  - destruct s as [|x s]; [exists [], []; constructor|].
    destruct (next (x :: s)) as [[i r]|] eqn:E.
    + apply next_spec in E; [|discriminate]. assert (P : (length r < length (x :: s))%nat) by (eapply progress; [discriminate|exact E]).
      destruct (IH r ltac:(cbn [length] in *; lia)) as (items & rem & H). exists ((i, r) :: items), rem. constructor; [discriminate|assumption|assumption].
    + exists [], (x :: s). constructor; [discriminate|]. intros i r H. apply next_spec in H; [|discriminate]. congruence.
Qed.
Lemma reading_exists_ : forall s, exists items rem, reading line s items rem.
Proof. intros s. apply (reading_exists_aux (length s)). lia. Qed.
Lemma reading_unique_ : forall s items rem, reading line s items rem -> forall items' rem', reading line s items' rem' ->
  items = items' /\ rem = rem'.
Proof.
  intros s items rem H. induction H as [|s N S|s i r items rem N L H IH]; intros items' rem' H'.
  - inversion H' as [|? N S|? i r ? ? N L H2]; subst; [auto|auto|congruence].
  - inversion H' as [|? N' S'|? i r ? ? N' L H2]; subst; [congruence|auto|]. now elim (S i r).
  - inversion H' as [|? N' S'|? i' r' ? ? N' L' H2]; subst.
    + congruence.
    + now elim (S' i r).
    + apply next_spec in L, L'; try assumption. rewrite L in L'. injection L' as <- <-.
      destruct (IH _ _ H2) as [-> ->]. auto.
Qed.
End Reading.

Ltac shorter H := destruct H as (?c & -> & ?K); rewrite app_length;
  match goal with |- context [length ?c] => destruct c; [congruence|]; cbn [length]; lia end.

(** ** Heads of lines *)
Lemma no_include : forall u s, include u s = None <-> forall n r, ~ include_line (file_name_char (is_alphanumeric u)) s n r.
Proof.
  intros u s. split.
  - intros H n r K. apply include_spec in K. congruence.
  - intros H. destruct (include u s) as [[n r]|] eqn:E; [|reflexivity]. apply include_spec in E. now elim (H n r).
Qed.
Lemma no_language : forall s, language s = None <-> forall n r, ~ language_line s n r.
Proof.
  intros s. split.
  - intros H n r K. apply language_spec in K. congruence.
  - intros H. destruct (language s) as [[n r]|] eqn:E; [|reflexivity]. apply language_spec in E. now elim (H n r).
Qed.
Lemma no_lang : forall s, lang s = None <-> forall n r, ~ lang_line s n r.
Proof.
  intros s. split.
  - intros H n r K. apply lang_spec in K. congruence.
  - intros H. destruct (lang s) as [[n r]|] eqn:E; [|reflexivity]. apply lang_spec in E. now elim (H n r).
Qed.
Lemma quad_head : forall s q r, quad_line s q r -> exists t, s = QUOTE :: t.
Proof. intros s q r H. destruct H. unfold quoted. cbn [app]. eauto. Qed.
Lemma comment_head : forall s n r, comment_line s n r -> exists t, s = $ "/*" ++ t.
Proof. intros s n r H. destruct H. eauto. Qed.
Lemma include_head : forall f s n r, include_line f s n r -> exists t, s = # "#" :: t.
Proof. intros f s n r H. destruct H. cbn [app]. eauto. Qed.
Lemma language_head : forall s n r, language_line s n r -> exists c t, s = c :: t /\ is_ascii_alpha c = true.
Proof. intros s n r H. destruct H as [[|c n] e r N A E]; [congruence|]. cbn [app]. exists c, (n ++ e). split; [reflexivity|]. apply A. now left. Qed.
Lemma line_end_no_comment : forall t r, ~ line_end ($ "/*" ++ t) r.
Proof.
  intros t r H. inversion H as [b c rest B C E|b rest B E|b c B C E]; subst; clear H.
  - destruct b as [|x b].
    + destruct C; cbn in E; discriminate.
    + cbn in E. injection E as -> E. destruct (B (# "/") (or_introl eq_refl)); discriminate.
  - destruct b as [|x b]; [discriminate|].
    cbn in E. injection E as -> E. destruct (B (# "/") (or_introl eq_refl)); discriminate.
  - destruct b as [|x b].
    + destruct C; cbn in E; discriminate.
    + cbn in E. injection E as -> E. destruct (B (# "/") (or_introl eq_refl)); discriminate.
Qed.

(** ** Declared languages *)
Definition list_next (s : ustr) : option (list_item * ustr) :=
  match end_of_line s with
  | Some (_, rm) => Some (LiBlank, rm)
  | None =>
  match multiline_comment s with
  | Some (n, rm) => Some (LiComment n, rm)
  | None =>
  match language s with
  | Some (l, rm) => Some (LiName l, rm)
  | None => None
  end end end.
Lemma list_next_spec : forall s i r, s <> [] -> (list_next s = Some (i, r) <-> list_line s i r).
Proof.
  intros s i r N. unfold list_next. split.
  - intros H. destruct (end_of_line s) as [[v rm]|] eqn:E3.
    { injection H as <- <-. constructor. apply end_of_line_spec. eauto. }
    destruct (multiline_comment s) as [[n rm]|] eqn:E4.
    { injection H as <- <-. constructor. now apply multiline_comment_spec. }
    destruct (language s) as [[n rm]|] eqn:E5; [|discriminate].
    injection H as <- <-. constructor. now apply language_spec.
  - intros H. destruct H as [s r H|s n r H|s l r H].
    + apply end_of_line_spec in H as [v H]. now rewrite H.
    + destruct (comment_head _ _ _ H) as [t T]. apply multiline_comment_spec in H. rewrite H.
      destruct (end_of_line s) as [[v rm]|] eqn:E; [|reflexivity].
      elim (line_end_no_comment t rm). rewrite <- T. apply end_of_line_spec. eauto.
    + destruct (language_head _ _ _ H) as (c & t & T & A). apply language_spec in H. rewrite H.
      destruct (end_of_line s) as [[v rm]|] eqn:E.
      { assert (K : line_end s rm) by (apply end_of_line_spec; eauto). rewrite T in K.
        apply line_end_head in K as [->|[->|[->|[->| ->]]]]; discriminate. }
      destruct (multiline_comment s) as [[n rm]|] eqn:E2; [|reflexivity].
      apply multiline_comment_spec, comment_head in E2 as [t' E2]. rewrite E2 in T. injection T as <- <-. discriminate.
Qed.
Lemma list_progress : forall s i r, s <> [] -> list_line s i r -> (length r < length s)%nat.
Proof.
  intros s i r N H.
  assert (P : exists c, s = c ++ r /\ c <> []).
  { destruct H as [s r H|s n r H|s l r H]; [now apply end_progress|eapply comment_progress; exact H|eapply language_progress; exact H]. }
  destruct P as (c & -> & K). rewrite app_length. destruct c; [congruence|]. cbn [length]. lia.
Qed.
Definition list_reading_exists := reading_exists_ list_line list_next list_next_spec list_progress.
Definition list_reading_unique := reading_unique_ list_line list_next list_next_spec.

Lemma mlc_positive : forall s n r, multiline_comment s = Some (n, r) -> (1 <= n)%nat.
Proof. intros s n r H. apply multiline_comment_spec in H. destruct H. lia. Qed.

Lemma parse_liste_next : forall fuel acc line s, s <> [] ->
  parse_liste (S fuel) acc line s =
  match list_next s with
  | Some (LiBlank, rm) => parse_liste fuel acc (line + 1) rm
  | Some (LiComment n, rm) => parse_liste fuel acc (line + n) rm
  | Some (LiName l, rm) => parse_liste fuel (sset_insert l acc) (line + 1) rm
  | None => Ok (RErr (ParseRuleError (build_error (line + 1) None s $ "Can't parse line for languages")))
  end.
Proof.
  intros fuel acc line s N. destruct s as [|x s]; [congruence|]. cbn [parse_liste]. unfold list_next.
  rewrite (Nat.add_1_r line).
  destruct (end_of_line (x :: s)) as [[v rm]|]; [reflexivity|].
  destruct (multiline_comment (x :: s)) as [[n rm]|] eqn:E; [apply mlc_positive in E; f_equal; lia|].
  destruct (language (x :: s)) as [[n rm]|]; reflexivity.
Qed.
Lemma list_line_count : forall (i : list_item) (r : ustr) items,
  list_sum (map (fun x => list_lines (fst x)) ((i, r) :: items)) = (list_lines i + list_sum (map (fun x => list_lines (fst x)) items))%nat.
Proof. reflexivity. Qed.
Lemma parse_liste_spec : forall s items rem, reading list_line s items rem ->
  forall fuel acc line, (length s <= fuel)%nat -> increasing acc ->
  (rem = [] /\ exists set, parse_liste fuel acc line s = Ok (ROk set) /\ increasing set
     /\ forall l, In l set <-> In l acc \/ declared items l)
  \/ (rem <> [] /\ parse_liste fuel acc line s =
       Ok (RErr (ParseRuleError (build_error (line + list_sum (map (fun x => list_lines (fst x)) items) + 1) None rem
                                             $ "Can't parse line for languages")))).
Proof.
  intros s items rem H. induction H as [|s N S|s i r items rem N L H IH]; intros fuel acc line F A.
  - left. split; [reflexivity|]. exists acc. split; [destruct fuel; reflexivity|]. split; [assumption|].
    intros l. split; [auto|]. intros [K|(r & [])]; assumption.
  - right. split; [assumption|]. destruct fuel as [|fuel]; [destruct s; [congruence|cbn in F; lia]|].
    rewrite parse_liste_next by assumption. destruct (list_next s) as [[i r]|] eqn:E.
    + apply list_next_spec in E; [|assumption]. now elim (S i r).
    + do 4 f_equal. cbn. lia.
  - pose proof (list_progress _ _ _ N L) as P. destruct fuel as [|fuel]; [lia|]. rewrite parse_liste_next by assumption.
    apply list_next_spec in L; [|assumption]. rewrite L, list_line_count.
    assert (D : forall l, declared ((i, r) :: items) l <-> i = LiName l \/ declared items l).
    { intros l. unfold declared. cbn [In]. split.
      - intros (x & [K|K]); [injection K as -> _; auto|right; eauto].
      - intros [->|(x & K)]; eauto. }
    destruct i as [|n|l]; cbn [list_lines].
    + destruct (IH fuel acc (line + 1)%nat ltac:(lia) A) as [(R & set & E & I & M)|(R & E)]; [left|right]; (split; [assumption|]).
      * exists set. split; [assumption|]. split; [assumption|]. intros l. rewrite M, D. intuition congruence.
      * rewrite E. do 4 f_equal. lia.
    + destruct (IH fuel acc (line + n)%nat ltac:(lia) A) as [(R & set & E & I & M)|(R & E)]; [left|right]; (split; [assumption|]).
      * exists set. split; [assumption|]. split; [assumption|]. intros l. rewrite M, D. intuition congruence.
      * rewrite E. do 4 f_equal. lia.
    + destruct (IH fuel (sset_insert l acc) (line + 1)%nat ltac:(lia) (sset_insert_increasing _ _ A)) as [(R & set & E & I & M)|(R & E)]; [left|right]; (split; [assumption|]).
      * exists set. split; [assumption|]. split; [assumption|]. intros l'. rewrite M, D, sset_insert_In. intuition congruence.
      * rewrite E. do 4 f_equal. lia.
Qed.

(** ** Language rules *)
Definition lang_next (s : ustr) : option (lang_item * ustr) :=
  match end_of_line s with
  | Some (_, rm) => Some (LgBlank, rm)
  | None =>
  match multiline_comment s with
  | Some (n, rm) => Some (LgComment n, rm)
  | None =>
  match lang s with
  | Some ((p, l, v), rm) => Some (LgRule p l v, rm)
  | None => None
  end end end.
Lemma lang_next_spec : forall s i r, s <> [] -> (lang_next s = Some (i, r) <-> lang_file_line s i r).
Proof.
  intros s i r N. unfold lang_next. split.
  - intros H. destruct (end_of_line s) as [[v rm]|] eqn:E3.
    { injection H as <- <-. constructor. apply end_of_line_spec. eauto. }
    pose proof (proj1 (no_end s) E3) as K3. destruct (multiline_comment s) as [[n rm]|] eqn:E4.
    { injection H as <- <-. constructor; [assumption|]. now apply multiline_comment_spec. }
    pose proof (proj1 (no_mlc s) E4) as K4. destruct (lang s) as [[[[p l] v] rm]|] eqn:E5; [|discriminate].
    injection H as <- <-. constructor; try assumption. now apply lang_spec.
  - intros H. destruct H as [s r H|s n r H1 H|s a b v r H1 H2 H].
    + apply end_of_line_spec in H as [v H]. now rewrite H.
    + apply no_end in H1. apply multiline_comment_spec in H. now rewrite H1, H.
    + apply no_end in H1. apply no_mlc in H2. apply lang_spec in H. now rewrite H1, H2, H.
Qed.
Lemma lang_file_progress : forall s i r, s <> [] -> lang_file_line s i r -> (length r < length s)%nat.
Proof.
  intros s i r N H.
  assert (P : exists c, s = c ++ r /\ c <> []).
  { destruct H as [s r H|s n r H1 H|s a b v r H1 H2 H]; [now apply end_progress|eapply comment_progress; exact H|eapply lang_progress; exact H]. }
  destruct P as (c & -> & K). rewrite app_length. destruct c; [congruence|]. cbn [length]. lia.
Qed.
Definition lang_reading_exists := reading_exists_ lang_file_line lang_next lang_next_spec lang_file_progress.
Definition lang_reading_unique := reading_unique_ lang_file_line lang_next lang_next_spec.

Lemma split_separated : forall sep s l, split_on sep s = l <-> separated sep s l.
Proof.
  intros sep s l. split.
  - revert l. induction s as [|c s IH]; intros l H.
    + cbn in H. subst l. constructor. intros [].
    + cbn [split_on] in H. destruct (c =? sep) eqn:E.
      * apply N.eqb_eq in E. subst l. subst c. apply (separated_more _ []); [intros []|]. now apply IH.
      * assert (NE : c <> sep) by now apply N.eqb_neq.
        destruct (split_on sep s) as [|p ps] eqn:S; [now apply split_on_nonempty in S|].
        subst l. specialize (IH _ eq_refl). inversion IH as [? N|a t ? N A]; subst.
        -- constructor. intros [K|K]; [congruence|contradiction].
        -- change (c :: p ++ sep :: t) with ((c :: p) ++ sep :: t). constructor; [|assumption].
           intros [K|K]; [congruence|contradiction].
  - intros H. induction H as [s N|s t l N A IH].
    + now apply split_on_nosep.
    + rewrite split_on_app by assumption. now rewrite IH.
Qed.
Lemma separated_unique : forall sep s a b, separated sep s a -> separated sep s b -> a = b.
Proof. intros sep s a b H1 H2. apply split_separated in H1, H2. congruence. Qed.

Section Rx.
Variable u : Unicode.
Variable rx : RegexEngine.

Lemma parse_lang_next : forall filename languages fuel rules line s, s <> [] ->
  parse_lang rx filename languages (S fuel) rules line s =
  match lang_next s with
  | Some (LgBlank, rm) => parse_lang rx filename languages fuel rules (line + 1) rm
  | Some (LgComment n, rm) => parse_lang rx filename languages fuel rules (line + n) rm
  | Some (LgRule p l v, rm) =>
      if rx_valid rx p then
        parse_lang rx filename languages fuel
          (rules ++ [{| lr_line_number := line + 1; lr_accept_on_match := v;
                        lr_languages := sset_of_list (split_on (# "+") l); lr_pattern := p |}]) (line + 1) rm
      else Ok (RErr (ParseRuleError (build_error (line + 1) filename rm (rx_error rx p))))
  | None => Ok (RErr (ParseRuleError (build_error (line + 1) None s $ "Can't parse line for language detection")))
  end.
Proof.
  intros filename languages fuel rules line s N. destruct s as [|x s]; [congruence|]. cbn [parse_lang]. unfold lang_next.
  rewrite (Nat.add_1_r line).
  destruct (end_of_line (x :: s)) as [[v rm]|]; [reflexivity|].
  destruct (multiline_comment (x :: s)) as [[n rm]|] eqn:E; [apply mlc_positive in E; f_equal; lia|].
  destruct (lang (x :: s)) as [[[[p l] v] rm]|]; reflexivity.
Qed.
Lemma parse_lang_spec : forall s items rem, reading lang_file_line s items rem ->
  forall filename languages fuel rules line, (length s <= fuel)%nat ->
  exists o, lang_outcome rx filename (line + 1) items rem o /\
    parse_lang rx filename languages fuel rules line s =
    Ok (match o with ROk l => ROk {| lang_languages := languages; lang_rules := rules ++ l |} | RErr e => RErr e end).
Proof.
  intros s items rem H filename languages. induction H as [|s N S|s i r items rem N L H IH]; intros fuel rules line F.
  - exists (ROk []). split; [constructor|]. rewrite app_nil_r. destruct fuel; reflexivity.
  - destruct fuel as [|fuel]; [destruct s; [congruence|cbn in F; lia]|].
    rewrite parse_lang_next by assumption. destruct (lang_next s) as [[i r]|] eqn:E.
    + apply lang_next_spec in E; [|assumption]. now elim (S i r).
    + exists (RErr (ParseRuleError (build_error (line + 1) None s $ "Can't parse line for language detection"))). split; [now constructor|reflexivity].
  - pose proof (lang_file_progress _ _ _ N L) as P. destruct fuel as [|fuel]; [lia|]. rewrite parse_lang_next by assumption.
    apply lang_next_spec in L; [|assumption]. rewrite L. destruct i as [|n|p l v].
    + destruct (IH fuel rules (line + 1)%nat ltac:(lia)) as (o & O & E). exists o. split; [now constructor|assumption].
    + destruct (IH fuel rules (line + n)%nat ltac:(lia)) as (o & O & E). exists o. split; [|assumption]. constructor.
      replace (line + 1 + n)%nat with (line + n + 1)%nat by lia. assumption.
    + destruct (rx_valid rx p) eqn:V.
      * destruct (IH fuel (rules ++ [{| lr_line_number := line + 1; lr_accept_on_match := v;
                        lr_languages := sset_of_list (split_on (# "+") l); lr_pattern := p |}]) (line + 1)%nat ltac:(lia)) as (o & O & E).
        rewrite E. destruct o as [rs|e].
        -- eexists. split.
           ++ eapply lo_rule; [assumption|now apply split_separated|apply sset_of_list_increasing|apply sset_of_list_In|exact O].
           ++ rewrite <- app_assoc. reflexivity.
        -- exists (RErr e). split; [|reflexivity]. now apply lo_rule_then_error.
      * exists (RErr (ParseRuleError (build_error (line + 1) filename r (rx_error rx p)))). split; [now constructor|reflexivity].
Qed.
Lemma lang_outcome_unique : forall filename n items rem o, lang_outcome rx filename n items rem o ->
  forall o', lang_outcome rx filename n items rem o' -> o = o'.
Proof.
  intros filename n items rem o H. induction H as [n|n rem N|n r items rem o H IH|n k r items rem o H IH
    |n p l v ls set r items rem rules V S I M H IH|n p l v r items rem e V H IH|n p l v r items rem V]; intros o' H'.
  - inversion H'; subst; congruence.
  - inversion H'; subst; congruence.
  - inversion H'; subst; auto.
  - inversion H'; subst; auto.
  - inversion H' as [| | | |? ? ? ? ls' set' ? ? ? rules' V' S' I' M' H2|? ? ? ? ? ? ? e' V' H2|]; subst.
    + apply IH in H2. injection H2 as <-. assert (ls' = ls) by (eapply separated_unique; eassumption). subst ls'.
      assert (set' = set) by (apply increasing_ext; try assumption; intros x; now rewrite M, M'). now subst set'.
    + apply IH in H2. discriminate.
    + congruence.
  - inversion H' as [| | | |? ? ? ? ls' set' ? ? ? rules' V' S' I' M' H2|? ? ? ? ? ? ? e' V' H2|]; subst.
    + apply IH in H2. discriminate.
    + now apply IH.
    + congruence.
  - inversion H'; subst; congruence.
Qed.

(** ** Phoneme expressions *)
Lemma ends_with_char_spec : forall s c, ends_with_char s c = true <-> exists r, s = r ++ [c].
Proof.
  intros s c. unfold ends_with_char. split.
  - destruct (rev s) as [|x r] eqn:E; [discriminate|]. intros H. apply N.eqb_eq in H. subst x.
    exists (rev r). rewrite <- (rev_involutive s), E. reflexivity.
  - intros [r ->]. rewrite rev_app_distr. cbn. apply N.eqb_refl.
Qed.
Lemma ends_with_char_false : forall s c, ends_with_char s c = false <-> forall r, s <> r ++ [c].
Proof.
  intros s c. split.
  - intros H r E. assert (K : ends_with_char s c = true) by (apply ends_with_char_spec; eauto). congruence.
  - intros H. destruct (ends_with_char s c) eqn:E; [|reflexivity]. apply ends_with_char_spec in E as [r E]. now elim (H r).
Qed.
Lemma starts_with_char_spec : forall s c, starts_with_char s c = true <-> exists r, s = c :: r.
Proof.
  intros [|x s] c; cbn.
  - split; [discriminate|intros [r H]; discriminate].
  - rewrite N.eqb_eq. split; [intros ->; eauto|intros [r H]; congruence].
Qed.
Lemma starts_with_char_false : forall s c, starts_with_char s c = false <-> forall r, s <> c :: r.
Proof.
  intros s c. split.
  - intros H r E. assert (K : starts_with_char s c = true) by (apply starts_with_char_spec; eauto). congruence.
  - intros H. destruct (starts_with_char s c) eqn:E; [|reflexivity]. apply starts_with_char_spec in E as [r E]. now elim (H r).
Qed.
Lemma drop_last_snoc : forall s x, drop_last (s ++ [x]) = s.
Proof. intros. unfold drop_last. now rewrite removelast_last. Qed.

Lemma split_bracket_some : forall p a b, split_bracket p = Some (a, b) <-> p = a ++ # "[" :: b /\ ~ In (# "[") a.
Proof.
  induction p as [|c p IH]; intros a b; cbn [split_bracket].
  - split; [discriminate|]. intros [H _]. destruct a; discriminate.
  - destruct (c =? # "[") eqn:E.
    + apply N.eqb_eq in E. subst c. split.
      * intros H. injection H as <- <-. split; [reflexivity|intros []].
      * intros [H K]. destruct a as [|x a]; [cbn in H; now injection H as <-|]. cbn in H. injection H as <- _. elim K. now left.
    + apply N.eqb_neq in E. destruct (split_bracket p) as [[a' b']|] eqn:S.
      * destruct (proj1 (IH a' b') eq_refl) as [-> K]. split.
        -- intros H. injection H as <- <-. split; [reflexivity|]. intros [H|H]; [congruence|contradiction].
        -- intros [H1 H2]. destruct a as [|x a]; cbn in H1; injection H1 as -> H1; [congruence|].
           assert (Q : Some (a', b') = Some (a, b)) by (apply IH; split; [assumption|]; intros H; apply H2; now right).
           injection Q as <- <-. reflexivity.
      * split; [discriminate|]. intros [H1 H2]. destruct a as [|x a]; cbn in H1; injection H1 as -> H1; [congruence|].
        assert (Q : None = Some (a, b)) by (apply IH; split; [assumption|]; intros H; apply H2; now right). discriminate.
Qed.
Lemma split_bracket_none : forall p, split_bracket p = None <-> ~ In (# "[") p.
Proof.
  intros p. split.
  - intros H K. apply in_split in K as (a & b & ->).
    assert (G : forall a, exists x, split_bracket (a ++ # "[" :: b) = Some x).
    { clear. induction a as [|c a [[y z] IH]]; cbn [app split_bracket]; [cbn; eauto|]. destruct (c =? _); [eauto|]. rewrite IH. eauto. }
    destruct (G a). congruence.
  - intros H. destruct (split_bracket p) as [[a b]|] eqn:E; [|reflexivity]. apply split_bracket_some in E as [-> _].
    elim H. apply in_or_app. right. now left.
Qed.

Theorem parse_phoneme_ok : forall p x, parse_phoneme p = ROk x <-> phoneme_reads p x.
Proof.
  intros p x. unfold parse_phoneme. split.
  - destruct (split_bracket p) as [[a b]|] eqn:E.
    + apply split_bracket_some in E as [-> K]. destruct (ends_with_char _ _) eqn:W; [|discriminate]. cbn [negb].
      intros H. injection H as <-. apply ends_with_char_spec in W as [r W].
      destruct (exists_last (l := # "[" :: b)) as (b' & y & B); [discriminate|].
      rewrite B, app_assoc in W. apply app_inj_tail in W as [W ->].
      destruct b' as [|z b'].
      { exfalso. destruct b; cbn in B; [|destruct b]; congruence. }
      cbn in B. injection B as <- ->. rewrite drop_last_snoc.
      change (# "[" :: b' ++ [# "]"]) with ($ "[" ++ b' ++ $ "]").
      eapply pr_languages; [assumption|now apply split_separated|apply sset_of_list_increasing|apply sset_of_list_In].
    + intros H. injection H as <-. constructor. now apply split_bracket_none.
  - intros H. destruct H as [p N|t l ls set N S I M].
    + apply split_bracket_none in N. now rewrite N.
    + assert (B : split_bracket (t ++ $ "[" ++ l ++ $ "]") = Some (t, l ++ $ "]")) by (apply split_bracket_some; auto).
      rewrite B. replace (ends_with_char (t ++ $ "[" ++ l ++ $ "]") (# "]")) with true.
      2:{ symmetry. apply ends_with_char_spec. exists (t ++ $ "[" ++ l). now rewrite <- !app_assoc. }
      cbn [negb]. rewrite drop_last_snoc. unfold ls_of_vec. do 3 f_equal. apply split_separated in S. rewrite S.
      apply increasing_ext; [apply sset_of_list_increasing|assumption|]. intros x. now rewrite sset_of_list_In, M.
Qed.
Theorem parse_phoneme_err : forall p e, parse_phoneme p = RErr e <-> exists m, e = WrongPhoneme m /\ phoneme_error p m.
Proof.
  intros p e. unfold parse_phoneme. split.
  - destruct (split_bracket p) as [[a b]|] eqn:E; [|discriminate]. destruct (ends_with_char _ _) eqn:W; [discriminate|]. cbn [negb].
    intros H. injection H as <-. eexists. split; [reflexivity|]. constructor.
    + apply split_bracket_some in E as [-> _]. apply in_or_app. right. now left.
    + now apply ends_with_char_false.
  - intros (m & -> & H). destruct H as [p I W]. destruct (split_bracket p) as [[a b]|] eqn:E; [|now apply split_bracket_none in E].
    apply ends_with_char_false in W. now rewrite W.
Qed.
Lemma parse_phonemes_ok : forall l xs, parse_phonemes l = ROk xs <-> Forall2 phoneme_reads l xs.
Proof.
  induction l as [|p l IH]; intros xs; cbn [parse_phonemes].
  - split; [intros H; injection H as <-; constructor|intros H; now inversion H].
  - split.
    + destruct (parse_phoneme p) as [x|e] eqn:E; [|discriminate]. destruct (parse_phonemes l) as [ys|e] eqn:F; [|discriminate].
      intros H. injection H as <-. constructor; [now apply parse_phoneme_ok|now apply IH].
    + intros H. inversion H as [|? y ? ys H1 H2]; subst. apply parse_phoneme_ok in H1. rewrite H1.
      apply IH in H2. now rewrite H2.
Qed.
Lemma parse_phonemes_err : forall l e, parse_phonemes l = RErr e <->
  exists m l1 p l2 ps, e = WrongPhoneme m /\ l = l1 ++ p :: l2 /\ Forall2 phoneme_reads l1 ps /\ phoneme_error p m.
Proof.
  induction l as [|p l IH]; intros e; cbn [parse_phonemes].
  - split; [discriminate|]. intros (m & l1 & p & l2 & ps & _ & H & _). destruct l1; discriminate.
  - split.
    + destruct (parse_phoneme p) as [x|e'] eqn:E.
      * destruct (parse_phonemes l) as [ys|e'] eqn:F; [discriminate|]. intros H. injection H as <-.
        destruct (proj1 (IH e') eq_refl) as (m & l1 & q & l2 & ps & -> & -> & P & Q).
        exists m, (p :: l1), q, l2, (x :: ps). split; [reflexivity|]. split; [reflexivity|]. split; [|assumption].
        constructor; [now apply parse_phoneme_ok|assumption].
      * intros H. injection H as <-. apply parse_phoneme_err in E as (m & -> & E). exists m, [], p, l, []. auto.
    + intros (m & l1 & q & l2 & ps & -> & H & P & Q). destruct l1 as [|y l1]; cbn in H; injection H as <- ->.
      * assert (K : parse_phoneme p = RErr (WrongPhoneme m)) by (apply parse_phoneme_err; eauto). now rewrite K.
      * inversion P as [|? z ? zs P1 P2]; subst. apply parse_phoneme_ok in P1. rewrite P1.
        assert (K : parse_phonemes (l1 ++ q :: l2) = RErr (WrongPhoneme m)) by (apply IH; exists m, l1, q, l2, zs; auto). now rewrite K.
Qed.
Lemma parenthesised : forall s, starts_with_char s (# "(") = true -> ends_with_char s (# ")") = true ->
  exists t, s = $ "(" ++ t ++ $ ")" /\ drop_last (tl s) = t.
Proof.
  intros s H1 H2. apply starts_with_char_spec in H1 as [r ->]. apply ends_with_char_spec in H2 as [t E].
  destruct t as [|x t]; [discriminate|]. cbn in E. injection E as <- ->. exists t. split; [reflexivity|].
  cbn [tl]. apply drop_last_snoc.
Qed.
Lemma parenthesised_drop : forall t, drop_last (tl ($ "(" ++ t ++ $ ")")) = t.
Proof. intros t. cbn [app tl]. apply drop_last_snoc. Qed.
Lemma parenthesised_ends : forall t, ends_with_char ($ "(" ++ t ++ $ ")") (# ")") = true.
Proof. intros t. apply ends_with_char_spec. exists ($ "(" ++ t). reflexivity. Qed.
Theorem parse_phoneme_expr_ok : forall s l, parse_phoneme_expr s = ROk l <-> expr_reads s l.
Proof.
  intros s l. unfold parse_phoneme_expr. split.
  - destruct (starts_with_char s (# "(")) eqn:E1.
    + destruct (ends_with_char s (# ")")) eqn:E2; [|discriminate]. cbn [negb].
      destruct (parenthesised s E1 E2) as (t & -> & D). rewrite D.
      destruct (parse_phonemes (split_on (# "|") t)) as [ps|e] eqn:P; [|discriminate]. apply parse_phonemes_ok in P.
      intros H. injection H as <-. destruct (starts_with_char t (# "|")) eqn:S.
      { cbn [orb]. eapply er_optional; [now apply split_separated|assumption|]. left. now apply starts_with_char_spec. }
      destruct (ends_with_char t (# "|")) eqn:W; cbn [orb].
      * eapply er_optional; [now apply split_separated|assumption|]. right. now apply ends_with_char_spec.
      * eapply er_several; [now apply split_separated|assumption| |].
        -- now apply starts_with_char_false.
        -- now apply ends_with_char_false.
    + destruct (parse_phoneme s) as [p|e] eqn:P; [|discriminate]. intros H. injection H as <-. constructor.
      * now apply starts_with_char_false.
      * now apply parse_phoneme_ok.
  - intros H. destruct H as [s p N P|s l ps S F N1 N2|s l ps S F N].
    + apply starts_with_char_false in N. rewrite N. apply parse_phoneme_ok in P. now rewrite P.
    + rewrite parenthesised_ends, parenthesised_drop. cbn [starts_with_char app negb]. rewrite N.eqb_refl.
      apply split_separated in S. rewrite S. apply parse_phonemes_ok in F. rewrite F.
      apply starts_with_char_false in N1. apply ends_with_char_false in N2. now rewrite N1, N2.
    + rewrite parenthesised_ends, parenthesised_drop. cbn [starts_with_char app negb]. rewrite N.eqb_refl.
      apply split_separated in S. rewrite S. apply parse_phonemes_ok in F. rewrite F.
      destruct N as [N|N].
      * apply starts_with_char_spec in N. now rewrite N.
      * apply ends_with_char_spec in N. now rewrite N, orb_true_r.
Qed.
Theorem parse_phoneme_expr_err : forall s e, parse_phoneme_expr s = RErr e <-> exists m, e = WrongPhoneme m /\ expr_error s m.
Proof.
  intros s e. unfold parse_phoneme_expr. split.
  - destruct (starts_with_char s (# "(")) eqn:E1.
    + destruct (ends_with_char s (# ")")) eqn:E2; cbn [negb].
      * destruct (parenthesised s E1 E2) as (t & -> & D). rewrite D.
        destruct (parse_phonemes (split_on (# "|") t)) as [ps|e'] eqn:P; [discriminate|].
        intros H. injection H as <-. apply parse_phonemes_err in P as (m & l1 & p & l2 & ps & -> & L & F & X).
        exists m. split; [reflexivity|]. eapply ee_several; [apply split_separated; exact L|eassumption|assumption].
      * intros H. injection H as <-. eexists. split; [reflexivity|]. apply starts_with_char_spec in E1 as [r E1].
        eapply ee_open; [exact E1|now apply ends_with_char_false].
    + destruct (parse_phoneme s) as [p|e'] eqn:P; [discriminate|]. intros H. injection H as <-.
      apply parse_phoneme_err in P as (m & -> & P). exists m. split; [reflexivity|]. constructor; [now apply starts_with_char_false|assumption].
  - intros (m & -> & H). destruct H as [s m N P|s r E W|s l1 p l2 ps m S F P].
    + apply starts_with_char_false in N. rewrite N.
      assert (K : parse_phoneme s = RErr (WrongPhoneme m)) by (apply parse_phoneme_err; eauto). now rewrite K.
    + assert (K : starts_with_char s (# "(") = true) by (apply starts_with_char_spec; eauto). rewrite K.
      apply ends_with_char_false in W. now rewrite W.
    + rewrite parenthesised_ends, parenthesised_drop. cbn [starts_with_char app negb]. rewrite N.eqb_refl.
      apply split_separated in S. rewrite S.
      assert (K : parse_phonemes (l1 ++ p :: l2) = RErr (WrongPhoneme m)) by (apply parse_phonemes_err; exists m, l1, p, l2, ps; auto).
      now rewrite K.
Qed.

(** ** Rules *)
Definition bm_next (s : ustr) : option (bm_item * ustr) :=
  match quadruplet s with
  | Some ((a, b, c, d), rm) => Some (BmQuad a b c d, rm)
  | None =>
  match end_of_line s with
  | Some (_, rm) => Some (BmBlank, rm)
  | None =>
  match include u s with
  | Some (n, rm) => Some (BmInclude n, rm)
  | None =>
  match multiline_comment s with
  | Some (n, rm) => Some (BmComment n, rm)
  | None => None
  end end end end.
Lemma bm_next_spec : forall s i r, s <> [] -> (bm_next s = Some (i, r) <-> bm_file_line (file_name_char (is_alphanumeric u)) s i r).
Proof.
  intros s i r N. unfold bm_next. split.
  - intros H. destruct (quadruplet s) as [[[[[a b] c] d] rm]|] eqn:E1.
    { injection H as <- <-. constructor. now apply quadruplet_spec. }
    destruct (end_of_line s) as [[v rm]|] eqn:E2.
    { injection H as <- <-. constructor. apply end_of_line_spec. eauto. }
    destruct (include u s) as [[n rm]|] eqn:E3.
    { injection H as <- <-. constructor. now apply include_spec. }
    destruct (multiline_comment s) as [[n rm]|] eqn:E4; [|discriminate].
    injection H as <- <-. constructor. now apply multiline_comment_spec.
  - intros H. destruct H as [s a b c d r H|s r H|s n r H|s n r H].
    + apply quadruplet_spec in H. now rewrite H.
    + destruct (quadruplet s) as [[q rm]|] eqn:E1.
      { apply quadruplet_spec, quad_head in E1 as [t ->]. apply line_end_head in H as [H|[H|[H|[H|H]]]]; discriminate. }
      apply end_of_line_spec in H as [v H]. now rewrite H.
    + destruct (include_head _ _ _ _ H) as [t T]. destruct (quadruplet s) as [[q rm]|] eqn:E1.
      { apply quadruplet_spec, quad_head in E1 as [t' E1]. rewrite E1 in T. discriminate. }
      destruct (end_of_line s) as [[v rm]|] eqn:E2.
      { assert (K : line_end s rm) by (apply end_of_line_spec; eauto). rewrite T in K.
        apply line_end_head in K as [K|[K|[K|[K|K]]]]; discriminate. }
      apply include_spec in H. now rewrite H.
    + destruct (comment_head _ _ _ H) as [t T]. destruct (quadruplet s) as [[q rm]|] eqn:E1.
      { apply quadruplet_spec, quad_head in E1 as [t' E1]. rewrite E1 in T. discriminate. }
      destruct (end_of_line s) as [[v rm]|] eqn:E2.
      { elim (line_end_no_comment t rm). rewrite <- T. apply end_of_line_spec. eauto. }
      destruct (include u s) as [[q rm]|] eqn:E3.
      { apply include_spec, include_head in E3 as [t' E3]. rewrite E3 in T. discriminate. }
      apply multiline_comment_spec in H. now rewrite H.
Qed.
Lemma bm_progress : forall s i r, s <> [] -> bm_file_line (file_name_char (is_alphanumeric u)) s i r -> (length r < length s)%nat.
Proof.
  intros s i r N H.
  assert (P : exists c, s = c ++ r /\ c <> []).
  { destruct H as [s a b c d r H|s r H|s n r H|s n r H];
      [eapply quad_progress; exact H|now apply end_progress|eapply include_progress; exact H|eapply comment_progress; exact H]. }
  destruct P as (c & -> & K). rewrite app_length. destruct c; [congruence|]. cbn [length]. lia.
Qed.
Definition bm_reading_exists := reading_exists_ (bm_file_line (file_name_char (is_alphanumeric u))) bm_next bm_next_spec bm_progress.
Definition bm_reading_unique := reading_unique_ (bm_file_line (file_name_char (is_alphanumeric u))) bm_next bm_next_spec.

Lemma parse_context_err : forall s e, parse_context rx s = RErr e <->
  optimized_from_str s = None /\ rx_valid rx s = false /\ e = BMErr (BadContextRegex (rx_error rx s)).
Proof.
  intros s e. unfold parse_context. destruct (optimized_from_str s); [split; [discriminate|intros (H & _); discriminate]|].
  destruct (rx_valid rx s).
  - split; [discriminate|intros (_ & H & _); discriminate].
  - split; [intros H; injection H as <-; auto|intros (_ & _ & ->); reflexivity].
Qed.

Lemma make_rule_ok : forall f n a b c d ch rule, make_rule rx f n (a, b, c, d) = Ok (ROk (ch, rule)) <->
  (exists p, a = ch :: p) /\ rule_of_line rx f n a b c d rule.
Proof.
  intros f n a b c d ch rule. unfold make_rule, rule_of_line. split.
  - destruct (parse_context rx (b ++ _)) as [lc|e] eqn:L; [|discriminate].
    destruct (parse_context rx (_ ++ c)) as [rc|e] eqn:R; [|discriminate].
    destruct (parse_phoneme_expr d) as [ps|e] eqn:P; [|discriminate].
    destruct a as [|x a]; [discriminate|]. cbn [hd_error unwrap bind]. intros H. apply Ok_inj in H.
    injection H as <- <-. split; [eauto|]. exists ps. cbn [bm_location bm_line bm_left bm_pattern bm_pattern_length_char bm_right bm_phoneme].
    apply parse_phoneme_expr_ok in P. repeat (split; [reflexivity || assumption|]). auto.
  - intros ((p & ->) & ps & H1 & H2 & H3 & H4 & H5 & H6 & H7 & H8).
    rewrite H3, H6. apply parse_phoneme_expr_ok in H7. rewrite H7. cbn [hd_error unwrap bind]. destruct rule. cbn in *. now subst.
Qed.
Lemma make_rule_err : forall f n a b c d e, make_rule rx f n (a, b, c, d) = Ok (RErr e) <-> line_error rx b c d e.
Proof.
  intros f n a b c d e. unfold make_rule. split.
  - destruct (parse_context rx (b ++ _)) as [lc|e'] eqn:L.
    2:{ apply parse_context_err in L as (L1 & L2 & ->). intros H. apply Ok_inj in H. injection H as <-. now constructor. }
    destruct (parse_context rx (_ ++ c)) as [rc|e'] eqn:R.
    2:{ apply parse_context_err in R as (L1 & L2 & ->). intros H. apply Ok_inj in H. injection H as <-. eapply le_right; eassumption. }
    destruct (parse_phoneme_expr d) as [ps|e'] eqn:P.
    { destruct a; discriminate. }
    apply parse_phoneme_expr_err in P as (m & -> & P). intros H. apply Ok_inj in H. injection H as <-. eapply le_phoneme; eassumption.
  - intros H. destruct H as [H1 H2|lc L H1 H2|lc rc m L R P].
    + assert (K : parse_context rx (b ++ $ "$") = RErr (BMErr (BadContextRegex (rx_error rx (b ++ $ "$"))))) by (apply parse_context_err; auto).
      now rewrite K.
    + rewrite L. assert (K : parse_context rx ($ "^" ++ c) = RErr (BMErr (BadContextRegex (rx_error rx ($ "^" ++ c))))) by (apply parse_context_err; auto).
      now rewrite K.
    + rewrite L, R. assert (K : parse_phoneme_expr d = RErr (WrongPhoneme m)) by (apply parse_phoneme_expr_err; eauto). now rewrite K.
Qed.
Lemma make_rule_panic : forall f n a b c d, make_rule rx f n (a, b, c, d) = Panic <->
  a = [] /\ exists rule, rule_of_line rx f n [] b c d rule.
Proof.
  intros f n a b c d. unfold make_rule, rule_of_line. split.
  - destruct (parse_context rx (b ++ _)) as [lc|e] eqn:L; [|discriminate].
    destruct (parse_context rx (_ ++ c)) as [rc|e] eqn:R; [|discriminate].
    destruct (parse_phoneme_expr d) as [ps|e] eqn:P; [|discriminate].
    destruct a as [|x a]; [|discriminate]. intros _. split; [reflexivity|].
    exists {| bm_location := f; bm_line := n; bm_left := lc; bm_pattern := []; bm_pattern_length_char := 0; bm_right := rc; bm_phoneme := ps |}, ps.
    apply parse_phoneme_expr_ok in P. cbn. repeat (split; [reflexivity || assumption|]). auto.
  - intros (-> & rule & ps & H1 & H2 & H3 & H4 & H5 & H6 & H7 & H8).
    rewrite H3, H6. apply parse_phoneme_expr_ok in H7. now rewrite H7.
Qed.
Lemma make_rule_fuel : forall f n q, make_rule rx f n q <> NoFuel.
Proof.
  intros f n [[[a b] c] d]. unfold make_rule. destruct (parse_context rx _); [|discriminate]. destruct (parse_context rx _); [|discriminate].
  destruct (parse_phoneme_expr d); [|discriminate]. destruct a; discriminate.
Qed.

(** ** Tables *)
Definition map_holds (m : RuleMap) (t : bm_table) : Prop :=
  NoDup (map fst m) /\ forall c, assoc c m = match t c with [] => None | l => Some l end.
Lemma rm_push_keys : forall k x m y, In y (map fst (rm_push k x m)) <-> y = k \/ In y (map fst m).
Proof.
  intros k x. induction m as [|[k' v] m IH]; intros y; cbn [rm_push map fst In].
  - intuition.
  - destruct (k' =? k) eqn:E; cbn [map fst In].
    + apply N.eqb_eq in E. subst. intuition.
    + rewrite IH. intuition.
Qed.
Lemma rm_push_NoDup : forall k x m, NoDup (map fst m) -> NoDup (map fst (rm_push k x m)).
Proof.
  intros k x. induction m as [|[k' v] m IH]; intros H; cbn [rm_push map fst].
  - repeat constructor. intros [].
  - cbn [map fst] in H. inversion H as [|? ? H1 H2]; subst. destruct (k' =? k) eqn:E; cbn [map fst].
    + assumption.
    + constructor; [|auto]. rewrite rm_push_keys. intros [K|K]; [|contradiction]. subst. now rewrite N.eqb_refl in E.
Qed.
Lemma assoc_rm_push : forall k x l c,
  assoc c (rm_push k x l) = if k =? c then Some (match assoc c l with Some v => v ++ [x] | None => [x] end) else assoc c l.
Proof.
  intros k x. induction l as [|[k' v] l IH]; intros c; cbn [rm_push assoc].
  - reflexivity.
  - destruct (k' =? k) eqn:E; cbn [assoc].
    + apply N.eqb_eq in E. subst k'. destruct (k =? c); reflexivity.
    + rewrite IH. destruct (k' =? c) eqn:E2; [|reflexivity]. apply N.eqb_eq in E2. subst k'.
      rewrite N.eqb_sym, E. reflexivity.
Qed.
Lemma assoc_insert_keys : forall A k (x : A) m y, In y (map fst (assoc_insert k x m)) <-> y = k \/ In y (map fst m).
Proof.
  intros A k x. induction m as [|[k' v] m IH]; intros y; cbn [assoc_insert map fst In].
  - intuition.
  - destruct (k' =? k) eqn:E; cbn [map fst In].
    + apply N.eqb_eq in E. subst. intuition.
    + rewrite IH. intuition.
Qed.
Lemma assoc_insert_NoDup : forall A k (x : A) m, NoDup (map fst m) -> NoDup (map fst (assoc_insert k x m)).
Proof.
  intros A k x. induction m as [|[k' v] m IH]; intros H; cbn [assoc_insert map fst].
  - repeat constructor. intros [].
  - cbn [map fst] in H. inversion H as [|? ? H1 H2]; subst. destruct (k' =? k) eqn:E; cbn [map fst].
    + apply N.eqb_eq in E. now subst.
    + constructor; [|auto]. rewrite assoc_insert_keys. intros [K|K]; [|contradiction]. subst. now rewrite N.eqb_refl in E.
Qed.
Lemma assoc_None_keys : forall A c (m : list (N * A)), assoc c m = None <-> ~ In c (map fst m).
Proof.
  intros A c. induction m as [|[k v] m IH]; cbn [assoc map fst In]; [tauto|]. destruct (k =? c) eqn:E.
  - apply N.eqb_eq in E. split; [discriminate|]. intros H. elim H. auto.
  - apply N.eqb_neq in E. rewrite IH. intuition.
Qed.
Lemma rm_extend_NoDup : forall other m, NoDup (map fst m) -> NoDup (map fst (rm_extend m other)).
Proof.
  unfold rm_extend. induction other as [|[k v] other IH]; intros m H; cbn [fold_left]; [assumption|].
  apply IH. now apply assoc_insert_NoDup.
Qed.
Lemma assoc_rm_extend : forall other m c, NoDup (map fst other) ->
  assoc c (rm_extend m other) = match assoc c other with Some v => Some v | None => assoc c m end.
Proof.
  unfold rm_extend. induction other as [|[k v] other IH]; intros m c H; cbn [fold_left]; [reflexivity|].
  cbn [map fst] in H. inversion H as [|? ? H1 H2]; subst. rewrite IH by assumption. cbn [assoc fst snd].
  rewrite assoc_assoc_insert. destruct (k =? c) eqn:E; [|reflexivity]. apply N.eqb_eq in E. subst k.
  apply assoc_None_keys in H1. now rewrite H1.
Qed.
Lemma holds_empty : map_holds [] no_rules.
Proof. split; [constructor|reflexivity]. Qed.
Lemma holds_push : forall m t rule ch p, map_holds m t -> bm_pattern rule = ch :: p ->
  map_holds (rm_push ch rule m) (add_rule rule t).
Proof.
  intros m t rule ch p [N H] P. split; [now apply rm_push_NoDup|]. intros c. rewrite assoc_rm_push, H. unfold add_rule. rewrite P.
  destruct (ch =? c); [|reflexivity]. destruct (t c) as [|y l]; [reflexivity|]. reflexivity.
Qed.
Lemma holds_extend : forall m t m' t', map_holds m t -> map_holds m' t' -> map_holds (rm_extend m m') (override t t').
Proof.
  intros m t m' t' [N H] [N' H']. split; [now apply rm_extend_NoDup|]. intros c. rewrite assoc_rm_extend by assumption.
  rewrite H', H. unfold override. now destruct (t' c).
Qed.

Variable rs : Resolver.
Definition realizes (x : res (result RuleMap PhoneticError)) (o : outcome) : Prop :=
  match o with
  | Loaded t => exists m, x = Ok (ROk m) /\ map_holds m t
  | Failed e => x = Ok (RErr e)
  | Panicked => x = Panic
  end.
Lemma parse_rule_next : forall inc f fuel m line s, s <> [] ->
  parse_rule_text u rx inc f (S fuel) m line s =
  match bm_next s with
  | Some (BmQuad a b c d, rm) =>
      r <- make_rule rx f (line + 1) (a, b, c, d) ;;
      match r with
      | RErr e => Ok (RErr e)
      | ROk (ch, rule) => parse_rule_text u rx inc f fuel (rm_push ch rule m) (line + 1) rm
      end
  | Some (BmBlank, rm) => parse_rule_text u rx inc f fuel m (line + 1) rm
  | Some (BmInclude name, rm) =>
      r <- inc name ;;
      match r with
      | RErr e => Ok (RErr (include_error (line + 1) f rm e))
      | ROk rules => parse_rule_text u rx inc f fuel (rm_extend m rules) (line + 1) rm
      end
  | Some (BmComment n, rm) => parse_rule_text u rx inc f fuel m (line + n) rm
  | None => Ok (RErr (ParseRuleError (build_error (line + 1) (Some f) s $ "Can't parse line")))
  end.
Proof.
  intros inc f fuel m line s N. destruct s as [|x s]; [congruence|]. cbn [parse_rule_text]. unfold bm_next.
  rewrite (Nat.add_1_r line).
  destruct (quadruplet (x :: s)) as [[[[[a b] c] d] rm]|]; [reflexivity|].
  destruct (end_of_line (x :: s)) as [[v rm]|]; [reflexivity|].
  destruct (include u (x :: s)) as [[n rm]|]; [reflexivity|].
  destruct (multiline_comment (x :: s)) as [[n rm]|] eqn:E; [apply mlc_positive in E; f_equal; lia|reflexivity].
Qed.

Lemma text_sound : forall inc f,
  (forall name, inc name <> NoFuel -> exists o, file_outcome u rx rs name o /\ realizes (inc name) o) ->
  forall s items rem, reading (bm_file_line (file_name_char (is_alphanumeric u))) s items rem ->
  forall fuel m t line, (length s <= fuel)%nat -> map_holds m t ->
  parse_rule_text u rx inc f fuel m line s <> NoFuel ->
  exists o, items_outcome u rx rs f (line + 1) items rem t o /\ realizes (parse_rule_text u rx inc f fuel m line s) o.
Proof.
  intros inc f INC s items rem H. induction H as [|s N S|s i r items rem N L H IH]; intros fuel m t line F A NF.
  - exists (Loaded t). split; [constructor|]. exists m. split; [destruct fuel; reflexivity|assumption].
  - destruct fuel as [|fuel]; [destruct s; [congruence|cbn in F; lia]|].
    rewrite parse_rule_next in * by assumption. destruct (bm_next s) as [[i r]|] eqn:E.
    + apply bm_next_spec in E; [|assumption]. now elim (S i r).
    + eexists (Failed _). split; [now constructor|reflexivity].
  - pose proof (bm_progress _ _ _ N L) as P. destruct fuel as [|fuel]; [lia|]. rewrite parse_rule_next in * by assumption.
    apply bm_next_spec in L; [|assumption]. rewrite L in *. destruct i as [a b c d| |name|n].
    + destruct (make_rule rx f (line + 1) (a, b, c, d)) as [[[ch rule]|e]| |] eqn:M; cbn [bind] in *.
      * apply make_rule_ok in M as [(p & ->) M]. assert (Q : bm_pattern rule = ch :: p) by (destruct M as (ps & _ & _ & _ & M & _); exact M).
        destruct (IH fuel (rm_push ch rule m) (add_rule rule t) (line + 1)%nat ltac:(lia) (holds_push _ _ _ _ _ A Q) NF) as (o & O & R).
        exists o. split; [|assumption]. eapply io_rule; [eassumption|discriminate|assumption].
      * apply make_rule_err in M. exists (Failed e). split; [now constructor|reflexivity].
      * apply make_rule_panic in M as (-> & rule & M). exists Panicked. split; [econstructor; eassumption|reflexivity].
      * now apply make_rule_fuel in M.
    + destruct (IH fuel m t (line + 1)%nat ltac:(lia) A NF) as (o & O & R). exists o. split; [now constructor|assumption].
    + assert (NI : inc name <> NoFuel) by (intros K; rewrite K in NF; now apply NF).
      destruct (INC name NI) as (o & O & R). destruct o as [t'|e|].
      * destruct R as (m' & E & R). rewrite E in *. cbn [bind] in *.
        destruct (IH fuel (rm_extend m m') (override t t') (line + 1)%nat ltac:(lia) (holds_extend _ _ _ _ A R) NF) as (o & O' & R').
        exists o. split; [|assumption]. eapply io_include; eassumption.
      * cbn [realizes] in R. rewrite R in *. eexists (Failed _). split; [eapply io_include_failed; exact O|reflexivity].
      * cbn [realizes] in R. rewrite R in *. exists Panicked. split; [now constructor|reflexivity].
    + destruct (IH fuel m t (line + n)%nat ltac:(lia) A NF) as (o & O & R). exists o. split; [|assumption]. constructor.
      replace (line + 1 + n)%nat with (line + n + 1)%nat by lia. assumption.
Qed.
Theorem parse_rule_sound : forall depth name, parse_rule u rx rs depth name <> NoFuel ->
  exists o, file_outcome u rx rs name o /\ realizes (parse_rule u rx rs depth name) o.
Proof.
  induction depth as [|depth IH]; intros name NF; [now elim NF|]. cbn [parse_rule] in *. unfold resolve in *.
  destruct (rs_lookup rs name) as [content|] eqn:E.
  - destruct (bm_reading_exists content) as (items & rem & R).
    destruct (text_sound (parse_rule u rx rs depth) name IH content items rem R (length content) [] no_rules 0 (le_n _) holds_empty NF) as (o & O & Z).
    exists o. split; [|assumption]. eapply fo_found; eassumption.
  - eexists (Failed _). split; [now constructor|reflexivity].
Qed.

Lemma bounded_max : forall (P Q : nat -> Prop), (exists d, forall k, (d <= k)%nat -> P k) -> (exists d, forall k, (d <= k)%nat -> Q k) ->
  exists d, forall k, (d <= k)%nat -> P k /\ Q k.
Proof. intros P Q [d H] [d' H']. exists (Nat.max d d'). intros k K. split; [apply H|apply H']; lia. Qed.

Definition text_realizes (depth : nat) (f : ustr) (n : nat) (items : list (bm_item * ustr)) (rem : ustr) (t : bm_table) (o : outcome) : Prop :=
  forall line s fuel m, n = (line + 1)%nat -> reading (bm_file_line (file_name_char (is_alphanumeric u))) s items rem -> (length s <= fuel)%nat ->
    map_holds m t -> realizes (parse_rule_text u rx (parse_rule u rx rs depth) f fuel m line s) o.
Lemma reading_cons_inv : forall s i r items rem, reading (bm_file_line (file_name_char (is_alphanumeric u))) s ((i, r) :: items) rem ->
  s <> [] /\ bm_next s = Some (i, r) /\ reading (bm_file_line (file_name_char (is_alphanumeric u))) r items rem /\ (length r < length s)%nat.
Proof.
  intros s i r items rem H. inversion H as [| |? ? ? ? ? N L R]; subst. split; [assumption|]. split; [now apply bm_next_spec|].
  split; [assumption|]. eapply bm_progress; eassumption.
Qed.
Theorem parse_rule_complete : forall name o, file_outcome u rx rs name o ->
  exists d, forall depth, (d <= depth)%nat -> realizes (parse_rule u rx rs depth name) o.
Proof.
  apply (file_outcome_mind u rx rs
    (fun name o _ => exists d, forall depth, (d <= depth)%nat -> realizes (parse_rule u rx rs depth name) o)
    (fun f n items rem t o _ => exists d, forall depth, (d <= depth)%nat -> text_realizes depth f n items rem t o)).
  - intros name E. exists 1%nat. intros [|depth] D; [lia|]. cbn [parse_rule realizes]. unfold resolve. now rewrite E.
  - intros name content items rem o E R _ [d IH]. exists (S d). intros [|depth] D; [lia|]. cbn [parse_rule]. unfold resolve. rewrite E.
    apply (IH depth ltac:(lia) 0%nat content (length content) [] eq_refl R (le_n _) holds_empty).
  - intros f n t. exists 0%nat. intros depth _ line s fuel m -> R F M. inversion R; subst.
    + exists m. split; [destruct fuel; reflexivity|assumption].
    + congruence.
  - intros f n rem t N. exists 0%nat. intros depth _ line s fuel m -> R F M. inversion R as [|? N' S'|]; subst; [congruence|].
    destruct fuel as [|fuel]; [destruct rem; [congruence|cbn in F; lia]|]. rewrite parse_rule_next by assumption.
    destruct (bm_next rem) as [[i r]|] eqn:E; [|reflexivity]. apply bm_next_spec in E; [|assumption]. now elim (S' i r).
  - intros f n r items rem t o _ [d IH]. exists d. intros depth D line s fuel m -> R F M.
    apply reading_cons_inv in R as (N & E & R & P). destruct fuel as [|fuel]; [lia|]. rewrite parse_rule_next, E by assumption; cbv iota beta.
    apply (IH depth D); try assumption; lia.
  - intros f n k r items rem t o _ [d IH]. exists d. intros depth D line s fuel m -> R F M.
    apply reading_cons_inv in R as (N & E & R & P). destruct fuel as [|fuel]; [lia|]. rewrite parse_rule_next, E by assumption; cbv iota beta.
    apply (IH depth D); try assumption; lia.
  - intros f n a b c d' rule r items rem t o RL A _ [d IH]. exists d. intros depth D line s fuel m -> R F M.
    apply reading_cons_inv in R as (N & E & R & P). destruct fuel as [|fuel]; [lia|]. rewrite parse_rule_next, E by assumption; cbv iota beta.
    destruct a as [|ch p]; [congruence|].
    assert (Q : bm_pattern rule = ch :: p) by (destruct RL as (ps & _ & _ & _ & K & _); exact K).
    rewrite (proj2 (make_rule_ok f (line + 1) (ch :: p) b c d' ch rule) (conj (ex_intro _ p eq_refl) RL)). cbn [bind]. apply (IH depth D); try assumption; [lia|lia|]. eapply holds_push; eassumption.
  - intros f n b c d' rule r items rem t RL. exists 0%nat. intros depth _ line s fuel m -> R F M.
    apply reading_cons_inv in R as (N & E & R & P). destruct fuel as [|fuel]; [lia|]. rewrite parse_rule_next, E by assumption; cbv iota beta.
    now rewrite (proj2 (make_rule_panic f (line + 1) [] b c d') (conj eq_refl (ex_intro _ rule RL))).
  - intros f n a b c d' e r items rem t LE. exists 0%nat. intros depth _ line s fuel m -> R F M.
    apply reading_cons_inv in R as (N & E & R & P). destruct fuel as [|fuel]; [lia|]. rewrite parse_rule_next, E by assumption; cbv iota beta.
    assert (K : make_rule rx f (line + 1) (a, b, c, d') = Ok (RErr e)) by now apply make_rule_err. now rewrite K.
  - intros f n name t' r items rem t o _ H1 _ H2. destruct (bounded_max _ _ H1 H2) as [d IH]. exists d. intros depth D line s fuel m -> R F M.
    apply reading_cons_inv in R as (N & E & R & P). destruct fuel as [|fuel]; [lia|]. rewrite parse_rule_next, E by assumption; cbv iota beta.
    destruct (IH depth D) as [(m' & I1 & I2) I]. rewrite I1. cbn [bind]. apply I; [lia|assumption|lia|]. now apply holds_extend.
  - intros f n name e r items rem t _ [d IH]. exists d. intros depth D line s fuel m -> R F M.
    apply reading_cons_inv in R as (N & E & R & P). destruct fuel as [|fuel]; [lia|]. rewrite parse_rule_next, E by assumption; cbv iota beta.
    specialize (IH depth D). cbn [realizes] in IH. rewrite IH. reflexivity.
  - intros f n name r items rem t _ [d IH]. exists d. intros depth D line s fuel m -> R F M.
    apply reading_cons_inv in R as (N & E & R & P). destruct fuel as [|fuel]; [lia|]. rewrite parse_rule_next, E by assumption; cbv iota beta.
    specialize (IH depth D). cbn [realizes] in IH. rewrite IH. reflexivity.
Qed.
(** More depth changes nothing once a result is reached. *)
Theorem parse_rule_depth : forall d1 d2 name, (d1 <= d2)%nat -> parse_rule u rx rs d1 name <> NoFuel ->
  parse_rule u rx rs d2 name = parse_rule u rx rs d1 name.
Proof.
  assert (T : forall inc1 inc2 f, (forall n, inc1 n <> NoFuel -> inc2 n = inc1 n) ->
    forall fuel m line s, parse_rule_text u rx inc1 f fuel m line s <> NoFuel ->
      parse_rule_text u rx inc2 f fuel m line s = parse_rule_text u rx inc1 f fuel m line s).
  { intros inc1 inc2 f I. induction fuel as [|fuel IH]; intros m line s NF.
    - destruct s; reflexivity.
    - destruct s as [|x s]; [reflexivity|]. rewrite !parse_rule_next in * by discriminate.
      destruct (bm_next (x :: s)) as [[[a b c d| |name|n] r]|]; try (now apply IH); [| |reflexivity].
      + destruct (make_rule rx f (line + 1) (a, b, c, d)) as [[[ch rule]|e]| |]; cbn [bind] in *; auto.
      + assert (K : inc1 name <> NoFuel) by (intros K; rewrite K in NF; now apply NF).
        rewrite (I name K). destruct (inc1 name) as [[m'|e]| |]; cbn [bind] in *; auto. }
  induction d1 as [|d1 IH]; intros d2 name L NF; [now elim NF|]. destruct d2 as [|d2]; [lia|]. cbn [parse_rule] in *.
  destruct (resolve rs name) as [content|e]; [|reflexivity]. apply T; [|assumption]. intros n K. apply IH; [lia|assumption].
Qed.
Theorem outcome_unique : forall name o o', file_outcome u rx rs name o -> file_outcome u rx rs name o' ->
  match o, o' with
  | Loaded t, Loaded t' => forall c, t c = t' c
  | Failed e, Failed e' => e = e'
  | Panicked, Panicked => True
  | _, _ => False
  end.
Proof.
  intros name o o' H1 H2. apply parse_rule_complete in H1, H2. destruct (bounded_max _ _ H1 H2) as [d H].
  destruct (H d (le_n _)) as [R1 R2]. destruct o as [t|e|], o' as [t'|e'|]; cbn [realizes] in *.
  - destruct R1 as (m & E & _ & M), R2 as (m' & E' & _ & M'). rewrite E in E'. apply Ok_inj in E'. injection E' as <-.
    intros c. specialize (M c). specialize (M' c). rewrite M in M'. destruct (t c), (t' c); congruence.
  - destruct R1 as (m & E & _). congruence.
  - destruct R1 as (m & E & _). congruence.
  - destruct R2 as (m & E & _). congruence.
  - congruence.
  - congruence.
  - destruct R2 as (m & E & _). congruence.
  - congruence.
  - exact I.
Qed.
End Rx.
