(** * Beider-Morse languages and phonemes: C42, C43, C45, C52. *)
From Verif Require Import Base UnicodeM Lib Helper RulesParser DaitchMokotoff BmLanguages BmRegex BmRule BmEngine MiniRegex
  BaseLemmas Spec_bm Bm_set_proofs.
Local Open Scope N_scope.

(** ** C42: LanguageSet *)
Theorem C42_restrict_is_intersection : forall a b x, ls_mem x (restrict_to a b) <-> ls_mem x a /\ ls_mem x b.
Proof.
  intros [| |l1] [| |l2] x; cbn [restrict_to ls_mem]; try tauto. apply sset_inter_In.
Qed.
Theorem C42_merge_is_union : forall a b x, ls_mem x (ls_merge a b) <-> ls_mem x a \/ ls_mem x b.
Proof.
  intros [| |l1] [| |l2] x; cbn [ls_merge ls_mem]; try tauto. apply sset_union_In.
Qed.
Theorem C42_well_formed : forall a b, ls_ok a -> ls_ok b -> ls_ok (restrict_to a b) /\ ls_ok (ls_merge a b).
Proof.
  intros [| |l1] [| |l2] A B; cbn [restrict_to ls_merge ls_ok] in *; try (split; assumption); try (split; exact I).
  split; [now apply filter_increasing|now apply fold_insert_increasing].
Qed.
Theorem C42_from_vec : forall l x, ls_ok (ls_of_vec l) /\ (ls_mem x (ls_of_vec l) <-> In x l).
Proof. intros l x. split; [apply sset_of_list_increasing|apply sset_of_list_In]. Qed.
Theorem C42_from_set : forall l x, ls_mem x (ls_of_set l) <-> In x l.
Proof. intros [|y l] x; cbn; tauto. Qed.

Theorem C42_restrict_commutative : forall a b, ls_ok a -> ls_ok b -> restrict_to a b = restrict_to b a.
Proof.
  intros [| |l1] [| |l2] A B; cbn [restrict_to]; try reflexivity. f_equal.
  apply increasing_ext; [now apply filter_increasing|now apply filter_increasing|].
  intros x. rewrite !sset_inter_In. tauto.
Qed.
Theorem C42_restrict_associative : forall a b c,
  restrict_to a (restrict_to b c) = restrict_to (restrict_to a b) c.
Proof.
  intros [| |l1] [| |l2] [| |l3]; cbn [restrict_to]; try reflexivity. f_equal.
  unfold sset_inter. induction l1 as [|x l1 IH]; [reflexivity|]. cbn [filter].
  assert (E : sset_mem x (filter (fun y => sset_mem y l3) l2) = sset_mem x l2 && sset_mem x l3).
  { destruct (sset_mem x (filter _ l2)) eqn:E.
    - apply sset_mem_In, filter_In in E as [E1 E2]. apply sset_mem_In in E1. now rewrite E1, E2.
    - apply sset_mem_false in E. destruct (sset_mem x l2) eqn:E1; [|reflexivity]. destruct (sset_mem x l3) eqn:E2; [|reflexivity].
      elim E. apply filter_In. split; [now apply sset_mem_In|assumption]. }
  rewrite E. destruct (sset_mem x l2); cbn [andb filter]; [|exact IH]. destruct (sset_mem x l3); [now rewrite IH|exact IH].
Qed.
Theorem C42_restrict_idempotent : forall a, restrict_to a a = a.
Proof.
  intros [| |l]; cbn [restrict_to]; try reflexivity. f_equal. unfold sset_inter.
  assert (G : forall k, (forall x, In x k -> In x l) -> filter (fun x => sset_mem x l) k = k).
  { clear. induction k as [|x k IH]; intros H; [reflexivity|]. cbn [filter].
    rewrite (proj2 (sset_mem_In x l)) by (apply H; now left). f_equal. apply IH. intros y Hy. apply H. now right. }
  now apply G.
Qed.
Theorem C42_restrict_any : forall a, restrict_to a LAny = a /\ restrict_to LAny a = a.
Proof. intros [| |l]; split; reflexivity. Qed.
Theorem C42_merge_commutative : forall a b, ls_ok a -> ls_ok b -> ls_merge a b = ls_merge b a.
Proof.
  intros [| |l1] [| |l2] A B; cbn [ls_merge]; try reflexivity. f_equal.
  apply increasing_ext; [now apply fold_insert_increasing|now apply fold_insert_increasing|].
  intros x. rewrite !sset_union_In. tauto.
Qed.
Theorem C42_merge_associative : forall a b c, ls_ok a -> ls_ok b -> ls_ok c ->
  ls_merge a (ls_merge b c) = ls_merge (ls_merge a b) c.
Proof.
  intros [| |l1] [| |l2] [| |l3] A B C; cbn [ls_merge]; try reflexivity. f_equal.
  apply increasing_ext; [now apply fold_insert_increasing|now apply fold_insert_increasing, fold_insert_increasing|].
  intros x. rewrite !sset_union_In. tauto.
Qed.
Theorem C42_merge_idempotent : forall a, ls_ok a -> ls_merge a a = a.
Proof.
  intros [| |l] A; cbn [ls_merge]; try reflexivity. f_equal.
  apply increasing_ext; [now apply fold_insert_increasing|assumption|]. intros x. rewrite sset_union_In. tauto.
Qed.
Theorem C42_merge_none : forall a, ls_merge a NoLanguages = a /\ ls_merge NoLanguages a = a.
Proof. intros [| |l]; split; reflexivity. Qed.
Theorem C42_is_empty : forall s, ls_is_empty s = true <-> forall x, ~ ls_mem x s.
Proof.
  intros [| |l]; cbn; split; try discriminate; auto.
  - intros H. now elim (H []).
  - destruct l; [auto|discriminate].
  - intros H. destruct l as [|x l]; [reflexivity|]. elim (H x). now left.
Qed.
Theorem C42_is_singleton : forall s, ls_ok s -> (ls_is_singleton s = true <-> exists x, forall y, ls_mem y s <-> y = x).
Proof.
  intros [| |l] O; cbn [ls_is_singleton ls_mem].
  - split; [discriminate|]. intros (x & H). pose proof (proj1 (H (0 :: x)) I) as E.
    exfalso. apply (f_equal (@length N)) in E. cbn in E. lia.
  - split; [discriminate|]. intros (x & H). destruct (proj2 (H x) eq_refl).
  - split.
    + intros H. apply Nat.eqb_eq in H. destruct l as [|x [|y l]]; try discriminate. exists x. intros y. cbn. intuition.
    + intros (x & H). apply increasing_NoDup in O. destruct l as [|y [|z l]].
      * destruct (proj2 (H x) eq_refl).
      * reflexivity.
      * exfalso. pose proof (proj1 (H y) (or_introl eq_refl)) as E1. pose proof (proj1 (H z) (or_intror (or_introl eq_refl))) as E2.
        subst. inversion O as [|? ? N _]; subst. apply N. now left.
Qed.
(** any() gives a member: the only one of a singleton, the least one in general;
    nothing for Any and the empty sets. *)
Theorem C42_any : forall s x, ls_ok s -> ls_any s = Some x -> ls_mem x s /\ forall y, ls_mem y s -> y = x \/ lex_lt x y.
Proof.
  intros [| |[|z l]] x O H; try discriminate. injection H as ->. destruct O as [O _]. split; [now left|].
  intros y [->|Hy]; auto.
Qed.
Theorem C42_any_singleton : forall s x, ls_is_singleton s = true -> ls_mem x s -> ls_any s = Some x.
Proof.
  intros [| |l] x H M; try discriminate. apply Nat.eqb_eq in H. destruct l as [|y [|z l]]; try discriminate.
  destruct M as [->|[]]. reflexivity.
Qed.
Theorem C42_any_none : forall s, ls_any s = None <-> s = LAny \/ forall x, ~ ls_mem x s.
Proof.
  intros [| |[|x l]]; cbn; split; auto; try discriminate.
  - intros [H|H]; [discriminate|]. elim (H x). now left.
Qed.
Example C42_nonvacuous :
  restrict_to (ls_of_vec [$ "polish"; $ "german"]) (ls_of_vec [$ "german"; $ "english"]) = SomeLanguages [$ "german"]
  /\ ls_merge (ls_of_vec [$ "polish"]) (ls_of_vec [$ "german"; $ "polish"]) = SomeLanguages [$ "german"; $ "polish"]
  /\ ls_is_empty (restrict_to (ls_of_vec [$ "polish"]) (ls_of_vec [$ "german"])) = true.
Proof. split; [|split]; vm_compute; reflexivity. Qed.

(** ** C43: phoneme order *)
Theorem C43_order : forall a b,
  (ph_cmp a b = Lt <-> lex_lt (ph_text a) (ph_text b))
  /\ (ph_cmp a b = Eq <-> ph_text a = ph_text b)
  /\ (ph_cmp a b = Gt <-> lex_lt (ph_text b) (ph_text a)).
Proof.
  intros a b. rewrite ph_cmp_text. split; [apply str_lt_lex|]. split; [apply str_cmp_eq|].
  rewrite str_cmp_gt. apply str_lt_lex.
Qed.
Theorem C43_total_order : forall a b c,
  (lex_lt (ph_text a) (ph_text b) \/ ph_text a = ph_text b \/ lex_lt (ph_text b) (ph_text a))
  /\ ~ lex_lt (ph_text a) (ph_text a)
  /\ (lex_lt (ph_text a) (ph_text b) -> lex_lt (ph_text b) (ph_text c) -> lex_lt (ph_text a) (ph_text c)).
Proof.
  intros a b c. rewrite <- !str_lt_lex. split; [|split].
  - destruct (str_cmp (ph_text a) (ph_text b)) eqn:E; [right; left; now apply str_cmp_eq|now left|].
    right. right. now apply str_cmp_gt.
  - apply str_cmp_irrefl.
  - apply str_cmp_trans.
Qed.
(** Inserting: at most one phoneme per text, in increasing order; the phoneme
    present wins. *)
Theorem C43_insert : forall x l, psorted l -> psorted (pset_insert x l)
  /\ (forall t, In t (map ph_text (pset_insert x l)) <-> t = ph_text x \/ In t (map ph_text l)).
Proof. intros x l H. split; [now apply pset_insert_sorted|apply pset_insert_texts]. Qed.
Theorem C43_insert_keeps_first : forall x l y, psorted l -> In y l -> In y (pset_insert x l).
Proof.
  intros x l y _. induction l as [|z l IH]; intros H; cbn [pset_insert]; [destruct H|].
  destruct (ph_cmp x z); [assumption|now right|]. destruct H as [->|H]; [now left|]. right. auto.
Qed.
Theorem C43_collect : forall l, psorted (pset_of_list l) /\ NoDup (map ph_text (pset_of_list l)).
Proof. intros l. split; [apply pset_of_list_sorted|]. apply increasing_NoDup, pset_of_list_sorted. Qed.
Example C43_nonvacuous :
  map ph_text (pset_of_list (map (fun t => {| ph_text := t; ph_languages := LAny |}) [$ "rinD"; $ "rin"; $ "ra"; $ "rin"]))
  = [$ "ra"; $ "rin"; $ "rinD"].
Proof. vm_compute. reflexivity. Qed.

(** ** C45: language guessing *)
Section Guess.
Variable u : Unicode.
Variable rx : RegexEngine.
Lemma fold_lang_rules : forall text rules langs x,
  In x (fold_left (apply_lang_rule rx (str_lower u text)) rules langs) <-> In x langs /\ survives u rx rules text x.
Proof.
  intros text. induction rules as [|r rules IH]; intros langs x; cbn [fold_left].
  - split; [|tauto]. intros H. split; [assumption|]. intros r [].
  - rewrite IH. unfold apply_lang_rule. split.
    + intros [H S]. destruct (rx_match rx (lr_pattern r) (str_lower u text)) eqn:M.
      * destruct (lr_accept_on_match r) eqn:A.
        -- apply sset_inter_In in H as [H1 H2]. split; [assumption|]. intros r' [<-|Hr] M'; [|now apply S].
           split; [auto|congruence].
        -- apply sset_diff_In in H as [H1 H2]. split; [assumption|]. intros r' [<-|Hr] M'; [|now apply S].
           split; [congruence|auto].
      * split; [assumption|]. intros r' [<-|Hr] M'; [congruence|now apply S].
    + intros [H S]. split; [|intros r' Hr; apply S; now right].
      destruct (rx_match rx (lr_pattern r) (str_lower u text)) eqn:M; [|assumption].
      destruct (S r (or_introl eq_refl) M) as [S1 S2]. destruct (lr_accept_on_match r) eqn:A.
      * apply sset_inter_In. auto.
      * apply sset_diff_In. auto.
Qed.
(** The guess: the surviving declared languages, or Any when there is none. *)
Theorem C45_guess : forall l text,
  (guess_languages u rx l text = LAny /\ forall x, In x (lang_languages l) -> ~ survives u rx (lang_rules l) text x)
  \/ exists s, guess_languages u rx l text = SomeLanguages s /\ s <> []
       /\ forall x, In x s <-> In x (lang_languages l) /\ survives u rx (lang_rules l) text x.
Proof.
  intros l text. unfold guess_languages. cbv zeta.
  pose proof (fold_lang_rules text (lang_rules l) (lang_languages l)) as F.
  destruct (fold_left _ _ _) as [|y s].
  - left. split; [reflexivity|]. intros x Hx Hs. destruct (proj2 (F x) (conj Hx Hs)).
  - right. exists (y :: s). split; [reflexivity|]. split; [discriminate|]. exact F.
Qed.
Theorem C45_never_empty : forall l text, ls_is_empty (guess_languages u rx l text) = false.
Proof.
  intros l text. destruct (C45_guess l text) as [[-> _]|(s & -> & N & _)]; [reflexivity|]. destruct s; [congruence|reflexivity].
Qed.
Theorem C45_declared : forall l text x, ls_mem x (guess_languages u rx l text) ->
  guess_languages u rx l text = LAny \/ In x (lang_languages l).
Proof.
  intros l text x H. destruct (C45_guess l text) as [[-> _]|(s & E & _ & M)]; [now left|]. right. rewrite E in H.
  now apply M in H.
Qed.
Theorem C45_well_formed : forall l text, increasing (lang_languages l) -> ls_ok (guess_languages u rx l text).
Proof.
  intros l text H. unfold guess_languages. cbv zeta.
  assert (G : forall rules langs, increasing langs -> increasing (fold_left (apply_lang_rule rx (str_lower u text)) rules langs)).
  { induction rules as [|r rules IH]; intros langs I0; [assumption|]. apply IH. unfold apply_lang_rule.
    destruct (rx_match _ _ _); [|assumption]. destruct (lr_accept_on_match r); now apply filter_increasing. }
  specialize (G (lang_rules l) (lang_languages l) H). destruct (fold_left _ _ _); [exact I|exact G].
Qed.
(** The order of the rules is irrelevant. *)
Theorem C45_order_irrelevant : forall langs rules rules' text, increasing langs ->
  (forall r, In r rules <-> In r rules') ->
  guess_languages u rx {| lang_languages := langs; lang_rules := rules |} text
  = guess_languages u rx {| lang_languages := langs; lang_rules := rules' |} text.
Proof.
  intros langs rules rules' text I0 P.
  assert (S : forall x, survives u rx rules text x <-> survives u rx rules' text x).
  { intros x. split; intros H r Hr; apply H; now apply P. }
  pose proof (C45_well_formed {| lang_languages := langs; lang_rules := rules |} text I0) as W1.
  pose proof (C45_well_formed {| lang_languages := langs; lang_rules := rules' |} text I0) as W2.
  destruct (C45_guess {| lang_languages := langs; lang_rules := rules |} text) as [[E1 M1]|(s1 & E1 & N1 & M1)],
    (C45_guess {| lang_languages := langs; lang_rules := rules' |} text) as [[E2 M2]|(s2 & E2 & N2 & M2)];
    cbn [lang_languages lang_rules] in *.
  - congruence.
  - exfalso. destruct s2 as [|x s2]; [congruence|]. destruct (proj1 (M2 x) (or_introl eq_refl)) as [H1 H2].
    apply (M1 x H1). now apply S.
  - exfalso. destruct s1 as [|x s1]; [congruence|]. destruct (proj1 (M1 x) (or_introl eq_refl)) as [H1 H2].
    apply (M2 x H1). now apply S.
  - rewrite E1, E2 in *. f_equal. apply increasing_ext; [assumption|assumption|]. intros x. now rewrite M1, M2, S.
Qed.
End Guess.
Example C45_nonvacuous :
  let l := {| lang_languages := [$ "any"; $ "english"; $ "german"];
              lang_rules := [{| lr_line_number := 1; lr_accept_on_match := true; lr_languages := [$ "english"; $ "german"]; lr_pattern := $ "^sch" |};
                             {| lr_line_number := 2; lr_accept_on_match := false; lr_languages := [$ "english"]; lr_pattern := $ "n$" |}] |} in
  guess_languages latin1_only mini_engine l $ "Schumann" = SomeLanguages [$ "german"]
  /\ guess_languages latin1_only mini_engine l $ "Schuma" = SomeLanguages [$ "english"; $ "german"]
  /\ guess_languages latin1_only mini_engine {| lang_languages := []; lang_rules := [] |} $ "x" = LAny.
Proof. split; [|split]; vm_compute; reflexivity. Qed.

(** ** C52: text forms *)
Theorem C52_name_type : forall s n, nt_from_str s = ROk n <-> s = nt_display n.
Proof.
  intros s n. unfold nt_from_str. split.
  - intros H. destruct (seq_eqb s $ "ash") eqn:E1; [apply seq_eqb_eq in E1; injection H as <-; assumption|].
    destruct (seq_eqb s $ "gen") eqn:E2; [apply seq_eqb_eq in E2; injection H as <-; assumption|].
    destruct (seq_eqb s $ "sep") eqn:E3; [apply seq_eqb_eq in E3; injection H as <-; assumption|discriminate].
  - intros ->. destruct n; vm_compute; reflexivity.
Qed.
Theorem C52_name_type_rejects : forall s, (forall n, s <> nt_display n) -> nt_from_str s = RErr (UnknownNameType s).
Proof.
  intros s H. unfold nt_from_str.
  destruct (seq_eqb s $ "ash") eqn:E1; [apply seq_eqb_eq in E1; now elim (H Ashkenazi)|].
  destruct (seq_eqb s $ "gen") eqn:E2; [apply seq_eqb_eq in E2; now elim (H Generic)|].
  destruct (seq_eqb s $ "sep") eqn:E3; [apply seq_eqb_eq in E3; now elim (H Sephardic)|reflexivity].
Qed.
Theorem C52_rule_type : forall s t, rt_from_str s = ROk t <-> s = rt_display t.
Proof.
  intros s t. unfold rt_from_str. split.
  - intros H. destruct (seq_eqb s $ "approx") eqn:E1; [apply seq_eqb_eq in E1; injection H as <-; assumption|].
    destruct (seq_eqb s $ "exact") eqn:E2; [apply seq_eqb_eq in E2; injection H as <-; assumption|].
    destruct (seq_eqb s $ "rules") eqn:E3; [apply seq_eqb_eq in E3; injection H as <-; assumption|discriminate].
  - intros ->. destruct t; vm_compute; reflexivity.
Qed.
Theorem C52_rule_type_rejects : forall s, (forall t, s <> rt_display t) -> rt_from_str s = RErr (UnknownRuleType s).
Proof.
  intros s H. unfold rt_from_str.
  destruct (seq_eqb s $ "approx") eqn:E1; [apply seq_eqb_eq in E1; now elim (H Approx)|].
  destruct (seq_eqb s $ "exact") eqn:E2; [apply seq_eqb_eq in E2; now elim (H Exact)|].
  destruct (seq_eqb s $ "rules") eqn:E3; [apply seq_eqb_eq in E3; now elim (H Rules_)|reflexivity].
Qed.
(** The file of declared languages determines the name type, and conversely. *)
Theorem C52_language_filename : forall s n, nt_try_from_filename s = ROk n <-> s = language_filename n.
Proof.
  intros s n. unfold nt_try_from_filename. split.
  - intros H. destruct (seq_eqb s _) eqn:E1; [apply seq_eqb_eq in E1; injection H as <-; assumption|].
    destruct (seq_eqb s (language_filename Generic)) eqn:E2; [apply seq_eqb_eq in E2; injection H as <-; assumption|].
    destruct (seq_eqb s (language_filename Sephardic)) eqn:E3; [apply seq_eqb_eq in E3; injection H as <-; assumption|discriminate].
  - intros ->. destruct n; vm_compute; reflexivity.
Qed.
(** The name of a rule file determines what it is for. *)
Theorem C52_rule_filename_injective : forall n t l n' t' l',
  rule_filename n t l = rule_filename n' t' l' -> n = n' /\ t = t' /\ l = l'.
Proof.
  intros n t l n' t' l' H. unfold rule_filename in H.
  destruct n, n'; destruct t, t'; cbn in H; try discriminate H; injection H as H; auto.
Qed.
Example C52_nonvacuous : nt_from_str $ "gen" = ROk Generic /\ nt_from_str $ "GEN" = RErr (UnknownNameType $ "GEN").
Proof. split; reflexivity. Qed.
