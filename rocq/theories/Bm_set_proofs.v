(** * Sorted sets of texts and phonemes, language sets. *)
From Verif Require Import Base UnicodeM Lib Helper RulesParser DaitchMokotoff BmLanguages BmRegex BmRule BmEngine BaseLemmas Spec_bm.
From Coq Require Import Sorting.Sorted.
Local Open Scope N_scope.

(** ** The order of texts *)
Lemma str_cmp_refl : forall a, str_cmp a a = Eq.
Proof. induction a as [|x a IH]; [reflexivity|]. cbn [str_cmp]. now rewrite N.compare_refl. Qed.
Lemma str_cmp_eq : forall a b, str_cmp a b = Eq <-> a = b.
Proof.
  intros a b. split; [|intros ->; apply str_cmp_refl]. revert b.
  induction a as [|x a IH]; intros [|y b] H; cbn [str_cmp] in H; try discriminate; [reflexivity|].
  destruct (N.compare x y) eqn:E; try discriminate. apply N.compare_eq in E. subst y. f_equal. auto.
Qed.
Lemma str_cmp_antisym : forall a b, str_cmp b a = CompOpp (str_cmp a b).
Proof.
  induction a as [|x a IH]; intros [|y b]; cbn [str_cmp]; try reflexivity.
  rewrite N.compare_antisym. destruct (N.compare x y); cbn [CompOpp]; [apply IH|reflexivity|reflexivity].
Qed.
Lemma str_cmp_gt : forall a b, str_cmp a b = Gt <-> str_cmp b a = Lt.
Proof. intros a b. rewrite (str_cmp_antisym a b). destruct (str_cmp a b); cbn; intuition congruence. Qed.
Lemma str_cmp_trans : forall a b c, str_cmp a b = Lt -> str_cmp b c = Lt -> str_cmp a c = Lt.
Proof.
  induction a as [|x a IH]; intros [|y b] [|z c] H1 H2; cbn [str_cmp] in *; try discriminate; try reflexivity.
  destruct (N.compare x y) eqn:E1; try discriminate.
  - apply N.compare_eq in E1. subst y. destruct (N.compare x z) eqn:E2; try discriminate; [|reflexivity]. eauto.
  - destruct (N.compare y z) eqn:E2; try discriminate.
    + apply N.compare_eq in E2. subst z. now rewrite E1.
    + change (x < y) in E1. change (y < z) in E2. assert (E : x < z) by lia. change (N.compare x z = Lt) in E. now rewrite E.
Qed.
Lemma str_cmp_irrefl : forall a, str_cmp a a <> Lt.
Proof. intros a. rewrite str_cmp_refl. discriminate. Qed.

(** [str_cmp] decides the lexicographic order. *)
Lemma str_lt_lex : forall a b, str_cmp a b = Lt <-> lex_lt a b.
Proof.
  intros a b. split.
  - revert b. induction a as [|x a IH]; intros [|y b] H; cbn [str_cmp] in H; try discriminate.
    + left. exists y, b. reflexivity.
    + destruct (N.compare x y) eqn:E; try discriminate.
      * apply N.compare_eq in E. subst y. apply IH in H as [(c & r & ->)|(p & c & d & ra & rb & -> & -> & L)].
        -- left. exists c, r. reflexivity.
        -- right. exists (x :: p), c, d, ra, rb. auto.
      * right. exists [], x, y, a, b. auto.
  - intros [(c & r & ->)|(p & x & y & ra & rb & -> & -> & L)].
    + induction a as [|x a IH]; [reflexivity|]. cbn [app str_cmp]. now rewrite N.compare_refl.
    + induction p as [|z p IH]; cbn [app str_cmp]; [|now rewrite N.compare_refl].
      change (N.compare x y = Lt) in L. now rewrite L.
Qed.

(** ** Sets of texts *)
Lemma increasing_NoDup : forall l, increasing l -> NoDup l.
Proof.
  induction l as [|x l IH]; intros H; [constructor|]. destruct H as [H1 H2]. constructor; [|auto].
  intros K. apply H1, str_lt_lex in K. now apply str_cmp_irrefl in K.
Qed.
Lemma increasing_ext : forall a b, increasing a -> increasing b -> (forall x, In x a <-> In x b) -> a = b.
Proof.
  induction a as [|x a IH]; intros b Ha Hb E.
  - destruct b as [|y b]; [reflexivity|]. destruct (proj2 (E y) (or_introl eq_refl)).
  - destruct b as [|y b]; [destruct (proj1 (E x) (or_introl eq_refl))|].
    destruct Ha as [A1 A2], Hb as [B1 B2].
    assert (XY : x = y).
    { destruct (proj1 (E x) (or_introl eq_refl)) as [K|K]; [now symmetry|].
      destruct (proj2 (E y) (or_introl eq_refl)) as [K'|K']; [assumption|].
      apply B1, str_lt_lex in K. apply A1, str_lt_lex in K'. pose proof (str_cmp_trans _ _ _ K K') as C. now apply str_cmp_irrefl in C. }
    subst y. f_equal. apply IH; [assumption|assumption|]. intros z. specialize (E z). cbn [In] in E. split; intros H.
    + destruct (proj1 E (or_intror H)) as [<-|K]; [|assumption]. apply A1, str_lt_lex in H. now apply str_cmp_irrefl in H.
    + destruct (proj2 E (or_intror H)) as [<-|K]; [|assumption]. apply B1, str_lt_lex in H. now apply str_cmp_irrefl in H.
Qed.
Lemma sset_insert_In : forall x l y, In y (sset_insert x l) <-> y = x \/ In y l.
Proof.
  intros x. induction l as [|z l IH]; intros y; cbn [sset_insert].
  - cbn. intuition.
  - destruct (str_cmp x z) eqn:E; cbn [In].
    + apply str_cmp_eq in E. subst z. intuition.
    + intuition.
    + rewrite IH. cbn [In]. intuition.
Qed.
Lemma sset_insert_increasing : forall x l, increasing l -> increasing (sset_insert x l).
Proof.
  intros x. induction l as [|z l IH]; intros H; cbn [sset_insert].
  - split; [intros ? []|exact I].
  - destruct H as [H1 H2]. destruct (str_cmp x z) eqn:E.
    + now split.
    + split; [|now split]. intros y [<-|Hy]; apply str_lt_lex; [assumption|]. eapply str_cmp_trans; [exact E|]. now apply str_lt_lex, H1.
    + split; [|auto]. intros y Hy. apply sset_insert_In in Hy as [->|Hy]; [now apply str_lt_lex, str_cmp_gt|auto].
Qed.
Lemma fold_insert_In : forall l s y, In y (fold_left (fun s x => sset_insert x s) l s) <-> In y s \/ In y l.
Proof.
  induction l as [|x l IH]; intros s y; cbn [fold_left]; [cbn; tauto|]. rewrite IH, sset_insert_In. cbn [In]. intuition.
Qed.
Lemma fold_insert_increasing : forall l s, increasing s -> increasing (fold_left (fun s x => sset_insert x s) l s).
Proof. induction l as [|x l IH]; intros s H; [assumption|]. apply IH. now apply sset_insert_increasing. Qed.
Lemma sset_of_list_In : forall l y, In y (sset_of_list l) <-> In y l.
Proof. intros l y. unfold sset_of_list. rewrite fold_insert_In. cbn. tauto. Qed.
Lemma sset_of_list_increasing : forall l, increasing (sset_of_list l).
Proof. intros l. apply fold_insert_increasing. exact I. Qed.
Lemma sset_mem_In : forall x l, sset_mem x l = true <-> In x l.
Proof.
  intros x l. unfold sset_mem. rewrite existsb_exists. split.
  - intros (y & Hy & E). apply seq_eqb_eq in E. now subst.
  - intros H. exists x. split; [assumption|]. now apply seq_eqb_eq.
Qed.
Lemma sset_mem_false : forall x l, sset_mem x l = false <-> ~ In x l.
Proof. intros x l. rewrite <- sset_mem_In. destruct (sset_mem x l); intuition congruence. Qed.
Lemma sset_inter_In : forall a b x, In x (sset_inter a b) <-> In x a /\ In x b.
Proof. intros. unfold sset_inter. now rewrite filter_In, sset_mem_In. Qed.
Lemma sset_diff_In : forall a b x, In x (sset_diff a b) <-> In x a /\ ~ In x b.
Proof. intros. unfold sset_diff. now rewrite filter_In, negb_true_iff, sset_mem_false. Qed.
Lemma sset_union_In : forall a b x, In x (sset_union a b) <-> In x a \/ In x b.
Proof. intros. unfold sset_union. apply fold_insert_In. Qed.
Lemma filter_increasing : forall f l, increasing l -> increasing (filter f l).
Proof.
  intros f. induction l as [|x l IH]; intros H; [exact I|]. destruct H as [H1 H2]. cbn [filter]. destruct (f x); [|auto].
  split; [|auto]. intros y Hy. apply filter_In in Hy as [Hy _]. auto.
Qed.

(** ** The order of phonemes is that of their texts *)
Lemma zip_cmp_spec : forall a b,
  match zip_cmp a b with Eq => Nat.compare (blen a) (blen b) | c => c end = str_cmp a b.
Proof.
  induction a as [|x a IH]; intros [|y b]; cbn [zip_cmp str_cmp].
  - reflexivity.
  - cbn [blen]. pose proof (utf8_len_pos y). destruct (utf8_len y + blen b)%nat eqn:E; [lia|reflexivity].
  - cbn [blen]. pose proof (utf8_len_pos x). destruct (utf8_len x + blen a)%nat eqn:E; [lia|reflexivity].
  - destruct (x =? y) eqn:E.
    + apply N.eqb_eq in E. subst y. rewrite N.compare_refl, <- IH. cbn [blen].
      destruct (zip_cmp a b); [|reflexivity|reflexivity].
      destruct (Nat.compare_spec (utf8_len x + blen a) (utf8_len x + blen b)), (Nat.compare_spec (blen a) (blen b)); try reflexivity; lia.
    + apply N.eqb_neq in E. destruct (N.compare x y) eqn:C; try reflexivity. apply N.compare_eq in C. contradiction.
Qed.
Lemma ph_cmp_text : forall a b, ph_cmp a b = str_cmp (ph_text a) (ph_text b).
Proof. intros a b. unfold ph_cmp. apply zip_cmp_spec. Qed.

Lemma pset_insert_texts : forall x l t, In t (map ph_text (pset_insert x l)) <-> t = ph_text x \/ In t (map ph_text l).
Proof.
  intros x. induction l as [|z l IH]; intros t; cbn [pset_insert].
  - cbn. intuition.
  - rewrite ph_cmp_text. destruct (str_cmp (ph_text x) (ph_text z)) eqn:E; cbn [map In].
    + apply str_cmp_eq in E. rewrite E. intuition.
    + intuition.
    + rewrite IH. intuition.
Qed.
Lemma pset_insert_sorted : forall x l, psorted l -> psorted (pset_insert x l).
Proof.
  intros x. unfold psorted. induction l as [|z l IH]; intros H; cbn [pset_insert].
  - split; [intros ? []|exact I].
  - rewrite ph_cmp_text. destruct H as [H1 H2]. destruct (str_cmp (ph_text x) (ph_text z)) eqn:E; cbn [map].
    + now split.
    + split; [|now split]. intros y [<-|Hy]; apply str_lt_lex; [assumption|]. eapply str_cmp_trans; [exact E|]. now apply str_lt_lex, H1.
    + split; [|auto]. intros y Hy. apply pset_insert_texts in Hy as [->|Hy]; [now apply str_lt_lex, str_cmp_gt|auto].
Qed.
(** The texts evolve as a set of texts. *)
Lemma pset_insert_map : forall x l, map ph_text (pset_insert x l) = sset_insert (ph_text x) (map ph_text l).
Proof.
  intros x. induction l as [|z l IH]; [reflexivity|]. cbn [pset_insert map sset_insert]. rewrite ph_cmp_text.
  destruct (str_cmp _ _); cbn [map]; [reflexivity|reflexivity|now rewrite IH].
Qed.
Lemma pset_insert_In : forall x l y, In y (pset_insert x l) -> y = x \/ In y l.
Proof.
  intros x. induction l as [|z l IH]; intros y; cbn [pset_insert].
  - cbn. intuition.
  - destruct (ph_cmp x z); cbn [In]; [auto|intuition|]. intros [<-|H]; [auto|]. apply IH in H. tauto.
Qed.
Lemma pset_insert_length : forall x l, (length (pset_insert x l) <= S (length l))%nat.
Proof. intros x. induction l as [|z l IH]; cbn [pset_insert length]; [lia|]. destruct (ph_cmp x z); cbn [length]; lia. Qed.
Lemma pset_insert_nonempty : forall x l, pset_insert x l <> [].
Proof. intros x l. destruct l as [|z l]; cbn [pset_insert]; [discriminate|]. destruct (ph_cmp x z); discriminate. Qed.
Lemma pset_of_list_sorted : forall l, psorted (pset_of_list l).
Proof.
  intros l. unfold pset_of_list. assert (G : forall l s, psorted s -> psorted (fold_left (fun s x => pset_insert x s) l s)).
  { clear. induction l as [|x l IH]; intros s H; [assumption|]. apply IH. now apply pset_insert_sorted. }
  apply G. exact I.
Qed.
Lemma pset_of_list_length : forall l, (length (pset_of_list l) <= length l)%nat.
Proof.
  intros l. unfold pset_of_list.
  assert (G : forall l s, (length (fold_left (fun s x => pset_insert x s) l s) <= length s + length l)%nat).
  { clear. induction l as [|x l IH]; intros s; cbn [fold_left length]; [lia|].
    specialize (IH (pset_insert x s)). pose proof (pset_insert_length x s). lia. }
  specialize (G l []). cbn [length] in G. lia.
Qed.
Lemma pset_of_list_nonempty : forall l, l <> [] -> pset_of_list l <> [].
Proof.
  intros [|x l] H; [congruence|]. unfold pset_of_list. cbn [fold_left]. clear H.
  assert (G : forall l s, s <> [] -> fold_left (fun s x => pset_insert x s) l s <> []).
  { clear. induction l as [|y l IH]; intros s H; [assumption|]. apply IH. apply pset_insert_nonempty. }
  apply G. apply pset_insert_nonempty.
Qed.
Lemma pset_get_some : forall x l y, pset_get x l = Some y -> In y l /\ ph_text y = ph_text x.
Proof.
  intros x. induction l as [|z l IH]; intros y H; cbn [pset_get] in H; [discriminate|]. rewrite ph_cmp_text in H.
  destruct (str_cmp _ _) eqn:E.
  - injection H as <-. apply str_cmp_eq in E. split; [now left|now symmetry].
  - apply IH in H as [H1 H2]. split; [now right|assumption].
  - apply IH in H as [H1 H2]. split; [now right|assumption].
Qed.
Lemma pset_get_none : forall x l, pset_get x l = None -> ~ In (ph_text x) (map ph_text l).
Proof.
  intros x. induction l as [|z l IH]; intros H; cbn [pset_get map] in *; [intros []|]. rewrite ph_cmp_text in H.
  destruct (str_cmp _ _) eqn:E; [discriminate| |]; (intros [K|K]; [rewrite K, str_cmp_refl in E; discriminate|now apply IH]).
Qed.
Lemma pset_replace_present : forall x l, In (ph_text x) (map ph_text l) -> psorted l ->
  map ph_text (pset_replace x l) = map ph_text l.
Proof.
  intros x. unfold psorted. induction l as [|z l IH]; intros H S; cbn [pset_replace map] in *; [destruct H|]. destruct S as [S1 S2].
  rewrite ph_cmp_text. destruct (str_cmp (ph_text x) (ph_text z)) eqn:E; cbn [map].
  - apply str_cmp_eq in E. now rewrite E.
  - exfalso. destruct H as [H|H]; [rewrite H, str_cmp_refl in E; discriminate|]. apply S1, str_lt_lex in H.
    pose proof (str_cmp_trans _ _ _ E H) as C. now apply str_cmp_irrefl in C.
  - f_equal. apply IH; [|assumption]. destruct H as [H|H]; [rewrite H, str_cmp_refl in E; discriminate|assumption].
Qed.
Lemma pset_replace_In : forall x l y, In y (pset_replace x l) -> y = x \/ In y l.
Proof.
  intros x. induction l as [|z l IH]; intros y; cbn [pset_replace].
  - cbn. intuition.
  - destruct (ph_cmp x z); cbn [In]; [intuition|intuition|]. intros [<-|H]; [auto|]. apply IH in H. tauto.
Qed.

