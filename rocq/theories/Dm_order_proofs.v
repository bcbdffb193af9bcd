(** * Daitch-Mokotoff: all texts, and the order of the codes (lemmas). *)
From Verif Require Import Base UnicodeM Lib Helper RulesParser DaitchMokotoff BaseLemmas Spec_common Spec_dm Dm_proofs.
Local Open Scope N_scope.

(** ** Removing the branches already present *)
Definition push_all (next l : list Branch) : list Branch := fold_left push_branch l next.
Lemma push_all_app : forall a b next, push_all next (a ++ b) = push_all (push_all next a) b.
Proof. intros a b next. unfold push_all. apply fold_left_app. Qed.
Lemma push_branch_present : forall l b, In b l -> push_branch l b = l.
Proof.
  intros l b H. unfold push_branch. assert (T : existsb (fun b' => branch_eqb b' b) l = true); [|now rewrite T].
  apply existsb_exists. exists b. split; [assumption|]. now apply branch_eqb_eq.
Qed.
Lemma push_branch_absent : forall l b, ~ In b l -> push_branch l b = l ++ [b].
Proof.
  intros l b H. unfold push_branch. destruct (existsb (fun b' => branch_eqb b' b) l) eqn:T; [|reflexivity].
  exfalso. apply existsb_exists in T as (x & I & E). apply branch_eqb_eq in E. now subst x.
Qed.
Lemma push_all_In : forall l next b, In b (push_all next l) <-> In b next \/ In b l.
Proof.
  unfold push_all. induction l as [|x l IH]; intros next b; cbn [fold_left In]; [tauto|]. rewrite IH, push_branch_In. intuition.
Qed.
Lemma push_all_present : forall l next, (forall b, In b l -> In b next) -> push_all next l = next.
Proof.
  unfold push_all. induction l as [|x l IH]; intros next H; cbn [fold_left]; [reflexivity|].
  rewrite push_branch_present by (apply H; now left). apply IH. intros b Hb. apply H. now right.
Qed.
Lemma branch_in_dec : forall (b : Branch) l, In b l \/ ~ In b l.
Proof.
  intros b l. destruct (existsb (fun x => branch_eqb x b) l) eqn:E.
  - left. apply existsb_exists in E as (x & I & E). apply branch_eqb_eq in E. now subst x.
  - right. intros I. rewrite <- not_true_iff_false in E. apply E. apply existsb_exists. exists b. split; [assumption|]. now apply branch_eqb_eq.
Qed.
Lemma push_all_flat : forall (f : Branch -> list Branch) l seen,
  push_all [] (flat_map f (push_all seen l)) = push_all [] (flat_map f (seen ++ l)).
Proof.
  intros f. induction l as [|b l IH]; intros seen; cbn [push_all fold_left].
  - now rewrite app_nil_r.
  - fold (push_all (push_branch seen b) l). rewrite IH. destruct (branch_in_dec b seen) as [I|I].
    + rewrite push_branch_present by assumption. rewrite !flat_map_app. cbn [flat_map]. rewrite !push_all_app. f_equal.
      symmetry. apply push_all_present. intros x Hx. apply push_all_In. right. apply in_flat_map. now exists b.
    + rewrite push_branch_absent by assumption. now rewrite <- app_assoc.
Qed.

(** ** One step *)
Definition stepped (force : bool) (reps : list ustr) (b : Branch) : list Branch :=
  map (fun x => match process_next_replacement b x force with Ok b' => b' | _ => b end) reps.
Lemma apply_replacements_push : forall force sel reps next, sel_ascii sel -> (forall r, In r reps -> ascii_str r) ->
  apply_replacements true force (branch_of sel) reps next = Ok (push_all next (stepped force reps (branch_of sel))).
Proof.
  intros force sel. induction reps as [|x reps IH]; intros next A R; cbn [apply_replacements stepped map]; [reflexivity|].
  pose proof (process_branch_of sel x force (kept_ascii sel None A) (R x (or_introl eq_refl))) as P. rewrite P. cbn [bind].
  rewrite IH; [|assumption|intros r Hr; apply R; now right]. reflexivity.
Qed.
Lemma apply_to_branches_push : forall force reps, (forall r, In r reps -> ascii_str r) ->
  forall bs next, (forall b, In b bs -> exists sel, b = branch_of sel /\ sel_ascii sel) ->
  apply_to_branches true force bs reps next = Ok (push_all next (flat_map (stepped force reps) bs)).
Proof.
  intros force reps R. induction bs as [|b bs IH]; intros next H; cbn [apply_to_branches flat_map]; [reflexivity|].
  destruct (H b (or_introl eq_refl)) as (sel & -> & A). rewrite apply_replacements_push by assumption. cbn [bind].
  rewrite IH by (intros x Hx; apply H; now right). now rewrite push_all_app.
Qed.
Definition extend (P : list (list (ustr * bool))) (e : list ustr * bool) : list (list (ustr * bool)) :=
  flat_map (fun sel => map (fun x => sel ++ [(x, snd e)]) (fst e)) P.
Lemma step_push : forall P reps force bs, (forall sel, In sel P -> sel_ascii sel) -> (forall r, In r reps -> ascii_str r) ->
  bs = push_all [] (map branch_of P) ->
  apply_to_branches true force bs reps [] = Ok (push_all [] (map branch_of (extend P (reps, force)))).
Proof.
  intros P reps force bs A R ->. rewrite apply_to_branches_push; [|assumption|].
  - rewrite push_all_flat. cbn [app]. do 2 f_equal. clear - A R. induction P as [|sel P IH]; [reflexivity|].
    cbn [map flat_map extend]. fold (extend P (reps, force)). rewrite map_app. f_equal.
    + cbn [fst snd]. unfold stepped. rewrite map_map. apply map_ext_in. intros x Hx.
      rewrite (process_branch_of sel x force); [reflexivity| |now apply R]. apply kept_ascii. apply A. now left.
    + apply IH. intros s Hs. apply A. now right.
  - intros b Hb. apply push_all_In in Hb as [[]|Hb]. apply in_map_iff in Hb as (sel & <- & I). exists sel. split; [reflexivity|]. now apply A.
Qed.
Lemma extend_all : forall ev P, fold_left extend ev P = flat_map (fun p => map (app p) (selections ev)) P.
Proof.
  induction ev as [|[rs mn] ev IH]; intros P; cbn [fold_left selections].
  - cbn [map]. induction P as [|p P IHP]; [reflexivity|]. cbn [flat_map app]. now rewrite <- IHP, app_nil_r.
  - rewrite IH. unfold extend. cbn [fst snd]. induction P as [|p P IHP]; [reflexivity|]. cbn [flat_map]. rewrite flat_map_app, IHP. f_equal.
    clear. induction rs as [|r rs IH]; [reflexivity|]. cbn [map flat_map]. rewrite map_app, IH. f_equal. rewrite map_map.
    apply map_ext. intros x. now rewrite <- app_assoc.
Qed.
Lemma selections_iff : forall ev sel, In sel (selections ev) <-> selection ev sel.
Proof.
  unfold selection. induction ev as [|[rs mn] ev IH]; intros sel; cbn [selections].
  - split; [intros [<-|[]]; constructor|]. intros H. inversion H; subst. now left.
  - rewrite in_flat_map. split.
    + intros (r & I & H). apply in_map_iff in H as (s & <- & H). constructor; [now split|]. now apply IH.
    + intros H. inversion H as [|? [r b] ? s [H1 H2] H3]; subst. cbn [fst snd] in *. subst b. exists r. split; [assumption|].
      apply in_map. now apply IH.
Qed.
Lemma selections_first : forall ev, (forall e, In e ev -> fst e <> []) -> hd_error (selections ev) = Some (first_selection ev).
Proof.
  induction ev as [|[rs mn] ev IH]; intros H; [reflexivity|]. cbn [selections first_selection map fst snd].
  destruct rs as [|r rs]; [elim (H ([], mn) (or_introl eq_refl)); reflexivity|]. cbn [flat_map hd].
  specialize (IH (fun e He => H e (or_intror He))). destruct (selections ev) as [|s l]; [discriminate|]. injection IH as ->. reflexivity.
Qed.

(** ** The scan *)
Lemma get_replacements_any : forall r context at_start,
  get_replacements r context at_start = choose_replacements r at_start (skipn (blen (r_pattern r)) context).
Proof.
  intros r context at_start. unfold get_replacements, choose_replacements. destruct at_start; [reflexivity|].
  unfold nth_char. set (n := blen (r_pattern r)). clearbody n.
  assert (H : starts_with_vowel (skipn n context) = is_vowel (nth_error context n) false).
  { revert context. induction n as [|n IH]; intros [|c s]; cbn [skipn nth_error starts_with_vowel is_vowel]; try reflexivity; [|apply IH].
    cbn [andb]. now rewrite orb_false_r. }
  rewrite H. destruct (nth_error context n) as [x|] eqn:E.
  - assert (L : (n < length context)%nat) by (apply nth_error_Some; congruence).
    assert (B : (length context <= blen context)%nat).
    { clear. induction context as [|c s IH]; cbn [length blen]; [lia|]. pose proof (utf8_len_pos c). lia. }
    replace (Nat.ltb n (blen context)) with true by (symmetry; apply Nat.ltb_lt; lia). reflexivity.
  - cbn [is_vowel]. rewrite andb_false_r. reflexivity.
Qed.
Lemma skip_any : forall p c s, p = c :: tl p -> skipn (blen p - 1) s = skipn (blen p) (c :: s).
Proof.
  intros p c s E. assert (B : (1 <= blen p)%nat).
  { rewrite E. cbn [blen]. pose proof (utf8_len_pos c). lia. }
  destruct (blen p) as [|n]; [lia|]. cbn [skipn Nat.sub]. now rewrite Nat.sub_0_r.
Qed.
Lemma loop_any : forall d tbl, holds_table d tbl -> table_ok tbl ->
  forall prev s ev, dm_scan_any tbl prev s ev ->
  forall P, (forall sel, In sel P -> sel_ascii sel) ->
  dms_loop d true 0 prev (push_all [] (map branch_of P)) s = Ok (push_all [] (map branch_of (fold_left extend ev P)))
  /\ (forall sel, In sel (fold_left extend ev P) -> sel_ascii sel)
  /\ (forall e, In e ev -> replacements_ok (fst e)).
Proof.
  intros d tbl HT OK prev s ev H.
  induction H as [prev|prev c s ev H1 _ IH|prev c s ev H1 H2 _ IH|prev c s r rest ev H1 H2 _ IH]; intros P A.
  - split; [reflexivity|]. split; [assumption|]. intros e [].
  - cbn [dms_loop]. rewrite HT, H1. now apply IH.
  - cbn [dms_loop]. rewrite HT. destruct (tbl c) as [|x l] eqn:T; [congruence|]. cbv iota.
    rewrite (proj2 (find_sorted_none _ _) H2). now apply IH.
  - cbn [dms_loop]. rewrite HT. pose proof (best_rule_In _ _ _ H1) as I.
    destruct (tbl c) as [|x l] eqn:T; [destruct I|]. cbv iota. rewrite <- T in *.
    rewrite (best_rule_find _ _ _ H1). cbv iota.
    rewrite get_replacements_any, <- H2.
    pose proof (choose_ok tbl c r (prev =? 0) rest OK I) as CO. destruct CO as [CN CA].
    match goal with |- context[apply_to_branches true ?f _ _ []] => set (force := f) end.
    rewrite (step_push P _ force _ A CA eq_refl). cbn [bind fold_left].
    destruct (OK c r I) as ((p & Hp) & _).
    rewrite dms_loop_skip, (skip_any (r_pattern r) c s) by (rewrite Hp; reflexivity). rewrite <- H2.
    assert (A' : forall sel, In sel (extend P (choose_replacements r (prev =? 0) rest, force)) -> sel_ascii sel).
    { intros sel K. unfold extend in K. apply in_flat_map in K as (s0 & I0 & K). apply in_map_iff in K as (y & <- & Iy). cbn [fst snd] in *.
      intros y' f' K. apply in_app_or in K as [K|[K|[]]]; [now apply (A s0 I0 y' f')|]. injection K as <- <-. now apply CA. }
    destruct (IH _ A') as (E1 & E2 & E3). split; [exact E1|]. split; [exact E2|].
    intros e [<-|He]; [now split|now apply E3].
Qed.
Lemma loop_any_first : forall d tbl, holds_table d tbl -> table_ok tbl ->
  forall prev s ev, dm_scan_any tbl prev s ev -> forall sel, sel_ascii sel ->
  dms_loop d false 0 prev [branch_of sel] s = Ok [branch_of (sel ++ first_selection ev)].
Proof.
  intros d tbl HT OK prev s ev H.
  induction H as [prev|prev c s ev H1 _ IH|prev c s ev H1 H2 _ IH|prev c s r rest ev H1 H2 _ IH]; intros sel SA.
  - cbn [first_selection map]. now rewrite app_nil_r.
  - cbn [dms_loop]. rewrite HT, H1. now apply IH.
  - cbn [dms_loop]. rewrite HT. destruct (tbl c) as [|x l] eqn:T; [congruence|]. cbv iota.
    rewrite (proj2 (find_sorted_none _ _) H2). now apply IH.
  - cbn [dms_loop]. rewrite HT. pose proof (best_rule_In _ _ _ H1) as I.
    destruct (tbl c) as [|x l] eqn:T; [destruct I|]. cbv iota. rewrite <- T in *.
    rewrite (best_rule_find _ _ _ H1). cbv iota.
    rewrite get_replacements_any, <- H2.
    pose proof (choose_ok tbl c r (prev =? 0) rest OK I) as CO.
    match goal with |- context[apply_to_branches false ?f _ _ []] => set (force := f) end.
    rewrite apply_first by assumption. cbn [bind].
    destruct (OK c r I) as ((p & Hp) & _).
    rewrite dms_loop_skip, (skip_any (r_pattern r) c s) by (rewrite Hp; reflexivity). rewrite <- H2, IH.
    + rewrite <- app_assoc. reflexivity.
    + intros y f K. apply in_app_or in K as [K|[K|[]]]; [now apply (SA y f)|]. injection K as <- <-.
      destruct CO as [CN CA]. destruct (choose_replacements r (prev =? 0) rest); [congruence|]. apply CA. now left.
Qed.

(** ** The selections that are kept *)
Lemma branch_of_last : forall sel, br_last (branch_of sel) = hd_error (rev (map fst sel)).
Proof. intros sel. unfold branch_of. cbn [br_last]. rewrite <- map_rev. now destruct (rev sel) as [|[r f] l]. Qed.
Lemma indistinct_branch : forall a b, indistinct a b <-> branch_of a = branch_of b.
Proof.
  intros a b. unfold indistinct. rewrite <- !branch_of_last. split.
  - intros [H1 H2]. unfold branch_of in *. cbn [br_last] in H2. now rewrite H1, H2.
  - intros H. split; [|now rewrite H]. exact (f_equal br_builder H).
Qed.
Lemma first_of_each_branches : forall l, exists k, first_of_each indistinct l k /\ map branch_of k = push_all [] (map branch_of l).
Proof.
  induction l as [|a l IH] using rev_ind; [exists []; split; [constructor|reflexivity]|].
  destruct IH as (k & H & E). rewrite map_app, push_all_app, <- E. cbn [map push_all fold_left].
  destruct (branch_in_dec (branch_of a) (map branch_of k)) as [I|I].
  - exists k. split.
    + apply in_map_iff in I as (x & X & I). apply fe_drop with x; [assumption|assumption|now apply indistinct_branch].
    + now rewrite push_branch_present.
  - exists (k ++ [a]). split.
    + apply fe_keep; [assumption|]. intros x Hx R. apply I. apply indistinct_branch in R. rewrite <- R. now apply in_map.
    + rewrite push_branch_absent by assumption. now rewrite map_app.
Qed.
Lemma first_of_each_incl : forall A (R : A -> A -> Prop) l k, first_of_each R l k -> forall x, In x k -> In x l.
Proof.
  intros A R l k H. induction H; intros y Hy; [destruct Hy| |].
  - apply in_app_or in Hy as [Hy|Hy]; apply in_or_app; [left; auto|now right].
  - apply in_or_app. left. auto.
Qed.
Lemma first_of_each_unique : forall A (R : A -> A -> Prop) l k, first_of_each R l k -> forall k', first_of_each R l k' -> k = k'.
Proof.
  intros A R l k H. induction H as [|l k a H IH N|l k a x H IH I X]; intros k' H'.
  - inversion H' as [E|l' k'' a' H1 N1 E|l' k'' a' x' H1 I1 X1 E]; [reflexivity| |]; destruct l'; discriminate E.
  - inversion H' as [E|l' k'' a' H1 N1 E|l' k'' a' x' H1 I1 X1 E]; subst.
    + destruct l; discriminate E.
    + apply app_inj_tail in E as [-> ->]. f_equal. now apply IH.
    + apply app_inj_tail in E as [-> ->]. rewrite <- (IH _ H1) in I1. elim (N x' I1). assumption.
  - inversion H' as [E|l' k'' a' H1 N1 E|l' k'' a' x' H1 I1 X1 E]; subst.
    + destruct l; discriminate E.
    + apply app_inj_tail in E as [-> ->]. rewrite <- (IH _ H1) in N1. elim (N1 x I). assumption.
    + apply app_inj_tail in E as [-> ->]. now apply IH.
Qed.
Lemma first_of_each_distinct : forall l k, first_of_each indistinct l k -> forall i j a b, i <> j ->
  nth_error k i = Some a -> nth_error k j = Some b -> ~ indistinct a b.
Proof.
  intros l k H.
  assert (ND : NoDup (map branch_of k)).
  { induction H as [|l k a H IH N|l k a x H IH I X]; [constructor| |assumption]. rewrite map_app. cbn [map].
    apply NoDup_Add with (a := branch_of a) (l := map branch_of k); [|split; [assumption|]].
    - rewrite <- (app_nil_r (map branch_of k)) at 1. apply Add_app.
    - intros I. apply in_map_iff in I as (x & X & I). apply (N x I). now apply indistinct_branch. }
  intros i j a b NE Hi Hj X. apply indistinct_branch in X. apply NE.
  apply (proj1 (NoDup_nth_error (map branch_of k)) ND).
  - rewrite map_length. apply nth_error_Some. congruence.
  - rewrite !nth_error_map, Hi, Hj. cbn. now rewrite X.
Qed.

(** ** The scan of ASCII texts, existence, unicity *)
Lemma ascii_scan_any : forall tbl prev s ev, ascii_str s -> dm_scan tbl prev s ev -> dm_scan_any tbl prev s ev.
Proof.
  intros tbl prev s ev A H. induction H as [prev|prev c s ev H1 _ IH|prev c s ev H1 H2 _ IH|prev c s r rest ev H1 H2 _ IH].
  - constructor.
  - apply any_unknown; [assumption|]. apply IH. now apply ascii_str_cons in A.
  - apply any_nomatch; [assumption|assumption|]. apply IH. now apply ascii_str_cons in A.
  - rewrite H2 in A. apply ascii_str_app in A as [A1 A2]. apply any_rule; [assumption| |now apply IH].
    rewrite H2, ascii_blen by assumption. now rewrite skipn_app_exact.
Qed.
Lemma scan_any_exists : forall tbl, table_ok tbl -> forall n s prev, (length s <= n)%nat -> exists ev, dm_scan_any tbl prev s ev.
Proof.
  intros tbl OK. induction n as [|n IH]; intros s prev L.
  - destruct s; [exists []; constructor|cbn in L; lia].
  - destruct s as [|c s]; [exists []; constructor|]. cbn in L.
    destruct (tbl c) as [|x l] eqn:T.
    + destruct (IH s prev ltac:(lia)) as [ev H]. exists ev. now apply any_unknown.
    + destruct (find (fun r => rule_matches r (c :: s)) (sort_rules (tbl c))) as [r|] eqn:F.
      * apply find_sorted_some in F. destruct (OK c r (best_rule_In _ _ _ F)) as ((p & Hp) & _).
        destruct (IH (skipn (blen (r_pattern r)) (c :: s)) c) as [ev H].
        { rewrite <- (skip_any (r_pattern r) c s) by (rewrite Hp; reflexivity). rewrite skipn_length. lia. }
        eexists. eapply any_rule; [eassumption|reflexivity|eassumption].
      * apply find_sorted_none in F. destruct (IH s c ltac:(lia)) as [ev H]. exists ev.
        apply any_nomatch; [congruence|assumption|assumption].
Qed.
Lemma best_rule_text : forall l s r, best_rule l s r -> exists rest, s = r_pattern r ++ rest.
Proof. intros l s r (l1 & l2 & _ & H & _). exact H. Qed.
Lemma scan_any_unique : forall tbl prev s ev, dm_scan_any tbl prev s ev -> forall ev', dm_scan_any tbl prev s ev' -> ev = ev'.
Proof.
  intros tbl prev s ev H.
  induction H as [prev|prev c s ev H1 _ IH|prev c s ev H1 H2 _ IH|prev c s r rest ev H1 H2 _ IH]; intros ev' H'.
  - inversion H'; reflexivity.
  - inversion H' as [|? ? ? ? K1 K2|? ? ? ? K1 K2 K3|? ? ? r' rest' ? K1 K2 K3]; subst; [auto|congruence|].
    apply best_rule_In in K1. rewrite H1 in K1. destruct K1.
  - inversion H' as [|? ? ? ? K1 K2|? ? ? ? K1 K2 K3|? ? ? r' rest' ? K1 K2 K3]; subst; [congruence|auto|].
    exfalso. destruct (best_rule_text _ _ _ K1) as [q Q]. eapply H2; [apply (best_rule_In _ _ _ K1)|exact Q].
  - inversion H' as [|? ? ? ? K1 K2|? ? ? ? K1 K2 K3|? ? ? r' rest' ? K1 K2 K3]; subst.
    + apply best_rule_In in H1. rewrite K1 in H1. destruct H1.
    + exfalso. destruct (best_rule_text _ _ _ H1) as [q Q]. eapply K2; [apply (best_rule_In _ _ _ H1)|exact Q].
    + assert (r' = r).
      { apply best_rule_find in K1. apply best_rule_find in H1. congruence. }
      subst r'. f_equal. now apply IH.
Qed.
