(** * Proofs about the Daitch-Mokotoff encoder. *)
From Verif Require Import Base UnicodeM Lib Helper RulesParser DaitchMokotoff BaseLemmas Spec_common Spec_dm
  Soundex_proofs UnicodeLemmas DoubleMetaphone_proofs.
Local Open Scope N_scope.

Lemma Ok_inj : forall A (a b : A), Ok a = Ok b -> a = b.
Proof. intros A a b H. now injection H. Qed.

(** ** The sorted rules *)
Lemma prefix_lengths : forall s a b ra rb, s = a ++ ra -> s = b ++ rb ->
  (blen a <= blen b)%nat <-> (length a <= length b)%nat.
Proof.
  intros s a b ra rb Ha Hb.
  assert (E : forall a b ra rb : ustr, a ++ ra = b ++ rb -> (length a <= length b)%nat -> exists c, b = a ++ c).
  { clear. induction a as [|x a IH]; intros b ra rb H L; [exists b; reflexivity|]. destruct b as [|y b]; [exfalso; cbn [length] in L; lia|].
    injection H as <- H. destruct (IH b ra rb H ltac:(cbn [length] in L; lia)) as [c ->]. exists c. reflexivity. }
  assert (S : forall c : ustr, (1 <= length c)%nat -> (1 <= blen c)%nat) by (intros c Hc; pose proof (length_le_blen c); lia).
  split; intros H.
  - destruct (Nat.le_gt_cases (length a) (length b)) as [L|L]; [assumption|]. exfalso.
    destruct (E b a rb ra ltac:(congruence) ltac:(lia)) as [c ->]. rewrite blen_app in H. rewrite app_length in L.
    specialize (S c ltac:(lia)). lia.
  - destruct (E a b ra rb ltac:(congruence) H) as [c ->]. rewrite blen_app. lia.
Qed.


(** Sorted: decreasing byte length. *)
Fixpoint decreasing (l : list Rule) : Prop :=
  match l with
  | [] => True
  | x :: r => (forall y, In y r -> (blen (r_pattern y) <= blen (r_pattern x))%nat) /\ decreasing r
  end.
Lemma insert_In : forall x l y, In y (insert_rule x l) <-> y = x \/ In y l.
Proof.
  intros x. induction l as [|z l IH]; intros y; cbn [insert_rule].
  - cbn. intuition.
  - destruct (Nat.leb _ _); cbn [In]; [intuition|]. rewrite IH. cbn [In]. intuition.
Qed.
Lemma sort_In : forall l y, In y (sort_rules l) <-> In y l.
Proof.
  induction l as [|x l IH]; intros y; [reflexivity|]. cbn [sort_rules In]. rewrite insert_In, IH. intuition.
Qed.
Lemma insert_decreasing : forall x l, decreasing l -> decreasing (insert_rule x l).
Proof.
  intros x. induction l as [|z l IH]; intros D; cbn [insert_rule]; [cbn; split; [intros ? []|exact I]|].
  destruct D as [D1 D2]. destruct (Nat.leb _ _) eqn:E.
  - apply Nat.leb_le in E. cbn. split; [|split; assumption]. intros y [<-|Hy]; [assumption|].
    specialize (D1 y Hy). lia.
  - apply Nat.leb_gt in E. cbn. split; [|now apply IH]. intros y Hy. apply insert_In in Hy as [->|Hy]; [lia|auto].
Qed.
Lemma sort_decreasing : forall l, decreasing (sort_rules l).
Proof. induction l as [|x l IH]; [exact I|]. apply insert_decreasing, IH. Qed.

Lemma find_insert : forall s x l, decreasing l ->
  find (fun r => rule_matches r s) (insert_rule x l)
  = match find (fun r => rule_matches r s) l with
    | None => if rule_matches x s then Some x else None
    | Some y => if rule_matches x s && Nat.leb (blen (r_pattern y)) (blen (r_pattern x)) then Some x else Some y
    end.
Proof.
  intros s x. induction l as [|z l IH]; intros D; cbn [insert_rule].
  - reflexivity.
  - destruct D as [D1 D2]. destruct (Nat.leb (blen (r_pattern z)) (blen (r_pattern x))) eqn:E.
    + cbn [find]. destruct (rule_matches x s); cbn [andb].
      * destruct (rule_matches z s); [now rewrite E|].
        destruct (find _ l) as [y|] eqn:F; [|reflexivity]. apply find_some in F as [F _]. apply D1 in F.
        apply Nat.leb_le in E. replace (Nat.leb _ _) with true; [reflexivity|]. symmetry. apply Nat.leb_le. lia.
      * destruct (rule_matches z s); [reflexivity|]. destruct (find _ l); reflexivity.
    + cbn [find]. destruct (rule_matches z s); [|now apply IH]. rewrite E. now rewrite andb_false_r.
Qed.

Lemma rule_matches_spec : forall r s, rule_matches r s = true <-> exists rest, s = r_pattern r ++ rest.
Proof. intros. apply starts_with_spec. Qed.

Lemma find_sorted_some : forall s l r, find (fun r => rule_matches r s) (sort_rules l) = Some r -> best_rule l s r.
Proof.
  intros s. induction l as [|x l IH]; intros r H; [discriminate|]. cbn [sort_rules] in H.
  rewrite find_insert in H by apply sort_decreasing.
  destruct (find _ (sort_rules l)) as [y|] eqn:F.
  - pose proof (IH y eq_refl) as (l1 & l2 & -> & My & H1 & H2).
    destruct (rule_matches x s) eqn:Mx; cbn [andb] in H.
    + apply rule_matches_spec in Mx. destruct (Nat.leb _ _) eqn:L.
      * injection H as <-. apply Nat.leb_le in L. exists [], (l1 ++ y :: l2). split; [reflexivity|].
        split; [assumption|]. split; [intros ? []|].
        destruct Mx as [rx Mx]. destruct My as [ry My].
        pose proof (proj1 (prefix_lengths s (r_pattern y) (r_pattern x) ry rx My Mx) L) as Lyx.
        intros z Hz Mz. apply in_app_or in Hz as [Hz|[<-|Hz]]; [specialize (H1 z Hz Mz); lia|lia|specialize (H2 z Hz Mz); lia].
      * injection H as <-. apply Nat.leb_gt in L. exists (x :: l1), l2. split; [reflexivity|]. split; [assumption|].
        split; [|assumption]. intros z [<-|Hz] Mz; [|auto].
        destruct Mx as [rx Mx]. destruct My as [ry My].
        pose proof (prefix_lengths s (r_pattern y) (r_pattern x) ry rx My Mx) as P.
        destruct (Nat.le_gt_cases (length (r_pattern y)) (length (r_pattern x))) as [K|K]; [apply P in K; lia|lia].
    + injection H as <-. exists (x :: l1), l2. split; [reflexivity|]. split; [assumption|]. split; [|assumption].
      intros z [<-|Hz] Mz; [|auto]. apply rule_matches_spec in Mz. congruence.
  - destruct (rule_matches x s) eqn:Mx; [|discriminate]. injection H as <-.
    exists [], l. split; [reflexivity|]. split; [now apply rule_matches_spec|]. split; [intros ? []|].
    intros z Hz Mz. apply rule_matches_spec in Mz. apply find_none with (x := z) in F; [congruence|now apply sort_In].
Qed.
Lemma find_sorted_none : forall s l, find (fun r => rule_matches r s) (sort_rules l) = None <-> no_rule l s.
Proof.
  intros s l. split.
  - intros F x rest Hx E. apply find_none with (x := x) in F; [|now apply sort_In].
    assert (K : rule_matches x s = true) by (apply rule_matches_spec; eauto). congruence.
  - intros H. destruct (find _ _) as [r|] eqn:F; [|reflexivity]. apply find_some in F as [F1 F2].
    apply rule_matches_spec in F2 as [rest F2]. now elim (H r rest (proj1 (sort_In l r) F1)).
Qed.
Lemma best_rule_unique : forall l s r r', best_rule l s r -> best_rule l s r' -> r = r'.
Proof.
  intros l s r r' (a1 & a2 & Ha & Ma & A1 & A2) (b1 & b2 & Hb & Mb & B1 & B2).
  rewrite Ha in Hb. clear Ha l. revert b1 Hb B1. induction a1 as [|x a1 IH]; intros b1 Hb B1.
  - destruct b1 as [|y b1]; [now injection Hb|]. injection Hb as <- ->.
    specialize (B1 r (or_introl eq_refl) Ma).
    specialize (A2 r' ltac:(apply in_or_app; right; now left) Mb). lia.
  - destruct b1 as [|y b1].
    + injection Hb as -> <-. specialize (A1 r' (or_introl eq_refl) Mb).
      specialize (B2 r ltac:(apply in_or_app; right; now left) Ma). lia.
    + injection Hb as <- Hb. apply (IH (fun z Hz => A1 z (or_intror Hz)) b1 Hb). intros z Hz. apply B1. now right.
Qed.
Lemma best_rule_find : forall s l r, best_rule l s r -> find (fun r => rule_matches r s) (sort_rules l) = Some r.
Proof.
  intros s l r H. destruct (find _ _) as [r'|] eqn:F.
  - f_equal. apply find_sorted_some in F. eapply best_rule_unique; eassumption.
  - exfalso. apply find_sorted_none in F. destruct H as (l1 & l2 & -> & [rest E] & _).
    eapply F; [|exact E]. apply in_or_app. right. now left.
Qed.

(** ** Branches *)
Lemma branch_eqb_eq : forall a b, branch_eqb a b = true <-> a = b.
Proof.
  intros [a1 a2] [b1 b2]. unfold branch_eqb. cbn [br_builder br_last]. rewrite andb_true_iff, seq_eqb_eq.
  destruct a2 as [x|], b2 as [y|].
  - rewrite seq_eqb_eq. split; [intros [-> ->]; reflexivity|intros H; injection H; auto].
  - split; [intros [_ H]; discriminate|discriminate].
  - split; [intros [_ H]; discriminate|discriminate].
  - split; [intros [-> _]; reflexivity|intros H; injection H; auto].
Qed.
Lemma push_branch_In : forall l b x, In x (push_branch l b) <-> In x l \/ x = b.
Proof.
  intros l b x. unfold push_branch. destruct (existsb _ l) eqn:E.
  - apply existsb_exists in E as (y & Hy & E). apply branch_eqb_eq in E. subst y. split; [auto|].
    intros [H| ->]; assumption.
  - rewrite in_app_iff. cbn. intuition.
Qed.
Lemma push_branch_NoDup : forall l b, NoDup l -> NoDup (push_branch l b).
Proof.
  intros l b H. unfold push_branch. destruct (existsb _ l) eqn:E; [assumption|].
  assert (K : ~ In b l).
  { intros Hb. assert (T : existsb (fun b' => branch_eqb b' b) l = true).
    { apply existsb_exists. exists b. split; [assumption|]. now apply branch_eqb_eq. }
    congruence. }
  clear E. induction H as [|x l Hx Hl IH]; cbn [app]; [constructor; [intros []|constructor]|].
  constructor.
  - rewrite in_app_iff. cbn. intros [A|[A|[]]]; [contradiction|]. subst. apply K. now left.
  - apply IH. intros A. apply K. now right.
Qed.
Lemma push_branch_hd : forall l b, l <> [] -> hd_error (push_branch l b) = hd_error l.
Proof. intros l b H. unfold push_branch. destruct (existsb _ l); [reflexivity|]. destruct l; [congruence|reflexivity]. Qed.
Lemma push_branch_nonempty : forall l b, push_branch l b <> [].
Proof. intros l b H. assert (K : In b (push_branch l b)) by (apply push_branch_In; auto). rewrite H in K. destruct K. Qed.

(** ** encode is the first code of soundex *)
Definition first_only (bs bs1 : list Branch) : Prop :=
  bs1 = match bs with [] => [] | b :: _ => [b] end.
Lemma apply_replacements_keeps_hd : forall force b reps next r, next <> [] ->
  apply_replacements true force b reps next = Ok r -> r <> [] /\ hd_error r = hd_error next.
Proof.
  intros force b. induction reps as [|x reps IH]; intros next r N H; cbn [apply_replacements] in H.
  - injection H as <-. auto.
  - apply bind_Ok in H as (nb & _ & H). apply IH in H as [H1 H2]; [|apply push_branch_nonempty].
    split; [assumption|]. rewrite H2. now apply push_branch_hd.
Qed.
Lemma apply_to_branches_keeps_hd : forall force reps bs next r, next <> [] ->
  apply_to_branches true force bs reps next = Ok r -> r <> [] /\ hd_error r = hd_error next.
Proof.
  intros force reps. induction bs as [|b bs IH]; intros next r N H; cbn [apply_to_branches] in H.
  - injection H as <-. auto.
  - apply bind_Ok in H as (n2 & H1 & H). apply apply_replacements_keeps_hd in H1 as [N2 E2]; [|assumption].
    apply IH in H as [H3 H4]; [|assumption]. split; [assumption|congruence].
Qed.
Lemma apply_to_branches_first : forall force reps bs bs1 r, first_only bs bs1 ->
  apply_to_branches true force bs reps [] = Ok r ->
  exists r1, apply_to_branches false force bs1 reps [] = Ok r1 /\ first_only r r1.
Proof.
  intros force reps bs bs1 r F H. unfold first_only in F. subst bs1. destruct bs as [|b bs].
  - injection H as <-. exists []. split; reflexivity.
  - cbn [apply_to_branches] in *. apply bind_Ok in H as (next & H1 & H2). destruct reps as [|x reps].
    + cbn [apply_replacements] in H1. injection H1 as <-. exists []. split; [reflexivity|].
      assert (K : r = []).
      { clear - H2. revert r H2. induction bs as [|b bs IH]; intros r H; cbn in H; [now injection H|auto]. }
      now rewrite K.
    + cbn [apply_replacements] in H1 |- *. apply bind_Ok in H1 as (nb & E & H1). rewrite E. cbn [bind].
      exists [nb]. split; [reflexivity|].
      apply apply_replacements_keeps_hd in H1 as [N1 E1]; [|apply push_branch_nonempty].
      apply apply_to_branches_keeps_hd in H2 as [N2 E2]; [|assumption].
      rewrite E1 in E2. cbn in E2. unfold first_only. destruct r as [|y r]; [congruence|]. now injection E2 as ->.
Qed.
Lemma dms_loop_first : forall d s k last bs bs1 r, first_only bs bs1 ->
  dms_loop d true k last bs s = Ok r ->
  exists r1, dms_loop d false k last bs1 s = Ok r1 /\ first_only r r1.
Proof.
  intros d. induction s as [|c s IH]; intros k last bs bs1 r F H; cbn [dms_loop] in *.
  - injection H as <-. eauto.
  - destruct k as [|k]; [|eauto]. destruct (assoc c (dms_rules d)) as [rules|]; [|eauto].
    destruct (find _ rules) as [rule|]; [|eauto].
    apply bind_Ok in H as (next & H1 & H). eapply apply_to_branches_first in H1 as (n1 & E1 & F1); [|exact F].
    rewrite E1. cbn [bind]. eauto.
Qed.

(** ** One branch *)
Definition branch_of (sel : list (ustr * bool)) : Branch :=
  {| br_builder := firstn 6 (kept None sel);
     br_last := match rev sel with [] => None | (r, _) :: _ => Some r end |}.
Lemma kept_snoc : forall sel prev r f,
  kept prev (sel ++ [(r, f)])
  = kept prev sel ++
    (if match match rev sel with [] => prev | (p, _) :: _ => Some p end with
        | None => true | Some p => negb (ends_with p r) end || f then r else []).
Proof.
  induction sel as [|[x g] sel IH]; intros prev r f; cbn [app kept rev].
  - now rewrite app_nil_r.
  - rewrite IH. rewrite app_assoc. f_equal.
    destruct (rev sel) as [|[p h] l]; reflexivity.
Qed.
Lemma process_branch_of : forall sel r f, ascii_str (kept None sel) -> ascii_str r ->
  process_next_replacement (branch_of sel) r f = Ok (branch_of (sel ++ [(r, f)])).
Proof.
  intros sel r f A R. unfold process_next_replacement, branch_of. cbn [br_builder br_last].
  rewrite kept_snoc, rev_app_distr. cbn [rev app].
  rewrite ascii_blen, firstn_length by (now apply ascii_str_firstn).
  match goal with |- context[(?x || f) && _] => set (ap := x) end.
  clearbody ap. destruct (ap || f); cbn [andb].
  - destruct (Nat.ltb (Nat.min 6 (length (kept None sel))) MAX_LENGTH) eqn:L.
    + apply Nat.ltb_lt in L. unfold MAX_LENGTH in L. rewrite (firstn_all2 (n := 6) (kept None sel)) by lia.
      rewrite ascii_blen by (apply ascii_str_app; auto). destruct (Nat.ltb MAX_LENGTH _) eqn:L2.
      * apply Nat.ltb_lt in L2. unfold MAX_LENGTH in *.
        rewrite slice_ascii by (try (apply ascii_str_app; auto); lia). reflexivity.
      * apply Nat.ltb_ge in L2. unfold MAX_LENGTH in *. rewrite firstn_all2 by assumption. reflexivity.
    + apply Nat.ltb_ge in L. unfold MAX_LENGTH in L. cbn [bind].
      rewrite firstn_app. replace (6 - length (kept None sel))%nat with 0%nat by lia.
      cbn [firstn]. now rewrite app_nil_r.
  - cbn [bind]. now rewrite app_nil_r.
Qed.
Lemma br_finish_code : forall sel, ascii_str (kept None sel) -> br_finish (branch_of sel) = dm_code sel.
Proof.
  intros sel A. unfold br_finish, branch_of, dm_code, pad_to. cbn [br_builder].
  rewrite ascii_blen, firstn_length by (now apply ascii_str_firstn). unfold MAX_LENGTH.
  rewrite firstn_app. f_equal.
  assert (K : forall n m, firstn n (repeat (# "0") m) = repeat (# "0") (Nat.min n m)).
  { induction n as [|n IH]; intros [|m]; cbn; auto. f_equal. apply IH. }
  rewrite K. f_equal. lia.
Qed.

(** ** All branches: selections *)
Definition sel_ascii (sel : list (ustr * bool)) : Prop := forall r f, In (r, f) sel -> ascii_str r.
Lemma kept_ascii : forall sel prev, sel_ascii sel -> ascii_str (kept prev sel).
Proof.
  induction sel as [|[r f] sel IH]; intros prev H; cbn [kept]; [apply ascii_str_nil|].
  apply ascii_str_app. split.
  - destruct (_ || f); [|apply ascii_str_nil]. apply (H r f). now left.
  - apply IH. intros x g Hx. apply (H x g). now right.
Qed.
Definition represents (P : list (ustr * bool) -> Prop) (bs : list Branch) : Prop :=
  forall b, In b bs <-> exists sel, P sel /\ b = branch_of sel.

Lemma apply_replacements_spec : forall force sel reps next, sel_ascii sel -> (forall r, In r reps -> ascii_str r) ->
  exists r, apply_replacements true force (branch_of sel) reps next = Ok r
   /\ (forall b, In b r <-> In b next \/ exists x, In x reps /\ b = branch_of (sel ++ [(x, force)]))
   /\ (NoDup next -> NoDup r).
Proof.
  intros force sel. induction reps as [|x reps IH]; intros next A R; cbn [apply_replacements].
  - exists next. split; [reflexivity|]. split; [|auto]. intros b. split; [auto|]. intros [H|(x & [] & _)]; assumption.
  - rewrite process_branch_of; [|now apply kept_ascii|apply R; now left]. cbn [bind].
    destruct (IH (push_branch next (branch_of (sel ++ [(x, force)]))) A (fun r Hr => R r (or_intror Hr)))
      as (r & E & H & D).
    exists r. split; [exact E|]. split; [|intros N; now apply D, push_branch_NoDup]. intros b. rewrite H, push_branch_In. split.
    + intros [[K|K]|(y & Hy & K)]; [now left| |]; right; [exists x|exists y]; (split; [|assumption]); [now left|now right].
    + intros [K|(y & [<-|Hy] & K)]; [auto|auto|]. right. eauto.
Qed.
Lemma apply_to_branches_spec : forall force reps, (forall r, In r reps -> ascii_str r) ->
  forall bs next, (forall b, In b bs -> exists sel, b = branch_of sel /\ sel_ascii sel) ->
  exists r, apply_to_branches true force bs reps next = Ok r
   /\ (forall b, In b r -> In b next \/ exists sel x, In (branch_of sel) bs /\ sel_ascii sel /\ In x reps
                                          /\ b = branch_of (sel ++ [(x, force)]))
   /\ (forall b, In b next -> In b r)
   /\ (forall sel x, In (branch_of sel) bs -> sel_ascii sel -> In x reps -> In (branch_of (sel ++ [(x, force)])) r)
   /\ (NoDup next -> NoDup r).
Proof.
  intros force reps R. induction bs as [|b bs IH]; intros next H; cbn [apply_to_branches].
  - exists next. split; [reflexivity|]. split; [auto|]. split; [auto|]. split; [intros ? ? []|auto].
  - destruct (H b (or_introl eq_refl)) as (sel & -> & A).
    destruct (apply_replacements_spec force sel reps next A R) as (n2 & E & S & D). rewrite E. cbn [bind].
    destruct (IH n2 (fun x Hx => H x (or_intror Hx))) as (r & E2 & S1 & S2 & S3 & D2).
    exists r. split; [exact E2|]. split; [|split; [|split; [|auto]]].
    + intros y Hy. apply S1 in Hy as [Hy|(s' & x & K1 & K2 & K3 & K4)].
      * apply S in Hy as [Hy|(x & K1 & K2)]; [now left|]. right. exists sel, x. split; [now left|]. auto.
      * right. exists s', x. split; [now right|]. auto.
    + intros y Hy. apply S2, S. now left.
    + intros s' x [K|K] A' Hx; [|now apply S3].
      apply S2, S. right. exists x. split; [assumption|].
      (* equal branches extend to equal branches *)
      pose proof (process_branch_of sel x force (kept_ascii sel None A) (R x Hx)) as P1.
      pose proof (process_branch_of s' x force (kept_ascii s' None A') (R x Hx)) as P2.
      rewrite K in P1. rewrite P1 in P2. apply Ok_inj in P2. now symmetry.
Qed.

(** ** The scan *)
Lemma dms_loop_skip : forall d br s k last bs, dms_loop d br k last bs s = dms_loop d br 0 last bs (skipn k s).
Proof.
  intros d br. induction s as [|c s IH]; intros k last bs; [rewrite skipn_nil; reflexivity|].
  destruct k as [|k]; [reflexivity|]. cbn [dms_loop skipn]. apply IH.
Qed.
Lemma ascii_prefix : forall a b, ascii_str (a ++ b) -> ascii_str a.
Proof. intros a b H. now apply ascii_str_app in H as [H _]. Qed.
Lemma get_replacements_spec : forall r c s rest at_start, ascii_str (c :: s) -> c :: s = r_pattern r ++ rest ->
  get_replacements r (c :: s) at_start = choose_replacements r at_start rest.
Proof.
  intros r c s rest at_start A E. unfold get_replacements, choose_replacements. destruct at_start; [reflexivity|].
  rewrite E in *. rewrite ascii_blen by (eapply ascii_prefix; exact A). rewrite ascii_blen by exact A.
  unfold nth_char. rewrite nth_error_app2 by lia. rewrite Nat.sub_diag, app_length.
  destruct rest as [|x rest].
  - replace (Nat.ltb _ _) with false by (symmetry; apply Nat.ltb_ge; cbn; lia). reflexivity.
  - replace (Nat.ltb _ _) with true by (symmetry; apply Nat.ltb_lt; cbn; lia).
    cbn [nth_error andb is_vowel starts_with_vowel]. cbn [andb]; now rewrite orb_false_r.
Qed.
Lemma choose_ok : forall tbl c r at_start rest, table_ok tbl -> In r (tbl c) ->
  replacements_ok (choose_replacements r at_start rest).
Proof.
  intros tbl c r at_start rest T H. destruct (T c r H) as (_ & H1 & H2 & H3). unfold choose_replacements.
  destruct at_start; [assumption|]. now destruct (starts_with_vowel rest).
Qed.
Lemma best_rule_In : forall l s r, best_rule l s r -> In r l.
Proof. intros l s r (l1 & l2 & -> & _). apply in_or_app. right. now left. Qed.

Lemma selection_ascii : forall ev sel, (forall e, In e ev -> replacements_ok (fst e)) -> selection ev sel -> sel_ascii sel.
Proof.
  intros ev sel H S. induction S as [|e x ev sel [S1 S2] S IH]; intros r f K; [destruct K|].
  destruct K as [->|K]; [|eapply IH; [|exact K]; intros e' He'; apply H; now right].
  apply (H e (or_introl eq_refl)). exact S1.
Qed.

(** Branches present after some steps: those of the selections so far. *)
Definition holds_sel (pre : list (list ustr * bool)) (bs : list Branch) : Prop :=
  (forall b, In b bs -> exists sel, b = branch_of sel /\ selection pre sel)
  /\ (forall sel, selection pre sel -> In (branch_of sel) bs).

Lemma step_sel : forall pre reps force bs,
  (forall e, In e pre -> replacements_ok (fst e)) -> replacements_ok reps -> holds_sel pre bs ->
  exists bs', apply_to_branches true force bs reps [] = Ok bs' /\ holds_sel (pre ++ [(reps, force)]) bs' /\ NoDup bs'.
Proof.
  intros pre reps force bs P [_ R] [H1 H2].
  destruct (apply_to_branches_spec force reps R bs []) as (r & E & S1 & _ & S3 & D).
  { intros b Hb. apply H1 in Hb as (sel & -> & S). exists sel. split; [reflexivity|]. eapply selection_ascii; eassumption. }
  exists r. split; [exact E|]. split; [|apply D; constructor]. split.
  - intros b Hb. apply S1 in Hb as [[]|(sel & x & K1 & K2 & K3 & ->)].
    apply H1 in K1 as (sel' & K1 & S').
    exists (sel' ++ [(x, force)]). split.
    + pose proof (process_branch_of sel x force (kept_ascii sel None K2) (R x K3)) as P1.
      pose proof (process_branch_of sel' x force (kept_ascii sel' None (selection_ascii _ _ P S')) (R x K3)) as P2.
      rewrite K1 in P1. rewrite P1 in P2. now apply Ok_inj in P2.
    + apply Forall2_app; [assumption|]. constructor; [split; [exact K3|reflexivity]|constructor].
  - intros sel S. apply Forall2_app_inv_l in S as (sel1 & sel2 & A1 & A2 & ->).
    inversion A2 as [|? [x f] ? ? [B1 B2] B3]; subst. inversion B3; subst. cbn [fst snd] in *. subst f.
    apply S3; [now apply H2|eapply selection_ascii; eassumption|assumption].
Qed.

Lemma dms_loop_scan : forall d tbl, holds_table d tbl -> table_ok tbl ->
  forall prev s ev, dm_scan tbl prev s ev -> ascii_str s ->
  forall pre bs, (forall e, In e pre -> replacements_ok (fst e)) -> holds_sel pre bs -> NoDup bs ->
  exists bs', dms_loop d true 0 prev bs s = Ok bs' /\ holds_sel (pre ++ ev) bs' /\ NoDup bs'
     /\ (forall e, In e (pre ++ ev) -> replacements_ok (fst e)).
Proof.
  intros d tbl HT OK prev s ev H.
  induction H as [prev|prev c s ev H1 _ IH|prev c s ev H1 H2 _ IH|prev c s r rest ev H1 H2 _ IH];
    intros A pre bs P B N.
  - exists bs. split; [reflexivity|]. rewrite app_nil_r. auto.
  - cbn [dms_loop]. rewrite HT, H1. apply ascii_str_cons in A as [_ A]. now apply IH.
  - cbn [dms_loop]. rewrite HT. destruct (tbl c) as [|x l] eqn:T; [congruence|]. cbv iota.
    rewrite (proj2 (find_sorted_none _ _) H2). apply ascii_str_cons in A as [_ A]. now apply IH.
  - cbn [dms_loop]. rewrite HT. pose proof (best_rule_In _ _ _ H1) as I.
    destruct (tbl c) as [|x l] eqn:T; [destruct I|]. cbv iota. rewrite <- T in *.
    rewrite (best_rule_find _ _ _ H1). cbv iota.
    rewrite (get_replacements_spec r c s rest _ A H2).
    pose proof (choose_ok tbl c r (prev =? 0) rest OK I) as CO.
    match goal with |- context[apply_to_branches true ?f bs _ []] => set (force := f) end.
    destruct (step_sel pre _ force bs P CO B) as (bs2 & E2 & B2 & N2). rewrite E2. cbn [bind].
    destruct (OK c r I) as ((p & Hp) & _).
    assert (As : ascii_str (r_pattern r)) by (rewrite H2 in A; eapply ascii_prefix; exact A).
    rewrite dms_loop_skip.
    assert (Sk : skipn (blen (r_pattern r) - 1) s = rest).
    { rewrite ascii_blen by exact As. rewrite Hp in *. cbn [length Nat.sub]. rewrite Nat.sub_0_r.
      injection H2 as ->. apply skipn_app_exact. }
    rewrite Sk.
    destruct (IH ltac:(rewrite H2 in A; now apply ascii_str_app in A as [_ A])
       (pre ++ [(choose_replacements r (prev =? 0) rest, force)]) bs2) as (bs' & E' & B' & N' & P').
    + intros e He. apply in_app_or in He as [He|[<-|[]]]; [now apply P|exact CO].
    + exact B2.
    + exact N2.
    + exists bs'. split; [exact E'|]. rewrite <- app_assoc in B', P'. auto.
Qed.

Lemma dm_scan_exists : forall tbl, table_ok tbl -> forall n s prev, (length s <= n)%nat -> exists ev, dm_scan tbl prev s ev.
Proof.
  intros tbl OK. induction n as [|n IH]; intros s prev L.
  - destruct s; [exists []; constructor|cbn in L; lia].
  - destruct s as [|c s]; [exists []; constructor|]. cbn in L.
    destruct (tbl c) as [|x l] eqn:T.
    + destruct (IH s prev ltac:(lia)) as [ev H]. exists ev. now apply scan_unknown.
    + destruct (find (fun r => rule_matches r (c :: s)) (sort_rules (tbl c))) as [r|] eqn:F.
      * apply find_sorted_some in F. pose proof F as (_ & _ & _ & [rest E] & _).
        destruct (OK c r (best_rule_In _ _ _ F)) as ((p & Hp) & _).
        destruct (IH rest c) as [ev H].
        { rewrite Hp in E. injection E as ->. rewrite app_length in L. lia. }
        eexists. eapply scan_rule; eassumption.
      * apply find_sorted_none in F. destruct (IH s c ltac:(lia)) as [ev H]. exists ev.
        apply scan_nomatch; [congruence|assumption|assumption].
Qed.
Lemma dm_scan_unique : forall tbl prev s ev, dm_scan tbl prev s ev -> forall ev', dm_scan tbl prev s ev' -> ev = ev'.
Proof.
  intros tbl prev s ev H.
  induction H as [prev|prev c s ev H1 _ IH|prev c s ev H1 H2 _ IH|prev c s r rest ev H1 H2 _ IH]; intros ev' H'.
  - inversion H'; reflexivity.
  - inversion H' as [|? ? ? ? K1 K2|? ? ? ? K1 K2 K3|? ? ? r' rest' ? K1 K2 K3]; subst; [auto|congruence|].
    apply best_rule_In in K1. rewrite H1 in K1. destruct K1.
  - inversion H' as [|? ? ? ? K1 K2|? ? ? ? K1 K2 K3|? ? ? r' rest' ? K1 K2 K3]; subst; [congruence|auto|].
    exfalso. eapply H2; [apply (best_rule_In _ _ _ K1)|exact K2].
  - inversion H' as [|? ? ? ? K1 K2|? ? ? ? K1 K2 K3|? ? ? r' rest' ? K1 K2 K3]; subst.
    + apply best_rule_In in H1. rewrite K1 in H1. destruct H1.
    + exfalso. eapply K2; [apply (best_rule_In _ _ _ H1)|exact H2].
    + assert (r' = r) by (eapply best_rule_unique; eassumption). subst r'.
      rewrite H2 in K2. apply app_inv_head in K2. subst rest'. f_equal. auto.
Qed.

Lemma firstn_In : forall (l : ustr) n x, In x (firstn n l) -> In x l.
Proof. intros l n x H. rewrite <- (firstn_skipn n l). apply in_or_app. now left. Qed.
(** ** No panic, for every text (ASCII or not) *)
Definition all_chars (P : N -> Prop) (s : ustr) : Prop := forall c, In c s -> P c.
Section Chars.
Variable P : N -> Prop.
Hypothesis P_ascii : forall c, P c -> c < 128.
Lemma all_chars_ascii : forall s, all_chars P s -> ascii_str s.
Proof. intros s H c Hc. apply P_ascii. now apply H. Qed.
Lemma all_chars_app : forall a b, all_chars P a -> all_chars P b -> all_chars P (a ++ b).
Proof. intros a b Ha Hb c Hc. apply in_app_or in Hc as [Hc|Hc]; auto. Qed.
Definition dms_chars (d : DMS) : Prop :=
  forall c rules r x, assoc c (dms_rules d) = Some rules -> In r rules ->
    In x (r_at_start r ++ r_before_vowel r ++ r_default r) -> all_chars P x.
Definition branch_ok (b : Branch) : Prop := all_chars P (br_builder b) /\ (length (br_builder b) <= 6)%nat.
Lemma process_ok : forall b r f, branch_ok b -> all_chars P r ->
  exists b', process_next_replacement b r f = Ok b' /\ branch_ok b'.
Proof.
  intros b r f [A L] R. unfold process_next_replacement.
  rewrite (ascii_blen (br_builder b)) by (apply all_chars_ascii; exact A).
  destruct (_ && Nat.ltb (length (br_builder b)) MAX_LENGTH) eqn:E.
  - rewrite ascii_blen by (apply all_chars_ascii, all_chars_app; auto). destruct (Nat.ltb MAX_LENGTH _) eqn:E2.
    + apply Nat.ltb_lt in E2. unfold MAX_LENGTH in *.
      rewrite slice_ascii by (try (apply all_chars_ascii, all_chars_app; auto); lia). cbn [bind]. eexists. split; [reflexivity|].
      cbn [skipn Nat.sub]. split; cbn [br_builder].
      * intros c Hc. apply firstn_In in Hc. revert c Hc. now apply all_chars_app.
      * rewrite firstn_length. lia.
    + apply Nat.ltb_ge in E2. unfold MAX_LENGTH in *. cbn [bind]. eexists. split; [reflexivity|].
      split; cbn [br_builder]; [apply all_chars_app; auto|assumption].
  - cbn [bind]. eexists. split; [reflexivity|]. now split.
Qed.
Lemma apply_replacements_ok : forall br force b reps next, branch_ok b -> (forall r, In r reps -> all_chars P r) ->
  Forall branch_ok next ->
  exists r, apply_replacements br force b reps next = Ok r /\ Forall branch_ok r
   /\ ((next <> [] \/ reps <> []) -> r <> []).
Proof.
  intros br force b. induction reps as [|x reps IH]; intros next B R F; cbn [apply_replacements].
  - exists next. split; [reflexivity|]. split; [assumption|]. intros [H|H]; congruence.
  - destruct (process_ok b x force B (R x (or_introl eq_refl))) as (nb & -> & Bn). cbn [bind].
    assert (F2 : Forall branch_ok (push_branch next nb)).
    { apply Forall_forall. intros y Hy. apply push_branch_In in Hy as [Hy| ->]; [|assumption].
      rewrite Forall_forall in F. auto. }
    destruct br.
    + destruct (IH (push_branch next nb) B (fun r Hr => R r (or_intror Hr)) F2) as (r & E & Fr & Nr).
      exists r. split; [exact E|]. split; [assumption|]. intros _. apply Nr. left. apply push_branch_nonempty.
    + exists (push_branch next nb). split; [reflexivity|]. split; [assumption|]. intros _. apply push_branch_nonempty.
Qed.
Lemma apply_to_branches_ok : forall br force reps, (forall r, In r reps -> all_chars P r) ->
  forall bs next, Forall branch_ok bs -> Forall branch_ok next ->
  exists r, apply_to_branches br force bs reps next = Ok r /\ Forall branch_ok r
   /\ ((next <> [] \/ (bs <> [] /\ reps <> [])) -> r <> []).
Proof.
  intros br force reps R. induction bs as [|b bs IH]; intros next B F; cbn [apply_to_branches].
  - exists next. split; [reflexivity|]. split; [assumption|]. intros [H|[H _]]; congruence.
  - inversion B as [|? ? B1 B2]; subst.
    destruct (apply_replacements_ok br force b reps next B1 R F) as (n2 & -> & F2 & N2). cbn [bind].
    destruct (IH n2 B2 F2) as (r & E & Fr & Nr). exists r. split; [exact E|]. split; [assumption|].
    intros H. apply Nr. left. apply N2. destruct H as [H|[_ H]]; auto.
Qed.
Definition dms_total (d : DMS) : Prop :=
  forall c rules r, assoc c (dms_rules d) = Some rules -> In r rules ->
    r_at_start r <> [] /\ r_before_vowel r <> [] /\ r_default r <> [].
Lemma dms_loop_total : forall d br, dms_chars d -> dms_total d -> forall s k last bs, Forall branch_ok bs -> bs <> [] ->
  exists r, dms_loop d br k last bs s = Ok r /\ Forall branch_ok r /\ r <> [].
Proof.
  intros d br A T. induction s as [|c s IH]; intros k last bs F N; cbn [dms_loop]; [eauto|].
  destruct k as [|k]; [|now apply IH]. destruct (assoc c (dms_rules d)) as [rules|] eqn:E; [|now apply IH].
  destruct (find _ rules) as [rule|] eqn:Fd; [|now apply IH]. apply find_some in Fd as [Fd _].
  match goal with |- context[apply_to_branches br ?f bs ?reps []] =>
    destruct (apply_to_branches_ok br f reps) with (bs := bs) (next := @nil Branch) as (r & -> & Fr & Nr) end.
  - intros x Hx. apply (A c rules rule x E Fd). unfold get_replacements in Hx. rewrite !in_app_iff.
    destruct (last =? 0); [auto|]. destruct (_ && _); auto.
  - assumption.
  - constructor.
  - cbn [bind]. apply IH; [assumption|]. apply Nr. right. split; [assumption|].
    destruct (T c rules rule E Fd) as (T1 & T2 & T3). unfold get_replacements. destruct (last =? 0); [assumption|].
    now destruct (_ && _).
Qed.
Lemma branch_ok_default : branch_ok branch_default.
Proof. split; [intros c []|cbn; lia]. Qed.
Lemma br_finish_length : forall b, branch_ok b -> length (br_finish b) = 6%nat /\ (forall c, In c (br_finish b) -> P c \/ c = # "0").
Proof.
  intros b [A L]. unfold br_finish. rewrite ascii_blen by (apply all_chars_ascii; exact A). split.
  - rewrite app_length, repeat_length. unfold MAX_LENGTH. lia.
  - intros c Hc. apply in_app_or in Hc as [Hc|Hc]; [left; now apply A|right]. now apply repeat_spec in Hc.
Qed.
End Chars.

(** ** Joining and splitting *)
Lemma split_on_nosep : forall sep s, ~ In sep s -> split_on sep s = [s].
Proof.
  intros sep. induction s as [|c s IH]; intros H; [reflexivity|]. cbn [split_on].
  replace (c =? sep) with false by (symmetry; apply N.eqb_neq; intros ->; apply H; now left).
  rewrite IH by (intros K; apply H; now right). reflexivity.
Qed.
Lemma split_on_app : forall sep s t, ~ In sep s -> split_on sep (s ++ sep :: t) = s :: split_on sep t.
Proof.
  intros sep. induction s as [|c s IH]; intros t H; cbn [app split_on].
  - now rewrite N.eqb_refl.
  - replace (c =? sep) with false by (symmetry; apply N.eqb_neq; intros ->; apply H; now left).
    rewrite IH by (intros K; apply H; now right). reflexivity.
Qed.
Lemma split_join : forall sep l, l <> [] -> (forall s, In s l -> ~ In sep s) -> split_on sep (join [sep] l) = l.
Proof.
  intros sep. induction l as [|x l IH]; intros N H; [congruence|]. destruct l as [|y l].
  - cbn [join]. apply split_on_nosep. apply H. now left.
  - change (join [sep] (x :: y :: l)) with (x ++ sep :: join [sep] (y :: l)).
    rewrite split_on_app by (apply H; now left). f_equal. apply IH; [discriminate|]. intros s Hs. apply H. now right.
Qed.
Lemma split_on_no_sep_inside : forall sep s p, In p (split_on sep s) -> ~ In sep p.
Proof.
  intros sep. induction s as [|c s IH]; intros p H; cbn [split_on] in H.
  - destruct H as [<-|[]]. intros [].
  - destruct (c =? sep) eqn:E.
    + destruct H as [<-|H]; [intros []|auto].
    + destruct (split_on sep s) as [|q qs] eqn:S.
      * destruct H as [<-|[]]. intros [K|[]]. apply N.eqb_neq in E. congruence.
      * destruct H as [<-|H].
        -- intros [K|K]; [apply N.eqb_neq in E; congruence|]. apply (IH q (or_introl eq_refl) K).
        -- apply IH. now right.
Qed.
Lemma split_on_nonempty : forall sep s, split_on sep s <> [].
Proof.
  intros sep. destruct s as [|c s]; cbn [split_on]; [discriminate|]. destruct (c =? sep); [discriminate|].
  destruct (split_on sep s); discriminate.
Qed.

(** ** Without branching: the first replacement everywhere *)
Lemma apply_first : forall sel reps force, sel_ascii sel -> replacements_ok reps ->
  apply_to_branches false force [branch_of sel] reps [] = Ok [branch_of (sel ++ [(hd [] reps, force)])].
Proof.
  intros sel reps force A [N R]. destruct reps as [|x reps]; [congruence|].
  cbn [apply_to_branches apply_replacements hd].
  rewrite process_branch_of; [reflexivity|now apply kept_ascii|apply R; now left].
Qed.
Lemma first_selection_selection : forall ev, (forall e, In e ev -> replacements_ok (fst e)) -> selection ev (first_selection ev).
Proof.
  induction ev as [|e ev IH]; intros H; [constructor|]. constructor.
  - split; [|reflexivity]. destruct (H e (or_introl eq_refl)) as [N _]. cbn [fst]. destruct e as [[|x l] f]; cbn [fst hd] in *; [congruence|now left].
  - apply IH. intros x Hx. apply H. now right.
Qed.
Lemma dms_loop_scan_first : forall d tbl, holds_table d tbl -> table_ok tbl ->
  forall prev s ev, dm_scan tbl prev s ev -> ascii_str s ->
  forall sel, sel_ascii sel ->
  dms_loop d false 0 prev [branch_of sel] s = Ok [branch_of (sel ++ first_selection ev)].
Proof.
  intros d tbl HT OK prev s ev H.
  induction H as [prev|prev c s ev H1 _ IH|prev c s ev H1 H2 _ IH|prev c s r rest ev H1 H2 _ IH];
    intros A sel SA.
  - cbn [first_selection map]. now rewrite app_nil_r.
  - cbn [dms_loop]. rewrite HT, H1. apply ascii_str_cons in A as [_ A]. now apply IH.
  - cbn [dms_loop]. rewrite HT. destruct (tbl c) as [|x l] eqn:T; [congruence|]. cbv iota.
    rewrite (proj2 (find_sorted_none _ _) H2). apply ascii_str_cons in A as [_ A]. now apply IH.
  - cbn [dms_loop]. rewrite HT. pose proof (best_rule_In _ _ _ H1) as I.
    destruct (tbl c) as [|x l] eqn:T; [destruct I|]. cbv iota. rewrite <- T in *.
    rewrite (best_rule_find _ _ _ H1). cbv iota.
    rewrite (get_replacements_spec r c s rest _ A H2).
    pose proof (choose_ok tbl c r (prev =? 0) rest OK I) as CO.
    match goal with |- context[apply_to_branches false ?f _ _ []] => set (force := f) end.
    rewrite apply_first by assumption. cbn [bind].
    destruct (OK c r I) as ((p & Hp) & _).
    assert (As : ascii_str (r_pattern r)) by (rewrite H2 in A; eapply ascii_prefix; exact A).
    rewrite dms_loop_skip.
    assert (Sk : skipn (blen (r_pattern r) - 1) s = rest).
    { rewrite ascii_blen by exact As. rewrite Hp in *. cbn [length Nat.sub]. rewrite Nat.sub_0_r.
      injection H2 as ->. apply skipn_app_exact. }
    rewrite Sk, IH.
    + rewrite <- app_assoc. reflexivity.
    + rewrite H2 in A. now apply ascii_str_app in A as [_ A].
    + intros y f K. apply in_app_or in K as [K|[K|[]]]; [now apply (SA y f)|]. injection K as <- <-.
      destruct CO as [CN CA]. destruct (choose_replacements r (prev =? 0) rest); [congruence|]. apply CA. now left.
Qed.
Lemma branch_of_nil : branch_default = branch_of [].
Proof. reflexivity. Qed.

(** ** Single alternatives: nothing to branch on *)
Definition dms_single (d : DMS) : Prop :=
  forall c rules r, assoc c (dms_rules d) = Some rules -> In r rules ->
    exists x y z, r_at_start r = [x] /\ r_before_vowel r = [y] /\ r_default r = [z].
Lemma dms_loop_single : forall d, dms_single d -> forall s k last bs,
  dms_loop d true k last bs s = dms_loop d false k last bs s.
Proof.
  intros d S. induction s as [|c s IH]; intros k last bs; [reflexivity|]. cbn [dms_loop].
  destruct k as [|k]; [|apply IH]. destruct (assoc c (dms_rules d)) as [rules|] eqn:E; [|apply IH].
  destruct (find _ rules) as [rule|] eqn:F; [|apply IH]. apply find_some in F as [F _].
  destruct (S c rules rule E F) as (x & y & z & E1 & E2 & E3).
  match goal with |- context[apply_to_branches true ?f bs ?reps []] => set (force := f); set (rs := reps) end.
  assert (R : exists w, rs = [w]).
  { unfold rs, get_replacements. destruct (last =? 0); [exists x; assumption|]. match goal with |- context[if ?b then r_before_vowel _ else _] => destruct b end; [exists y|exists z]; assumption. }
  destruct R as [w ->].
  assert (K : forall next, apply_to_branches true force bs [w] next = apply_to_branches false force bs [w] next).
  { clear. induction bs as [|b bs IH]; intros next; [reflexivity|]. cbn [apply_to_branches apply_replacements].
    destruct (process_next_replacement b w force); cbn [bind]; [apply IH|reflexivity|reflexivity]. }
  rewrite K. destruct (apply_to_branches false force bs [w] []); cbn [bind]; [apply IH|reflexivity|reflexivity].
Qed.
Lemma dms_loop_one : forall d s k last b r, dms_loop d false k last [b] s = Ok r -> (length r <= 1)%nat.
Proof.
  intros d s k last b r H.
  assert (G : forall s k last bs, (length bs <= 1)%nat -> forall r, dms_loop d false k last bs s = Ok r -> (length r <= 1)%nat).
  { clear. induction s as [|c s IH]; intros k last bs L r H; cbn [dms_loop] in H; [injection H as <-; assumption|].
    destruct k as [|k]; [|eapply IH; eassumption].
    destruct (assoc c (dms_rules d)) as [rules|]; [|eapply IH; eassumption].
    destruct (find _ rules) as [rule|]; [|eapply IH; eassumption].
    apply bind_Ok in H as (next & H1 & H). eapply IH; [|exact H].
    destruct bs as [|b [|b2 bs]]; [injection H1 as <-; cbn; lia| |cbn in L; lia].
    cbn [apply_to_branches] in H1. apply bind_Ok in H1 as (n2 & H1 & H2). injection H2 as <-.
    destruct (get_replacements _ _ _) as [|x reps]; cbn [apply_replacements] in H1; [injection H1 as <-; cbn; lia|].
    apply bind_Ok in H1 as (nb & _ & H1). injection H1 as <-. cbn. lia. }
  eapply G; [|exact H]. cbn. lia.
Qed.

(** ** Tables choosing the same rules give the same codes *)
Lemma dms_loop_same_choice : forall d d' tbl tbl' br, holds_table d tbl -> holds_table d' tbl' ->
  (forall c, tbl c = [] <-> tbl' c = []) ->
  (forall c s r, best_rule (tbl c) s r <-> best_rule (tbl' c) s r) ->
  forall s k last bs, dms_loop d br k last bs s = dms_loop d' br k last bs s.
Proof.
  intros d d' tbl tbl' br H H' N B. induction s as [|c s IH]; intros k last bs; [reflexivity|]. cbn [dms_loop].
  destruct k as [|k]; [|apply IH]. rewrite H, H'.
  assert (F : find (fun r => rule_matches r (c :: s)) (sort_rules (tbl c)) = find (fun r => rule_matches r (c :: s)) (sort_rules (tbl' c))).
  { destruct (find (fun r => rule_matches r (c :: s)) (sort_rules (tbl c))) as [r|] eqn:E.
    - apply find_sorted_some, B, best_rule_find in E. now rewrite E.
    - destruct (find _ (sort_rules (tbl' c))) as [r|] eqn:E'; [|reflexivity].
      apply find_sorted_some, B, best_rule_find in E'. congruence. }
  specialize (N c). destruct (tbl c) as [|x l], (tbl' c) as [|x' l'].
  - apply IH.
  - destruct N as [N _]. specialize (N eq_refl). discriminate.
  - destruct N as [_ N]. specialize (N eq_refl). discriminate.
  - rewrite F. destruct (find _ (sort_rules (x' :: l'))) as [r|]; [|apply IH].
    destruct (apply_to_branches _ _ _ _ _); cbn [bind]; [apply IH|reflexivity|reflexivity].
Qed.
(** The order of rules with different patterns does not matter. *)
Lemma best_rule_perm : forall l l' s r, NoDup (map r_pattern l) -> NoDup (map r_pattern l') ->
  (forall x, In x l <-> In x l') -> best_rule l s r -> best_rule l' s r.
Proof.
  intros l l' s r D D' P (l1 & l2 & -> & M & H1 & H2).
  assert (I : In r l') by (apply P, in_or_app; right; now left).
  apply in_split in I as (m1 & m2 & ->). exists m1, m2. split; [reflexivity|]. split; [assumption|].
  assert (K : forall x, In x (m1 ++ m2) -> (exists rest, s = r_pattern x ++ rest) -> (length (r_pattern x) < length (r_pattern r))%nat).
  { intros x Hx Mx.
    assert (NE : r_pattern x <> r_pattern r).
    { intros E. rewrite map_app in D'. cbn [map] in D'. apply NoDup_remove_2 in D'. apply D'.
      rewrite <- map_app, <- E. now apply in_map. }
    assert (Ix : In x (l1 ++ r :: l2)).
    { apply P. apply in_app_or in Hx as [Hx|Hx]; apply in_or_app; [now left|right; now right]. }
    assert (L : (length (r_pattern x) <= length (r_pattern r))%nat).
    { apply in_app_or in Ix as [Ix|[->|Ix]]; [specialize (H1 x Ix Mx); lia|congruence|now apply H2]. }
    destruct (Nat.eq_dec (length (r_pattern x)) (length (r_pattern r))) as [E|E]; [|lia].
    elim NE. destruct M as [t Hm], Mx as [t' Hx']. rewrite Hm in Hx'.
    clear - Hx' E. revert E Hx'. generalize (r_pattern x) as a, (r_pattern r) as b. clear.
    intros a b. revert b. induction a as [|c a IH]; intros [|e b] E H; [reflexivity|cbn in E; lia|cbn in E; lia|].
    injection H as -> H. f_equal. apply IH; [cbn in E; lia|assumption]. }
  split; intros x Hx Mx.
  - apply K; [apply in_or_app; now left|assumption].
  - apply Nat.lt_le_incl, K; [apply in_or_app; now right|assumption].
Qed.
