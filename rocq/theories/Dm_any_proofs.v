(** * Daitch-Mokotoff with any rule file: cutting at six bytes (lemmas). *)
From Verif Require Import Base UnicodeM Lib Helper RulesParser DaitchMokotoff BaseLemmas Spec_common Spec_dm
  Spec_dm_file Spec_dm_any Dm_proofs Dm_order_proofs.
Local Open Scope N_scope.

Notation selection_list := (list (ustr * bool)).

(** ** The first bytes of a text *)
Fixpoint takeb (n : nat) (s : ustr) : ustr :=
  match s with
  | [] => []
  | c :: r => if Nat.leb (utf8_len c) n then c :: takeb (n - utf8_len c) r else []
  end.
Fixpoint tornb (n : nat) (s : ustr) : bool :=
  match s with
  | [] => false
  | c :: r => if Nat.leb (utf8_len c) n then tornb (n - utf8_len c) r else negb (Nat.eqb n 0)
  end.
Lemma takeb_0 : forall s, takeb 0 s = [].
Proof. intros [|c s]; [reflexivity|]. cbn [takeb]. pose proof (utf8_len_pos c). destruct (Nat.leb_spec (utf8_len c) 0); [lia|reflexivity]. Qed.
Lemma tornb_0 : forall s, tornb 0 s = false.
Proof. intros [|c s]; [reflexivity|]. cbn [tornb]. pose proof (utf8_len_pos c). destruct (Nat.leb_spec (utf8_len c) 0); [lia|reflexivity]. Qed.
Lemma takeb_prefix : forall s n, exists rest, s = takeb n s ++ rest.
Proof.
  induction s as [|c s IH]; intros n; cbn [takeb]; [now exists []|].
  destruct (Nat.leb (utf8_len c) n); [|now exists (c :: s)]. destruct (IH (n - utf8_len c)%nat) as [rest E]. exists rest. cbn [app]. congruence.
Qed.
Lemma takeb_short : forall s n, (blen s <= n)%nat -> takeb n s = s /\ tornb n s = false.
Proof.
  induction s as [|c s IH]; intros n L; [now split|]. cbn [takeb tornb blen] in *.
  destruct (Nat.leb_spec (utf8_len c) n); [|lia]. destruct (IH (n - utf8_len c)%nat ltac:(lia)) as [-> ->]. now split.
Qed.
Lemma takeb_blen : forall s n, (n <= blen s)%nat -> tornb n s = false -> blen (takeb n s) = n.
Proof.
  induction s as [|c s IH]; intros n L T; cbn [takeb tornb blen] in *; [lia|].
  destruct (Nat.leb_spec (utf8_len c) n) as [K|K].
  - cbn [blen]. rewrite IH by (assumption || lia). lia.
  - apply negb_false_iff, Nat.eqb_eq in T. now subst n.
Qed.
Lemma takeb_le : forall s n, (blen (takeb n s) <= n)%nat.
Proof.
  induction s as [|c s IH]; intros n; cbn [takeb]; [cbn; lia|]. destruct (Nat.leb_spec (utf8_len c) n) as [K|K]; cbn [blen]; [|lia].
  specialize (IH (n - utf8_len c)%nat). lia.
Qed.
Lemma split_byte_takeb : forall s n, (n <= blen s)%nat ->
  if tornb n s then split_byte n s = None else exists r, split_byte n s = Some (takeb n s, r).
Proof.
  intros s n L. destruct (tornb n s) eqn:T.
  - revert n L T. induction s as [|c s IH]; intros n L T; cbn [tornb] in T; [discriminate|].
    destruct n as [|n]; [rewrite tornb_0 in *; pose proof (utf8_len_pos c); destruct (Nat.leb_spec (utf8_len c) 0); [lia|discriminate]|].
    cbn [split_byte blen] in *. destruct (Nat.leb_spec (utf8_len c) (S n)) as [K|K]; [|reflexivity].
    now rewrite IH by (assumption || lia).
  - destruct (takeb_prefix s n) as [rest E]. exists rest. apply split_byte_spec. split; [assumption|]. now apply takeb_blen.
Qed.
Lemma slice_takeb : forall s n, (n <= blen s)%nat -> slice 0 n s = if tornb n s then Panic else Ok (takeb n s).
Proof.
  intros s n L. unfold slice. cbn [Nat.ltb Nat.leb]. rewrite Nat.sub_0_r.
  assert (S0 : split_byte 0 s = Some ([], s)) by (destruct s; reflexivity). rewrite S0. unfold slice_to.
  pose proof (split_byte_takeb s n L) as K. destruct (tornb n s); [now rewrite K|]. destruct K as [r ->]. reflexivity.
Qed.
Lemma tornb_app : forall a b n, tornb n a = true -> tornb n (a ++ b) = true.
Proof.
  induction a as [|c a IH]; intros b n T; cbn [tornb app] in *; [discriminate|]. destruct (Nat.leb (utf8_len c) n); [now apply IH|assumption].
Qed.
Lemma takeb_app_full : forall a b n, (n <= blen a)%nat -> takeb n (a ++ b) = takeb n a /\ tornb n (a ++ b) = tornb n a.
Proof.
  induction a as [|c a IH]; intros b n L; cbn [takeb tornb app blen] in *.
  - assert (n = 0)%nat by lia. subst n. now rewrite takeb_0, tornb_0.
  - destruct (Nat.leb_spec (utf8_len c) n) as [K|K]; [|now split]. destruct (IH b (n - utf8_len c)%nat ltac:(lia)) as [-> ->]. now split.
Qed.
Lemma tornb_torn : forall s, tornb 6 s = true <-> torn s.
Proof.
  assert (G : forall s n, tornb n s = true <-> exists a c b, s = a ++ c :: b /\ (blen a < n)%nat /\ (n < blen a + utf8_len c)%nat).
  { induction s as [|c s IH]; intros n; cbn [tornb].
    - split; [discriminate|]. intros (a & c & b & E & _). destruct a; discriminate E.
    - pose proof (utf8_len_pos c) as P. destruct (Nat.leb_spec (utf8_len c) n) as [K|K].
      + rewrite IH. split.
        * intros (a & x & b & -> & L1 & L2). exists (c :: a), x, b. split; [reflexivity|]. cbn [blen]. lia.
        * intros (a & x & b & E & L1 & L2). destruct a as [|y a].
          -- cbn in E, L1, L2. injection E as <- <-. lia.
          -- cbn [app] in E. injection E as <- ->. cbn [blen] in *. exists a, x, b. split; [reflexivity|]. lia.
      + rewrite negb_true_iff, Nat.eqb_neq. split.
        * intros N0. exists [], c, s. split; [reflexivity|]. cbn. lia.
        * intros (a & x & b & E & L1 & L2). lia. }
  intros s. unfold torn. now rewrite G.
Qed.
Lemma first_six_takeb : forall k, tornb 6 k = false -> forall b, first_six_bytes k b <-> b = takeb 6 k.
Proof.
  intros k T b. unfold first_six_bytes. split.
  - intros [[rest ->] [B|[E L]]].
    + destruct (takeb_app_full b rest 6 ltac:(lia)) as [-> _]. now destruct (takeb_short b 6 ltac:(lia)).
    + rewrite <- E in L |- *. now destruct (takeb_short b 6 ltac:(lia)).
  - intros ->. split; [apply takeb_prefix|]. destruct (Nat.le_gt_cases 6 (blen k)) as [L|L].
    + left. now apply takeb_blen.
    + right. split; [|assumption]. now destruct (takeb_short k 6 ltac:(lia)).
Qed.
Lemma first_six_torn : forall k b, torn k -> ~ first_six_bytes k b.
Proof.
  intros k b T [[rest ->] [B|[E L]]]; apply tornb_torn in T.
  - destruct (takeb_app_full b rest 6 ltac:(lia)) as [_ T']. rewrite T' in T. destruct (takeb_short b 6 ltac:(lia)). congruence.
  - rewrite <- E in L, T. destruct (takeb_short b 6 ltac:(lia)). congruence.
Qed.

(** ** One branch *)
Definition bbranch (sel : selection_list) : Branch :=
  {| br_builder := takeb 6 (kept None sel);
     br_last := match rev sel with [] => None | (r, _) :: _ => Some r end |}.
Definition whole (sel : selection_list) : bool := negb (tornb 6 (kept None sel)).
Lemma whole_prefix : forall sel x, whole (sel ++ [x]) = true -> whole sel = true.
Proof.
  intros sel [r f] H. unfold whole in *. rewrite kept_snoc in H. destruct (tornb 6 (kept None sel)) eqn:T; [|reflexivity].
  rewrite (tornb_app _ _ _ T) in H. discriminate.
Qed.
Lemma process_bbranch : forall sel r f, whole sel = true ->
  process_next_replacement (bbranch sel) r f
  = if whole (sel ++ [(r, f)]) then Ok (bbranch (sel ++ [(r, f)])) else Panic.
Proof.
  intros sel r f W. unfold process_next_replacement, bbranch, whole in *. cbn [br_builder br_last].
  rewrite kept_snoc, rev_app_distr. cbn [rev app]. apply negb_true_iff in W.
  match goal with |- context[(?x || f) && _] => set (ap := x) end.
  clearbody ap. set (k := kept None sel) in *. clearbody k. destruct (ap || f); cbn [andb].
  - destruct (Nat.ltb (blen (takeb 6 k)) MAX_LENGTH) eqn:L.
    + apply Nat.ltb_lt in L. unfold MAX_LENGTH in *.
      assert (K : (blen k < 6)%nat).
      { destruct (Nat.le_gt_cases 6 (blen k)) as [G|G]; [|assumption]. rewrite (takeb_blen k 6 G W) in L. lia. }
      destruct (takeb_short k 6 ltac:(lia)) as [-> _]. destruct (Nat.ltb_spec 6 (blen (k ++ r))) as [G|G].
      * rewrite slice_takeb by lia. destruct (tornb 6 (k ++ r)); reflexivity.
      * destruct (takeb_short (k ++ r) 6 ltac:(lia)) as [-> ->]. reflexivity.
    + apply Nat.ltb_ge in L. unfold MAX_LENGTH in L. destruct (takeb_prefix k 6) as [rest E].
      assert (K : (6 <= blen k)%nat) by (rewrite E, blen_app; lia).
      destruct (takeb_app_full k r 6 K) as [-> ->]. rewrite W. reflexivity.
  - cbn [bind]. rewrite app_nil_r, W. reflexivity.
Qed.
Lemma br_finish_bytes : forall sel, whole sel = true -> byte_code sel (br_finish (bbranch sel)).
Proof.
  intros sel W. unfold whole in W. apply negb_true_iff in W. exists (takeb 6 (kept None sel)).
  split; [now apply first_six_takeb|]. reflexivity.
Qed.
Lemma byte_code_unique : forall sel a b, byte_code sel a -> byte_code sel b -> a = b.
Proof.
  intros sel a b (x & X & ->) (y & Y & ->). destruct (tornb 6 (kept None sel)) eqn:T.
  - apply tornb_torn in T. elim (first_six_torn _ _ T X).
  - apply (first_six_takeb _ T) in X, Y. congruence.
Qed.
Lemma byte_code_whole : forall sel code, byte_code sel code -> whole sel = true /\ code = br_finish (bbranch sel).
Proof.
  intros sel code H. assert (W : whole sel = true).
  { unfold whole. apply negb_true_iff. destruct (tornb 6 (kept None sel)) eqn:T; [|reflexivity].
    apply tornb_torn in T. destruct H as (x & X & _). elim (first_six_torn _ _ T X). }
  split; [assumption|]. eapply byte_code_unique; [eassumption|]. now apply br_finish_bytes.
Qed.

(** ** All the branches *)
Definition bstepped (force : bool) (reps : list ustr) (b : Branch) : list Branch :=
  map (fun x => match process_next_replacement b x force with Ok b' => b' | _ => b end) reps.
Definition step_ok (force : bool) (reps : list ustr) (b : Branch) : bool :=
  forallb (fun x => match process_next_replacement b x force with Ok _ => true | _ => false end) reps.
Definition clean_step (force : bool) (b : Branch) : Prop := forall x, process_next_replacement b x force <> NoFuel.
Lemma apply_replacements_all : forall force b reps next, clean_step force b ->
  apply_replacements true force b reps next
  = if step_ok force reps b then Ok (push_all next (bstepped force reps b)) else Panic.
Proof.
  intros force b. induction reps as [|x reps IH]; intros next C; [reflexivity|]. cbn [apply_replacements bstepped map step_ok forallb].
  destruct (process_next_replacement b x force) as [b'| |] eqn:E; [|reflexivity|exfalso; exact (C x E)]. cbn [bind andb].
  rewrite IH by assumption. reflexivity.
Qed.
Lemma apply_to_branches_all : forall force reps bs next, (forall b, In b bs -> clean_step force b) ->
  apply_to_branches true force bs reps next
  = if forallb (step_ok force reps) bs then Ok (push_all next (flat_map (bstepped force reps) bs)) else Panic.
Proof.
  intros force reps. induction bs as [|b bs IH]; intros next C; [reflexivity|]. cbn [apply_to_branches flat_map forallb].
  rewrite apply_replacements_all by (apply C; now left). destruct (step_ok force reps b); [|reflexivity]. cbn [bind andb].
  rewrite IH by (intros x Hx; apply C; now right). now rewrite push_all_app.
Qed.
Lemma bbranch_clean : forall sel force, whole sel = true -> clean_step force (bbranch sel).
Proof. intros sel force W x H. rewrite process_bbranch in H by assumption. destruct (whole (sel ++ [(x, force)])); discriminate H. Qed.
Lemma bstep_ok : forall sel force reps, whole sel = true ->
  step_ok force reps (bbranch sel) = forallb (fun x => whole (sel ++ [(x, force)])) reps.
Proof.
  intros sel force reps W. induction reps as [|x reps IH]; [reflexivity|]. cbn [step_ok forallb]. rewrite process_bbranch by assumption.
  fold (step_ok force reps (bbranch sel)). rewrite IH. destruct (whole (sel ++ [(x, force)])); reflexivity.
Qed.
Lemma forallb_In_eq : forall A (f : A -> bool) l l', (forall x, In x l <-> In x l') -> forallb f l = forallb f l'.
Proof.
  intros A f l l' H. apply eq_true_iff_eq. rewrite !forallb_forall. split; intros K x I; apply K; now apply H.
Qed.
Lemma step_all : forall P reps force, (forall sel, In sel P -> whole sel = true) ->
  apply_to_branches true force (push_all [] (map bbranch P)) reps []
  = if forallb whole (extend P (reps, force)) then Ok (push_all [] (map bbranch (extend P (reps, force)))) else Panic.
Proof.
  intros P reps force A. rewrite apply_to_branches_all.
  - rewrite (forallb_In_eq _ _ (push_all [] (map bbranch P)) (map bbranch P)) by (intros x; rewrite push_all_In; cbn [In]; tauto).
    assert (E : forallb (step_ok force reps) (map bbranch P) = forallb whole (extend P (reps, force))).
    { clear - A. induction P as [|sel P IH]; [reflexivity|]. cbn [map forallb extend flat_map]. fold (extend P (reps, force)).
      rewrite forallb_app, bstep_ok by (apply A; now left). rewrite IH by (intros s Hs; apply A; now right). f_equal.
      cbn [fst snd]. clear. induction reps as [|x reps IH]; [reflexivity|]. cbn [map forallb]. now rewrite IH. }
    rewrite E. destruct (forallb whole (extend P (reps, force))) eqn:F; [|reflexivity]. rewrite push_all_flat. cbn [app]. do 2 f_equal.
    clear E. induction P as [|sel P IH]; [reflexivity|]. cbn [map flat_map extend] in *. fold (extend P (reps, force)) in *.
    rewrite forallb_app in F. apply andb_true_iff in F as [F1 F2]. rewrite map_app. f_equal.
    + cbn [fst snd] in *. unfold bstepped. rewrite map_map. apply map_ext_in. intros x Hx. rewrite process_bbranch by (apply A; now left).
      rewrite forallb_forall in F1. rewrite F1; [reflexivity|]. apply in_map_iff. now exists x.
    + apply IH; [|assumption]. intros s Hs. apply A. now right.
  - intros b Hb. apply push_all_In in Hb as [[]|Hb]. apply in_map_iff in Hb as (sel & <- & I). apply bbranch_clean. now apply A.
Qed.
(** Replacement lists are never empty. *)
Definition table_full (tbl : table) : Prop :=
  forall c r, In r (tbl c) -> (exists p, r_pattern r = c :: p) /\ r_at_start r <> [] /\ r_before_vowel r <> [] /\ r_default r <> [].
Lemma choose_full : forall tbl c r at_start rest, table_full tbl -> In r (tbl c) -> choose_replacements r at_start rest <> [].
Proof.
  intros tbl c r at_start rest OK I. destruct (OK c r I) as (_ & H1 & H2 & H3). unfold choose_replacements.
  destruct at_start; [assumption|]. destruct (starts_with_vowel rest); assumption.
Qed.
Lemma fold_extend_torn : forall ev P, (forall e, In e ev -> fst e <> []) ->
  forallb whole P = false -> forallb whole (fold_left extend ev P) = false.
Proof.
  induction ev as [|[rs mn] ev IH]; intros P N F; [exact F|]. cbn [fold_left]. apply IH; [intros e He; apply N; now right|].
  destruct rs as [|r rs]; [elim (N ([], mn) (or_introl eq_refl)); reflexivity|].
  induction P as [|sel P IHP]; [discriminate|].
  change (extend (sel :: P) (r :: rs, mn)) with (map (fun x => sel ++ [(x, mn)]) (r :: rs) ++ extend P (r :: rs, mn)).
  rewrite forallb_app. cbn [forallb map] in F |- *. destruct (whole (sel ++ [(r, mn)])) eqn:W; [|reflexivity].
  apply whole_prefix in W. rewrite W in F. cbn [andb] in F. rewrite (IHP F). apply andb_false_r.
Qed.
Lemma loop_bytes : forall d tbl, holds_table d tbl -> table_full tbl ->
  forall prev s ev, dm_scan_any tbl prev s ev ->
  (forall e, In e ev -> fst e <> [])
  /\ forall P, (forall sel, In sel P -> whole sel = true) ->
     dms_loop d true 0 prev (push_all [] (map bbranch P)) s
     = if forallb whole (fold_left extend ev P) then Ok (push_all [] (map bbranch (fold_left extend ev P))) else Panic.
Proof.
  intros d tbl HT OK prev s ev H.
  induction H as [prev|prev c s ev H1 _ IH|prev c s ev H1 H2 _ IH|prev c s r rest ev H1 H2 _ IH]; (split; [|intros P A]).
  - intros e [].
  - cbn [dms_loop fold_left]. rewrite (proj2 (forallb_forall _ _) A). reflexivity.
  - apply IH.
  - cbn [dms_loop]. rewrite HT, H1. now apply IH.
  - apply IH.
  - cbn [dms_loop]. rewrite HT. destruct (tbl c) as [|x l] eqn:T; [congruence|]. cbv iota.
    rewrite (proj2 (find_sorted_none _ _) H2). now apply IH.
  - pose proof (best_rule_In _ _ _ H1) as I. intros e [<-|He]; [|now apply IH]. now apply (choose_full tbl c).
  - cbn [dms_loop]. rewrite HT. pose proof (best_rule_In _ _ _ H1) as I.
    destruct (tbl c) as [|x l] eqn:T; [destruct I|]. cbv iota. rewrite <- T in *.
    rewrite (best_rule_find _ _ _ H1). cbv iota.
    rewrite get_replacements_any, <- H2.
    match goal with |- context[apply_to_branches true ?f _ _ []] => set (force := f) end.
    rewrite (step_all P _ force A). cbn [fold_left]. destruct IH as [IH0 IH].
    set (Q := extend P (choose_replacements r (prev =? 0) rest, force)) in *.
    destruct (forallb whole Q) eqn:F.
    + cbn [bind]. destruct (OK c r I) as ((p & Hp) & _).
      rewrite dms_loop_skip, (skip_any (r_pattern r) c s) by (rewrite Hp; reflexivity). rewrite <- H2.
      apply IH. now apply forallb_forall.
    + cbn [bind]. rewrite fold_extend_torn by assumption. reflexivity.
Qed.
Lemma whole_app : forall b a, whole (a ++ b) = true -> whole a = true.
Proof.
  induction b as [|x b IH] using rev_ind; intros a W; [now rewrite app_nil_r in W|]. rewrite app_assoc in W. apply IH.
  now apply whole_prefix in W.
Qed.
Lemma loop_bytes_first : forall d tbl, holds_table d tbl -> table_full tbl ->
  forall prev s ev, dm_scan_any tbl prev s ev -> forall sel, whole sel = true ->
  dms_loop d false 0 prev [bbranch sel] s
  = if whole (sel ++ first_selection ev) then Ok [bbranch (sel ++ first_selection ev)] else Panic.
Proof.
  intros d tbl HT OK prev s ev H.
  induction H as [prev|prev c s ev H1 _ IH|prev c s ev H1 H2 _ IH|prev c s r rest ev H1 H2 _ IH]; intros sel W.
  - cbn [first_selection map]. rewrite app_nil_r, W. reflexivity.
  - cbn [dms_loop]. rewrite HT, H1. now apply IH.
  - cbn [dms_loop]. rewrite HT. destruct (tbl c) as [|x l] eqn:T; [congruence|]. cbv iota.
    rewrite (proj2 (find_sorted_none _ _) H2). now apply IH.
  - cbn [dms_loop]. rewrite HT. pose proof (best_rule_In _ _ _ H1) as I.
    destruct (tbl c) as [|x l] eqn:T; [destruct I|]. cbv iota. rewrite <- T in *.
    rewrite (best_rule_find _ _ _ H1). cbv iota.
    rewrite get_replacements_any, <- H2.
    pose proof (choose_full tbl c r (prev =? 0) rest OK I) as CO.
    match goal with |- context[apply_to_branches false ?f _ _ []] => set (force := f) end.
    cbn [first_selection map fst snd]. destruct (choose_replacements r (prev =? 0) rest) as [|y reps]; [congruence|].
    cbn [apply_to_branches apply_replacements hd]. rewrite process_bbranch by assumption.
    change (map (fun e => (hd [] (fst e), snd e)) ev) with (first_selection ev).
    destruct (whole (sel ++ [(y, force)])) eqn:W'.
    + cbn [bind]. unfold push_branch at 1. cbn [existsb app]. destruct (OK c r I) as ((p & Hp) & _).
      rewrite dms_loop_skip, (skip_any (r_pattern r) c s) by (rewrite Hp; reflexivity). rewrite <- H2, IH by assumption.
      rewrite <- app_assoc. reflexivity.
    + cbn [bind]. match goal with |- _ = (if whole ?z then _ else _) => destruct (whole z) eqn:W2 end; [|reflexivity].
      change ((y, force) :: first_selection ev) with ([(y, force)] ++ first_selection ev) in W2. rewrite app_assoc in W2.
      apply whole_app in W2. congruence.
Qed.

(** ** The selections that are kept *)
Lemma bbranch_last : forall sel, br_last (bbranch sel) = hd_error (rev (map fst sel)).
Proof. intros sel. unfold bbranch. cbn [br_last]. rewrite <- map_rev. now destruct (rev sel) as [|[r f] l]. Qed.
Lemma byte_indistinct_branch : forall a b, whole a = true -> whole b = true -> (byte_indistinct a b <-> bbranch a = bbranch b).
Proof.
  intros a b Wa Wb. unfold byte_indistinct, whole in *. apply negb_true_iff in Wa, Wb. rewrite <- !bbranch_last. split.
  - intros [(c & H1 & H2) H3]. apply (first_six_takeb _ Wa) in H1. apply (first_six_takeb _ Wb) in H2. unfold bbranch in *. cbn [br_last] in H3.
    now rewrite <- H1, <- H2, H3.
  - intros H. split; [|now rewrite H]. exists (takeb 6 (kept None a)). split; [now apply first_six_takeb|].
    apply first_six_takeb; [assumption|]. exact (f_equal br_builder H).
Qed.
Lemma first_of_each_bbranches : forall l, (forall x, In x l -> whole x = true) ->
  exists k, first_of_each byte_indistinct l k /\ map bbranch k = push_all [] (map bbranch l).
Proof.
  induction l as [|a l IH] using rev_ind; intros W; [exists []; split; [constructor|reflexivity]|].
  destruct IH as (k & H & E); [intros x Hx; apply W; apply in_or_app; now left|].
  assert (Wa : whole a = true) by (apply W; apply in_or_app; right; now left).
  assert (Wk : forall x, In x k -> whole x = true).
  { intros x Hx. apply W. apply in_or_app. left. eapply first_of_each_incl; eassumption. }
  rewrite map_app, push_all_app, <- E. cbn [map push_all fold_left].
  destruct (branch_in_dec (bbranch a) (map bbranch k)) as [I|I].
  - exists k. split.
    + apply in_map_iff in I as (x & X & I). apply fe_drop with x; [assumption|assumption|]. apply byte_indistinct_branch; [now apply Wk|assumption|assumption].
    + now rewrite push_branch_present.
  - exists (k ++ [a]). split.
    + apply fe_keep; [assumption|]. intros x Hx R. apply I. apply byte_indistinct_branch in R; [|now apply Wk|assumption].
      rewrite <- R. now apply in_map.
    + rewrite push_branch_absent by assumption. now rewrite map_app.
Qed.
