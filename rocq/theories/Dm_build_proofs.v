(** * Proofs about the Daitch-Mokotoff builder. *)
From Verif Require Import Base UnicodeM Lib Helper RulesParser DaitchMokotoff BaseLemmas Spec_common Spec_rules Spec_dm
  Spec_dm_file Rules_proofs Soundex_proofs UnicodeLemmas DoubleMetaphone_proofs Dm_proofs.
Local Open Scope N_scope.

Lemma no_quad : forall s, quadruplet s = None <-> forall q r, ~ quad_line s q r.
Proof.
  intros s. split.
  - intros H q r K. apply quadruplet_spec in K. congruence.
  - intros H. destruct (quadruplet s) as [[q r]|] eqn:E; [|reflexivity]. apply quadruplet_spec in E. now elim (H q r).
Qed.
Lemma no_fold : forall s, folding s = None <-> forall q r, ~ fold_line s q r.
Proof.
  intros s. split.
  - intros H q r K. apply folding_spec in K. congruence.
  - intros H. destruct (folding s) as [[q r]|] eqn:E; [|reflexivity]. apply folding_spec in E. now elim (H q r).
Qed.
Lemma no_end : forall s, end_of_line s = None <-> forall r, ~ line_end s r.
Proof.
  intros s. split.
  - intros H r K. apply end_of_line_spec in K as [v K]. congruence.
  - intros H. destruct (end_of_line s) as [[v r]|] eqn:E; [|reflexivity]. elim (H r). apply end_of_line_spec. eauto.
Qed.
Lemma no_mlc : forall s, multiline_comment s = None <-> forall n r, ~ comment_line s n r.
Proof.
  intros s. split.
  - intros H q r K. apply multiline_comment_spec in K. congruence.
  - intros H. destruct (multiline_comment s) as [[q r]|] eqn:E; [|reflexivity]. apply multiline_comment_spec in E. now elim (H q r).
Qed.

(** One line as a function. *)
Definition next_line (s : ustr) : option (dm_item * ustr) :=
  match quadruplet s with
  | Some ((a, b, c, d), rm) => Some (DmRule a b c d, rm)
  | None =>
  match folding s with
  | Some ((x, y), rm) => Some (DmFold x y, rm)
  | None =>
  match end_of_line s with
  | Some (_, rm) => Some (DmBlank, rm)
  | None =>
  match multiline_comment s with
  | Some (n, rm) => Some (DmComment n, rm)
  | None => None
  end end end end.
Lemma next_line_spec : forall s i r, s <> [] -> (next_line s = Some (i, r) <-> dm_line s i r).
Proof.
  intros s i r N. unfold next_line. split.
  - intros H. destruct (quadruplet s) as [[[[[a b] c] d] rm]|] eqn:E1.
    { injection H as <- <-. constructor. now apply quadruplet_spec. }
    pose proof (proj1 (no_quad s) E1) as K1. destruct (folding s) as [[[x y] rm]|] eqn:E2.
    { injection H as <- <-. constructor; [assumption|]. now apply folding_spec. }
    pose proof (proj1 (no_fold s) E2) as K2. destruct (end_of_line s) as [[v rm]|] eqn:E3.
    { injection H as <- <-. constructor; try assumption. apply end_of_line_spec. eauto. }
    pose proof (proj1 (no_end s) E3) as K3. destruct (multiline_comment s) as [[n rm]|] eqn:E4; [|discriminate].
    injection H as <- <-. constructor; try assumption. now apply multiline_comment_spec.
  - intros H. destruct H as [s a b c d rest H|s x y rest H1 H|s rest _ H1 H2 H|s n rest H1 H2 H3 H].
    + apply quadruplet_spec in H. now rewrite H.
    + apply no_quad in H1. apply folding_spec in H. now rewrite H1, H.
    + apply no_quad in H1. apply no_fold in H2. apply end_of_line_spec in H as [v H]. now rewrite H1, H2, H.
    + apply no_quad in H1. apply no_fold in H2. apply no_end in H3. apply multiline_comment_spec in H.
      now rewrite H1, H2, H3, H.
Qed.
Lemma dm_line_progress : forall s i r, s <> [] -> dm_line s i r -> (length r < length s)%nat.
Proof.
  intros s i r N H.
  assert (P : exists c, s = c ++ r /\ c <> []).
  { destruct H as [s a b c d rest H|s x y rest H1 H|s rest _ H1 H2 H|s n rest H1 H2 H3 H].
    - eapply quad_progress; exact H.
    - eapply fold_progress; exact H.
    - now apply end_progress.
    - eapply comment_progress; exact H. }
  destruct P as (c & -> & K). rewrite app_length. destruct c; [congruence|]. cbn [length]. lia.
Qed.
Lemma dm_line_nonempty : forall i r, ~ dm_line [] i r.
Proof.
  intros i r H. inversion H as [? a b c d ? Q|? x y ? Q1 Q|? ? Q0 Q1 Q2 Q|? n ? Q1 Q2 Q3 Q]; subst.
  - apply quad_progress in Q as ([|] & Q & K); [congruence|discriminate].
  - apply fold_progress in Q as ([|] & Q & K); [congruence|discriminate].
  - congruence.
  - apply comment_progress in Q as ([|] & Q & K); [congruence|discriminate].
Qed.
Lemma dm_file_exists : forall n s, (length s <= n)%nat -> exists items rem, dm_file s items rem.
Proof.
  induction n as [|n IH]; intros s L.
  - destruct s; [|cbn in L; lia]. exists [], []. constructor.
  - destruct s as [|x s]; [exists [], []; constructor|].
    destruct (next_line (x :: s)) as [[i r]|] eqn:E.
    + apply next_line_spec in E; [|discriminate]. assert (P : (length r < length (x :: s))%nat) by (eapply dm_line_progress; [discriminate|exact E]).
      destruct (IH r ltac:(cbn [length] in *; lia)) as (items & rem & H). exists (i :: items), rem. econstructor; eassumption.
    + exists [], (x :: s). constructor; [discriminate|]. intros i r H. apply next_line_spec in H; [|discriminate]. congruence.
Qed.
Lemma dm_file_unique : forall s items rem, dm_file s items rem -> forall items' rem', dm_file s items' rem' ->
  items = items' /\ rem = rem'.
Proof.
  intros s items rem H. induction H as [|s N S|s i r items rem L H IH]; intros items' rem' H'.
  - inversion H' as [|? N S|? i r ? ? L H2]; subst; [auto|auto|]. now apply dm_line_nonempty in L.
  - inversion H' as [|? N' S'|? i r ? ? L H2]; subst; [congruence|auto|]. now elim (S i r).
  - inversion H' as [|? N' S'|? i' r' ? ? L' H2]; subst.
    + now apply dm_line_nonempty in L.
    + now elim (S' i r).
    + assert (N : s <> []) by (intros ->; now apply dm_line_nonempty in L).
      apply next_line_spec in L, L'; try assumption. rewrite L in L'. injection L' as <- <-.
      destruct (IH _ _ H2) as [-> ->]. auto.
Qed.

(** The tables built. *)
Definition rules_hold (rules : list (N * list Rule)) (tbl : table) : Prop :=
  forall c, assoc c rules = match tbl c with [] => None | l => Some l end.
Definition folds_hold (foldings : list (N * N)) (f : N -> option N) : Prop := forall c, assoc c foldings = f c.

Lemma assoc_entry_push : forall k x l c,
  assoc c (entry_push k x l) = if k =? c then Some (match assoc c l with Some v => v ++ [x] | None => [x] end) else assoc c l.
Proof.
  intros k x. induction l as [|[k' v] l IH]; intros c; cbn [entry_push assoc].
  - reflexivity.
  - destruct (k' =? k) eqn:E; cbn [assoc].
    + apply N.eqb_eq in E. subst k'. destruct (k =? c); reflexivity.
    + rewrite IH. destruct (k' =? c) eqn:E2; [|reflexivity]. apply N.eqb_eq in E2. subst k'.
      rewrite N.eqb_sym, E. reflexivity.
Qed.
Lemma assoc_assoc_insert : forall A k (v : A) l c, assoc c (assoc_insert k v l) = if k =? c then Some v else assoc c l.
Proof.
  intros A k v. induction l as [|[k' v'] l IH]; intros c; cbn [assoc_insert assoc].
  - reflexivity.
  - destruct (k' =? k) eqn:E; cbn [assoc].
    + apply N.eqb_eq in E. subst k'. destruct (k =? c); reflexivity.
    + rewrite IH. destruct (k' =? c) eqn:E2; [|reflexivity]. apply N.eqb_eq in E2. subst k'.
      rewrite N.eqb_sym, E. reflexivity.
Qed.
Lemma table_of_app : forall a b c, table_of (a ++ b) c = table_of a c ++ table_of b c.
Proof.
  induction a as [|i a IH]; intros b c; [reflexivity|]. cbn [app table_of].
  destruct i as [p q r s|x y| |n]; try apply IH. destruct p as [|x p]; [apply IH|].
  destruct (x =? c); [cbn [app]; f_equal|]; apply IH.
Qed.
Lemma folding_of_app : forall a b c,
  folding_of (a ++ b) c = match folding_of b c with Some z => Some z | None => folding_of a c end.
Proof.
  induction a as [|i a IH]; intros b c; cbn [app folding_of]; [now destruct (folding_of b c)|].
  destruct i as [p q r s|x y| |n]; try apply IH. rewrite IH. now destruct (folding_of b c).
Qed.

Definition parse_result (items : list dm_item) (rem : ustr) (line0 : nat)
  (out : res ((list (N * list Rule) * list (N * N)) + ParseError)) (pre : list dm_item) : Prop :=
  ((exists i, In i items /\ empty_pattern i) /\ out = Panic)
  \/ ((forall i, In i items -> ~ empty_pattern i) /\ rem = [] /\
      exists rules foldings, out = Ok (inl (rules, foldings))
        /\ rules_hold rules (table_of (pre ++ items)) /\ folds_hold foldings (folding_of (pre ++ items)))
  \/ ((forall i, In i items -> ~ empty_pattern i) /\ rem <> [] /\
      out = Ok (inr (build_error (line0 + reported_lines items + 1) None rem CANT_RECOGNIZE))).

Lemma parse_result_cons : forall i items rem line0 line1 out pre,
  ~ empty_pattern i -> (line1 = line0 + reported_lines [i])%nat ->
  parse_result items rem line1 out (pre ++ [i]) -> parse_result (i :: items) rem line0 out pre.
Proof.
  intros i items rem line0 line1 out pre N -> [((j & J1 & J2) & ->)|[(H1 & H2 & rules & foldings & H3 & H4 & H5)|(H1 & H2 & H3)]].
  - left. split; [|reflexivity]. exists j. split; [now right|assumption].
  - right. left. split; [intros j [<-|J]; auto|]. split; [assumption|]. exists rules, foldings.
    rewrite <- app_assoc in H4, H5. auto.
  - right. right. split; [intros j [<-|J]; auto|]. split; [assumption|]. rewrite H3. do 3 f_equal.
    unfold reported_lines. cbn [map list_sum fold_right]. unfold list_sum. lia.
Qed.

Lemma next_line_parse : forall fuel rules foldings line s, s <> [] ->
  dms_parse (S fuel) rules foldings line s =
  match next_line s with
  | Some (DmRule a b c d, rm) =>
      match a with
      | [] => Panic
      | x :: _ => dms_parse fuel (entry_push x (rule_of_parts (a, b, c, d)) rules) foldings (S line) rm
      end
  | Some (DmFold x y, rm) => dms_parse fuel rules (assoc_insert x y foldings) (S line) rm
  | Some (DmBlank, rm) => dms_parse fuel rules foldings (S line) rm
  | Some (DmComment n, rm) => dms_parse fuel rules foldings (S line + n) rm
  | None => Ok (inr (build_error (S line) None s CANT_RECOGNIZE))
  end.
Proof.
  intros fuel rules foldings line s N. destruct s as [|x s]; [congruence|]. cbn [dms_parse]. unfold next_line.
  destruct (quadruplet (x :: s)) as [[[[[a b] c] d] rm]|].
  - cbn [rule_of_parts r_pattern]. destruct a; reflexivity.
  - destruct (folding (x :: s)) as [[[y z] rm]|]; [reflexivity|].
    destruct (end_of_line (x :: s)) as [[v rm]|]; [reflexivity|].
    destruct (multiline_comment (x :: s)) as [[n rm]|]; reflexivity.
Qed.

Lemma dms_parse_spec : forall s items rem, dm_file s items rem ->
  forall fuel rules foldings line pre, (length s <= fuel)%nat ->
  rules_hold rules (table_of pre) -> folds_hold foldings (folding_of pre) ->
  parse_result items rem line (dms_parse fuel rules foldings line s) pre.
Proof.
  intros s items rem H. induction H as [|s N S|s i r items rem L H IH]; intros fuel rules foldings line pre F R O.
  - right. left. split; [intros ? []|]. split; [reflexivity|]. exists rules, foldings. rewrite app_nil_r.
    split; [|auto]. destruct fuel; reflexivity.
  - destruct fuel as [|fuel]; [destruct s; [congruence|cbn in F; lia]|].
    rewrite next_line_parse by assumption. destruct (next_line s) as [[i r]|] eqn:E.
    + apply next_line_spec in E; [|assumption]. now elim (S i r).
    + right. right. split; [intros ? []|]. split; [assumption|]. do 3 f_equal. cbn. lia.
  - assert (N : s <> []) by (intros ->; now apply dm_line_nonempty in L).
    pose proof (dm_line_progress _ _ _ N L) as P.
    destruct fuel as [|fuel]; [lia|]. rewrite next_line_parse by assumption.
    apply next_line_spec in L; [|assumption]. rewrite L.
    destruct i as [a b c d|x y| |n].
    + destruct a as [|x a].
      * left. split; [|reflexivity]. exists (DmRule [] b c d). split; [now left|]. unfold empty_pattern. eauto.
      * apply parse_result_cons with (line1 := Datatypes.S line).
        { intros (? & ? & ? & K). discriminate. }
        { cbn. lia. }
        apply IH; [lia| |].
        -- intros k. rewrite assoc_entry_push, table_of_app. cbn [table_of]. rewrite R.
           destruct (x =? k).
           ++ destruct (table_of pre k) as [|t l]; reflexivity.
           ++ rewrite app_nil_r. exact (R k).
        -- intros k. rewrite folding_of_app. cbn [folding_of]. exact (O k).
    + apply parse_result_cons with (line1 := Datatypes.S line).
      { intros (? & ? & ? & K). discriminate. }
      { cbn. lia. }
      apply IH; [lia| |].
      * intros k. rewrite table_of_app. cbn [table_of]. rewrite app_nil_r. exact (R k).
      * intros k. rewrite assoc_assoc_insert, folding_of_app. cbn [folding_of].
        destruct (x =? k); [reflexivity|exact (O k)].
    + apply parse_result_cons with (line1 := Datatypes.S line).
      { intros (? & ? & ? & K). discriminate. }
      { cbn. lia. }
      apply IH; [lia| |].
      * intros k. rewrite table_of_app. cbn [table_of]. rewrite app_nil_r. exact (R k).
      * intros k. rewrite folding_of_app. cbn [folding_of]. exact (O k).
    + apply parse_result_cons with (line1 := (Datatypes.S line + n)%nat).
      { intros (? & ? & ? & K). discriminate. }
      { cbn. lia. }
      apply IH; [lia| |].
      * intros k. rewrite table_of_app. cbn [table_of]. rewrite app_nil_r. exact (R k).
      * intros k. rewrite folding_of_app. cbn [folding_of]. exact (O k).
Qed.

Lemma assoc_map : forall A B (f : A -> B) l c,
  assoc c (map (fun kv => (fst kv, f (snd kv))) l) = match assoc c l with Some v => Some (f v) | None => None end.
Proof.
  intros A B f. induction l as [|[k v] l IH]; intros c; [reflexivity|]. cbn [map assoc fst snd].
  destruct (k =? c); [reflexivity|apply IH].
Qed.

Theorem dms_build_spec : forall text flag items rem, dm_file text items rem ->
  ((exists i, In i items /\ empty_pattern i) /\ dms_build text flag = Panic)
  \/ ((forall i, In i items -> ~ empty_pattern i) /\ rem = [] /\
      exists d, dms_build text flag = Ok (inl d)
        /\ holds_table d (table_of items)
        /\ (forall c, assoc c (dms_folding_rules d) = folding_of items c)
        /\ dms_ascii_folding d = flag)
  \/ ((forall i, In i items -> ~ empty_pattern i) /\ rem <> [] /\
      dms_build text flag = Ok (inr (build_error (reported_lines items + 1) None rem CANT_RECOGNIZE))).
Proof.
  intros text flag items rem H. unfold dms_build.
  destruct (dms_parse_spec _ _ _ H (length text) [] [] 0%nat [] (le_n _))
    as [((i & I1 & I2) & E)|[(H1 & H2 & rules & foldings & E & R & F)|(H1 & H2 & E)]].
  - intros c. reflexivity.
  - intros c. reflexivity.
  - left. rewrite E. split; [eauto|reflexivity].
  - right. left. split; [assumption|]. split; [assumption|]. rewrite E. cbn [bind]. eexists. split; [reflexivity|].
    cbn [app] in R, F. split; [|split; [|reflexivity]].
    + intros c. cbn [dms_rules]. rewrite (assoc_map _ _ sort_rules), R. now destruct (table_of items c).
    + intros c. cbn [dms_folding_rules]. apply F.
  - right. right. split; [assumption|]. split; [assumption|]. rewrite E. cbn [bind].
    rewrite Nat.add_0_l. reflexivity.
Qed.

(** Splitting in alternatives. *)
Lemma split_alternatives : forall s l, split_on (# "|") s = l <-> alternatives s l.
Proof.
  intros s l. split.
  - revert l. induction s as [|c s IH]; intros l H.
    + cbn in H. subst l. constructor. intros [].
    + cbn [split_on] in H. destruct (c =? # "|") eqn:E.
      * apply N.eqb_eq in E. subst l. subst c. apply (more_alternatives []); [intros []|]. now apply IH.
      * assert (NE : c <> # "|") by now apply N.eqb_neq.
        destruct (split_on (# "|") s) as [|p ps] eqn:S; [now apply split_on_nonempty in S|].
        subst l. specialize (IH _ eq_refl). inversion IH as [? N|a t ? N A]; subst.
        -- constructor. intros [K|K]; [congruence|contradiction].
        -- change (c :: p ++ # "|" :: t) with ((c :: p) ++ # "|" :: t). constructor; [|assumption].
           intros [K|K]; [congruence|contradiction].
  - intros H. induction H as [s N|s t l N A IH].
    + now apply split_on_nosep.
    + rewrite split_on_app by assumption. now rewrite IH.
Qed.
Lemma alternatives_incl : forall s l, alternatives s l -> l <> [] /\ forall a, In a l -> incl a s.
Proof.
  intros s l H. induction H as [s N|s t l N A [IH1 IH2]].
  - split; [discriminate|]. intros a [<-|[]] x Hx. exact Hx.
  - split; [discriminate|]. intros a [<-|Ha] x Hx.
    + apply in_or_app. now left.
    + apply in_or_app. right. right. now apply (IH2 a Ha).
Qed.
Lemma replacements_of_part : forall s, ascii_str s -> replacements_ok (parse_branch s).
Proof.
  intros s A. unfold parse_branch. destruct (alternatives_incl s (split_on (# "|") s)) as [N I].
  { now apply split_alternatives. }
  split; [assumption|]. intros r Hr c Hc. apply A. now apply (I r Hr).
Qed.
Lemma table_of_In : forall items c r, In r (table_of items c) <->
  exists p a b d, In (DmRule (c :: p) a b d) items /\ r = rule_of_parts (c :: p, a, b, d).
Proof.
  induction items as [|i items IH]; intros c r; cbn [table_of].
  - split; [intros []|intros (p & a & b & d & [] & _)].
  - assert (K : In r (table_of items c) <-> exists p a b d, In (DmRule (c :: p) a b d) items /\ r = rule_of_parts (c :: p, a, b, d)) by apply IH.
    destruct i as [q a b d|x y| |n].
    + destruct q as [|x q].
      * rewrite K. split.
        -- intros (p & a' & b' & d' & I & E). exists p, a', b', d'. split; [now right|assumption].
        -- intros (p & a' & b' & d' & [I|I] & E); [discriminate|]. eauto 6.
      * destruct (x =? c) eqn:E.
        -- apply N.eqb_eq in E. subst x. cbn [In]. rewrite K. split.
           ++ intros [<-|(p & a' & b' & d' & I & E)].
              ** exists q, a, b, d. auto.
              ** exists p, a', b', d'. auto.
           ++ intros (p & a' & b' & d' & [I|I] & E).
              ** injection I as -> -> -> ->. left. now symmetry.
              ** right. eauto 6.
        -- rewrite K. split.
           ++ intros (p & a' & b' & d' & I & E'). exists p, a', b', d'. split; [now right|assumption].
           ++ intros (p & a' & b' & d' & [I|I] & E').
              ** injection I as -> _ _ _ _. now rewrite N.eqb_refl in E.
              ** eauto 6.
    + rewrite K. split; intros (p & a' & b' & d' & I & E); exists p, a', b', d'; (split; [|assumption]); [now right|]. destruct I as [I|I]; [discriminate|assumption].
    + rewrite K. split; intros (p & a' & b' & d' & I & E); exists p, a', b', d'; (split; [|assumption]); [now right|]. destruct I as [I|I]; [discriminate|assumption].
    + rewrite K. split; intros (p & a' & b' & d' & I & E); exists p, a', b', d'; (split; [|assumption]); [now right|]. destruct I as [I|I]; [discriminate|assumption].
Qed.
Lemma table_of_ok : forall items, (forall i, In i items -> ascii_item i) -> table_ok (table_of items).
Proof.
  intros items A c r H. apply table_of_In in H as (p & a & b & d & I & ->).
  destruct (A _ I _ _ _ _ eq_refl) as (A1 & A2 & A3). cbn [rule_of_parts r_pattern r_at_start r_before_vowel r_default].
  split; [eauto|]. split; [|split]; now apply replacements_of_part.
Qed.
Lemma holds_ascii_total : forall d tbl, holds_table d tbl -> table_ok tbl -> dms_chars (fun c => c < 128) d /\ dms_total d.
Proof.
  intros d tbl H T. split.
  - intros c rules r x E I X. rewrite H in E. destruct (tbl c) as [|y l] eqn:C; [discriminate|]. injection E as <-.
    apply (proj1 (sort_In (y :: l) r)) in I; rewrite <- C in I; destruct (T c r I) as (_ & (_ & T1) & (_ & T2) & (_ & T3)).
    apply in_app_or in X as [X|X]; [exact (T1 x X)|]. apply in_app_or in X as [X|X]; [exact (T2 x X)|exact (T3 x X)].
  - intros c rules r E I. rewrite H in E. destruct (tbl c) as [|y l] eqn:C; [discriminate|]. injection E as <-.
    apply (proj1 (sort_In (y :: l) r)) in I; rewrite <- C in I; destruct (T c r I) as (_ & (T1 & _) & (T2 & _) & (T3 & _)). auto.
Qed.
