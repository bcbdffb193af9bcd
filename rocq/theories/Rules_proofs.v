(** * The rule-file parsers recognise exactly the grammar. *)
From Verif Require Import Base UnicodeM RulesParser BaseLemmas Spec_common Spec_rules Soundex_proofs UnicodeLemmas.
Local Open Scope N_scope.

Lemma span_spec : forall f s a b, span f s = (a, b) ->
  s = a ++ b /\ (forall c, In c a -> f c = true) /\ (forall c r, b = c :: r -> f c = false).
Proof.
  intros f. induction s as [|c s IH]; intros a b H; cbn [span] in H.
  - injection H as <- <-. split; [reflexivity|]. split; [intros ? []|discriminate].
  - destruct (f c) eqn:E.
    + destruct (span f s) as [a' b'] eqn:E'. injection H as <- <-. destruct (IH a' b' eq_refl) as (-> & H1 & H2).
      split; [reflexivity|]. split; [|assumption]. intros x [<-|Hx]; auto.
    + injection H as <- <-. split; [reflexivity|]. split; [intros ? []|]. intros x r Hx. now injection Hx as <- <-.
Qed.
Lemma span_app : forall f a b, (forall c, In c a -> f c = true) ->
  (forall c r, b = c :: r -> f c = false) -> span f (a ++ b) = (a, b).
Proof.
  intros f a b. induction a as [|c a IH]; intros Ha Hb; cbn [app].
  - destruct b as [|x b]; [reflexivity|]. cbn [span]. now rewrite (Hb x b eq_refl).
  - cbn [span]. rewrite Ha by (now left). rewrite IH; [reflexivity| |assumption]. intros x Hx. apply Ha. now right.
Qed.
Lemma take_while1_spec : forall f s a b, take_while1 f s = Some (a, b) ->
  s = a ++ b /\ a <> [] /\ (forall c, In c a -> f c = true) /\ (forall c r, b = c :: r -> f c = false).
Proof.
  intros f s a b H. unfold take_while1 in H. destruct (span f s) as [x y] eqn:E.
  destruct x as [|x0 x]; [discriminate|]. injection H as <- <-. apply span_spec in E as (-> & H1 & H2).
  split; [reflexivity|]. split; [discriminate|]. auto.
Qed.
Lemma take_while1_app : forall f a b, a <> [] -> (forall c, In c a -> f c = true) ->
  (forall c r, b = c :: r -> f c = false) -> take_while1 f (a ++ b) = Some (a, b).
Proof.
  intros f a b N Ha Hb. unfold take_while1. rewrite span_app by assumption. destruct a; [congruence|reflexivity].
Qed.
Lemma take_while1_none : forall f b, (forall c r, b = c :: r -> f c = false) -> take_while1 f b = None.
Proof.
  intros f b H. unfold take_while1. pose proof (span_app f [] b ltac:(intros ? []) H) as E. cbn [app] in E. now rewrite E.
Qed.
Lemma tag_spec : forall t s a r, tag t s = Some (a, r) <-> a = t /\ s = t ++ r.
Proof.
  intros t s a r. unfold tag. destruct (strip_prefix t s) as [r'|] eqn:E.
  - apply strip_prefix_spec in E. split.
    + intros H. injection H as <- <-. auto.
    + intros [-> H]. rewrite E in H. apply app_inv_head in H. now subst.
  - split; [discriminate|]. intros [_ H]. apply strip_prefix_spec in H. congruence.
Qed.
Lemma tag_app : forall t r, tag t (t ++ r) = Some (t, r).
Proof. intros. now apply tag_spec. Qed.
Lemma tag_none : forall t s, (forall r, s <> t ++ r) -> tag t s = None.
Proof.
  intros t s H. destruct (tag t s) as [[a r]|] eqn:E; [|reflexivity]. apply tag_spec in E as [_ E]. now elim (H r).
Qed.
Lemma pchar_spec : forall c s x r, pchar c s = Some (x, r) <-> x = c /\ s = c :: r.
Proof.
  intros c [|y s] x r; cbn [pchar]; split; try discriminate; try (intros [_ H]; discriminate).
  - destruct (y =? c) eqn:E; [|discriminate]. apply N.eqb_eq in E. intros H. injection H as <- <-. now subst.
  - intros [-> H]. injection H as -> ->. now rewrite N.eqb_refl.
Qed.
Lemma pbind_spec : forall A B (p : parser A) (f : A -> parser B) s b r,
  pbind p f s = Some (b, r) <-> exists a m, p s = Some (a, m) /\ f a m = Some (b, r).
Proof.
  intros A B p f s b r. unfold pbind. destruct (p s) as [[a m]|]; split.
  - intros H. eauto.
  - intros (a' & m' & H1 & H2). now injection H1 as <- <-.
  - discriminate.
  - intros (a' & m' & H1 & _). discriminate.
Qed.
Lemma terminated_spec : forall A B (p : parser A) (q : parser B) s a r,
  terminated p q s = Some (a, r) <-> exists m b, p s = Some (a, m) /\ q m = Some (b, r).
Proof.
  intros A B p q s a r. unfold terminated. rewrite pbind_spec. split.
  - intros (a' & m & H1 & H2). apply pbind_spec in H2 as (b & m' & H2 & H3). injection H3 as <- <-. eauto.
  - intros (m & b & H1 & H2). exists a, m. split; [assumption|]. apply pbind_spec. eauto.
Qed.

(** ** Line ends *)
Definition blankb (c : N) : bool := (c =? 32) || (c =? 9).
Lemma blankb_iff : forall c, blankb c = true <-> c = 32 \/ c = 9.
Proof. intros c. unfold blankb. now rewrite orb_true_iff, !N.eqb_eq. Qed.
Lemma blankb_false : forall c, c <> 32 -> c <> 9 -> blankb c = false.
Proof. intros c H1 H2. destruct (blankb c) eqn:E; [|reflexivity]. apply blankb_iff in E. tauto. Qed.
Lemma popt_space_spec : forall s o r, popt space1 s = Some (o, r) ->
  exists b, s = b ++ r /\ blanks b /\ (forall c t, r = c :: t -> blankb c = false).
Proof.
  intros s o r H. unfold popt in H. destruct (space1 s) as [[a m]|] eqn:E.
  - injection H as <- <-. apply take_while1_spec in E as (-> & _ & H1 & H2). exists a.
    split; [reflexivity|]. split; [|assumption]. intros c Hc. apply blankb_iff. now apply H1.
  - injection H as <- <-. exists []. split; [reflexivity|]. split; [intros ? []|].
    intros c t ->. destruct (blankb c) eqn:B; [|reflexivity]. exfalso.
    unfold space1, take_while1 in E. cbn [span] in E. fold (blankb c) in E. rewrite B in E.
    destruct (span _ t); discriminate.
Qed.
Lemma popt_space_app : forall b r, blanks b -> (forall c t, r = c :: t -> blankb c = false) ->
  exists o, popt space1 (b ++ r) = Some (o, r).
Proof.
  intros b r Hb Hr. unfold popt, space1. destruct b as [|x b].
  - cbn [app]. rewrite take_while1_none by assumption. eauto.
  - rewrite take_while1_app; [eauto|discriminate| |assumption]. intros c Hc. apply blankb_iff. now apply Hb.
Qed.
Lemma popt_eol_comment_spec : forall s o r, popt eol_comment s = Some (o, r) ->
  exists c, s = c ++ r /\ slash_comment c /\ (c <> [] -> forall x t, r = x :: t -> x = LF).
Proof.
  intros s o r H. unfold popt in H. destruct (eol_comment s) as [[a m]|] eqn:E.
  - injection H as <- <-. unfold eol_comment in E. apply pbind_spec in E as (tg & m1 & E1 & E2).
    apply tag_spec in E1 as [-> ->]. apply pbind_spec in E2 as (o2 & m2 & E2 & E3). injection E3 as <- <-.
    unfold popt in E2. destruct (is_not_lf m1) as [[t r]|] eqn:L.
    + injection E2 as <- <-. apply take_while1_spec in L as (-> & _ & L1 & L2).
      exists ($ "//" ++ t). split; [now rewrite <- app_assoc|]. split.
      * constructor. intros K. apply L1 in K. discriminate.
      * intros _ x t' ->. specialize (L2 x t' eq_refl). apply negb_false_iff, N.eqb_eq in L2. exact L2.
    + injection E2 as <- <-. exists ($ "//" ++ []). split; [now rewrite app_nil_r|]. split.
      * constructor. intros [].
      * intros _ x t' ->. destruct (x =? 10) eqn:X; [now apply N.eqb_eq in X|]. exfalso.
        unfold is_not_lf, take_while1 in L. cbn [span] in L. rewrite X in L. cbn [negb] in L.
        destruct (span _ t'); discriminate.
  - injection H as <- <-. exists []. split; [reflexivity|]. split; [constructor|]. congruence.
Qed.
Lemma popt_eol_comment_app : forall c r, slash_comment c ->
  (c <> [] -> forall x t, r = x :: t -> x = LF) ->
  (c = [] -> forall x t, r = x :: t -> x <> # "/") ->
  exists o, popt eol_comment (c ++ r) = Some (o, r).
Proof.
  intros c r [|t Ht] H1 H2.
  - cbn [app]. unfold popt, eol_comment, pbind. rewrite tag_none; [eauto|].
    intros r' ->. now elim (H2 eq_refl (# "/") (# "/" :: r') eq_refl).
  - rewrite <- app_assoc. unfold popt, eol_comment, pbind. rewrite tag_app.
    assert (N : $ "//" ++ t <> []) by discriminate.
    assert (R : forall x t', r = x :: t' -> negb (x =? 10) = false).
    { intros x t' E. rewrite (H1 N x t' E). reflexivity. }
    unfold popt. destruct t as [|x t].
    + cbn [app]. unfold is_not_lf. rewrite take_while1_none by exact R. cbn. eauto.
    + unfold is_not_lf. rewrite take_while1_app; [cbn; eauto|discriminate| |exact R].
      intros y Hy. apply negb_true_iff, N.eqb_neq. intros ->. contradiction.
Qed.

Lemma line_terminator_spec : forall s a r, palt eof (palt (tag [10]) (tag [13; 10])) s = Some (a, r) <->
  (s = [] /\ r = [] /\ a = []) \/ (s = LF :: r /\ a = [LF]) \/ (s = CR :: LF :: r /\ a = [CR; LF]).
Proof.
  intros s a r. unfold palt, eof. destruct s as [|x s].
  - split; [intros H; injection H as <- <-; auto|]. intros [(_ & -> & ->)|[[H _]|[H _]]]; [reflexivity|discriminate|discriminate].
  - destruct (tag [10] (x :: s)) as [[b m]|] eqn:E.
    + apply tag_spec in E as [-> E]. injection E as -> ->. split.
      * intros H. injection H as <- <-. auto.
      * intros [[H _]|[[H ->]|[H _]]]; [discriminate| |discriminate]. injection H as ->. reflexivity.
    + split.
      * intros H. apply tag_spec in H as [-> H]. cbn [app] in H. auto.
      * intros [[H _]|[[H _]|[H ->]]]; [discriminate| |].
        -- injection H as -> ->. change (LF :: r) with ([10] ++ r) in E. rewrite tag_app in E. discriminate.
        -- rewrite H. apply (tag_app [13; 10] r).
Qed.

Theorem end_of_line_spec : forall s rest, (exists v, end_of_line s = Some (v, rest)) <-> line_end s rest.
Proof.
  intros s rest. split.
  - intros [[v1 v2] H]. unfold end_of_line in H. apply terminated_spec in H as (m & b & H1 & H2).
    apply pbind_spec in H1 as (o1 & m1 & H1 & H3). apply pbind_spec in H3 as (o2 & m2 & H3 & H4).
    injection H4 as <- <- <-. apply popt_space_spec in H1 as (bl & -> & Hb & Hn).
    apply popt_eol_comment_spec in H3 as (c & -> & Hc & Hr).
    apply line_terminator_spec in H2 as [(-> & -> & _)|[[-> _]|[-> _]]].
    + rewrite app_nil_r. now constructor.
    + now constructor.
    + destruct c as [|x c]; [now constructor|]. exfalso.
      specialize (Hr ltac:(discriminate) CR (LF :: rest) eq_refl). discriminate.
  - assert (G : forall b c t, blanks b -> slash_comment c ->
        (c <> [] -> forall x r, t = x :: r -> x = LF) ->
        (forall x r, t = x :: r -> x = LF \/ x = CR) ->
        (exists a, palt eof (palt (tag [10]) (tag [13; 10])) t = Some (a, rest)) ->
        exists v, end_of_line (b ++ c ++ t) = Some (v, rest)).
    { intros b c t Hb Hc H1 H2 [a Ha].
      destruct (popt_space_app b (c ++ t) Hb) as [o1 E1].
      { intros x r E. destruct Hc as [|t' _].
        - cbn [app] in E. destruct (H2 x r E) as [-> | ->]; reflexivity.
        - injection E as <- _. reflexivity. }
      destruct (popt_eol_comment_app c t Hc H1) as [o2 E2].
      { intros -> x r E. destruct (H2 x r E) as [-> | ->]; discriminate. }
      exists (o1, o2). unfold end_of_line. apply terminated_spec. exists t, a. split; [|exact Ha].
      apply pbind_spec. exists o1, (c ++ t). split; [exact E1|]. apply pbind_spec. exists o2, t.
      split; [exact E2|reflexivity]. }
    intros H. destruct H as [b c rest Hb Hc|b rest Hb|b c Hb Hc].
    + apply G; [assumption|assumption| | |].
      * intros _ x r E. now injection E as <-.
      * intros x r E. injection E as <- _. now left.
      * exists [LF]. apply line_terminator_spec. auto.
    + apply (G b [] (CR :: LF :: rest)); [assumption|constructor|congruence| |].
      * intros x r E. injection E as <- _. now right.
      * exists [CR; LF]. apply line_terminator_spec. auto.
    + replace (b ++ c) with (b ++ c ++ []) by (now rewrite app_nil_r).
      apply G; [assumption|assumption|discriminate|discriminate|]. exists []. apply line_terminator_spec. auto.
Qed.

(** A line end starts with a blank, a slash, LF, CR, or is empty. *)
Lemma line_end_head : forall x s rest, line_end (x :: s) rest ->
  x = 32 \/ x = 9 \/ x = # "/" \/ x = LF \/ x = CR.
Proof.
  intros x s rest H. remember (x :: s) as t eqn:E. destruct H as [b c rest Hb Hc|b rest Hb|b c Hb Hc].
  - destruct b as [|y b].
    + destruct Hc; injection E as <- _; auto.
    + injection E as <- _. destruct (Hb y (or_introl eq_refl)); auto.
  - destruct b as [|y b]; injection E as <- _; auto. destruct (Hb y (or_introl eq_refl)); auto.
  - destruct b as [|y b].
    + destruct Hc; [discriminate|]. injection E as <- _. auto.
    + injection E as <- _. destruct (Hb y (or_introl eq_refl)); auto.
Qed.
Lemma line_end_suffix : forall s rest, line_end s rest -> exists c, s = c ++ rest /\ (s = [] \/ c <> []).
Proof.
  intros s rest [b c r Hb Hc|b r Hb|b c Hb Hc].
  - exists (b ++ c ++ [LF]). rewrite <- !app_assoc. split; [reflexivity|]. right.
    destruct b; [destruct c|]; discriminate.
  - exists (b ++ [CR; LF]). rewrite <- !app_assoc. split; [reflexivity|]. right. destruct b; discriminate.
  - exists (b ++ c). rewrite app_nil_r. split; [reflexivity|]. destruct (b ++ c); [now left|right; discriminate].
Qed.

(** ** Quoted parts *)
Lemma take_until_spec : forall t s a b, take_until t s = Some (a, b) <->
  s = a ++ b /\ starts_with b t = true /\ (forall a1 a2, a = a1 ++ a2 -> a2 <> [] -> starts_with (a2 ++ b) t = false).
Proof.
  intros t. induction s as [|c s IH]; intros a b; cbn [take_until].
  - destruct (starts_with [] t) eqn:E; split.
    + intros H. injection H as <- <-. split; [reflexivity|]. split; [assumption|].
      intros [|] a2 K; [cbn in K; subst; congruence|discriminate].
    + intros (K & K1 & K2). destruct a; [|discriminate]. cbn in K; now subst.
    + discriminate.
    + intros (K & K1 & _). destruct a; [|discriminate]. cbn in K. subst. congruence.
  - destruct (starts_with (c :: s) t) eqn:E; split.
    + intros H. injection H as <- <-. split; [reflexivity|]. split; [assumption|].
      intros [|] a2 K; [cbn in K; subst; congruence|discriminate].
    + intros (K & K1 & K2). destruct a as [|x a]; [cbn in K; now subst|].
      specialize (K2 [] (x :: a) eq_refl ltac:(discriminate)). rewrite <- K in K2. congruence.
    + destruct (take_until t s) as [[a' b']|] eqn:E'; [|discriminate]. intros H. injection H as <- <-.
      destruct (proj1 (IH a' b') eq_refl) as (-> & H1 & H2). split; [reflexivity|]. split; [assumption|].
      intros [|y a1] a2 K N.
      * cbn [app] in K. subst a2. exact E.
      * injection K as <- K. eapply H2; eassumption.
    + intros (K & K1 & K2). destruct a as [|x a].
      * cbn in K. subst b. congruence.
      * injection K as <- K. rewrite (proj2 (IH a b)); [reflexivity|]. split; [assumption|]. split; [assumption|].
        intros a1 a2 -> N. apply (K2 (c :: a1) a2); [reflexivity|assumption].
Qed.
Lemma starts_with1 : forall x s, starts_with s [x] = true <-> exists r, s = x :: r.
Proof. intros x s. rewrite starts_with_spec. reflexivity. Qed.
Lemma take_until_quote : forall t r, ~ In QUOTE t -> take_until [QUOTE] (t ++ QUOTE :: r) = Some (t, QUOTE :: r).
Proof.
  intros t r H. apply take_until_spec. split; [reflexivity|]. split; [apply starts_with1; eauto|].
  intros a1 [|y a2] E N; [congruence|]. destruct (starts_with _ _) eqn:S; [|reflexivity].
  apply starts_with1 in S as [r' S]. injection S as -> _. elim H. rewrite E. apply in_or_app. right. now left.
Qed.
Theorem part_spec : forall s t rest, part s = Some (t, rest) <-> quotable t /\ s = quoted t ++ rest.
Proof.
  intros s t rest. unfold part, quoted. split.
  - intros H. apply pbind_spec in H as (q & m & H1 & H2). apply pchar_spec in H1 as [-> ->].
    apply pbind_spec in H2 as (t' & m2 & H2 & H3). apply pbind_spec in H3 as (q & m3 & H3 & H4).
    apply pchar_spec in H3 as [-> ->]. injection H4 as <- <-. unfold palt in H2.
    destruct (tag $ "\""" m) as [[a r]|] eqn:E.
    + injection H2 as -> ->. apply tag_spec in E as [-> ->]. split; [now right|]. reflexivity.
    + apply take_until_spec in H2 as (-> & H1 & H2). split; [|now rewrite <- app_comm_cons, <- app_assoc].
      left. split.
      * intros K. apply in_split in K as (a1 & a2 & ->). specialize (H2 a1 (QUOTE :: a2) eq_refl ltac:(discriminate)).
        cbn in H2. discriminate.
      * intros ->. change ([BACKSLASH] ++ # """" :: m3) with ($ "\""" ++ m3) in E. rewrite tag_app in E. discriminate.
  - intros [H ->]. apply pbind_spec. exists QUOTE, (t ++ QUOTE :: rest). split.
    { apply pchar_spec. split; [reflexivity|]. cbn [app]. now rewrite <- app_assoc. }
    apply pbind_spec. exists t, (QUOTE :: rest). split; [|apply pbind_spec; exists QUOTE, rest; split; [now apply pchar_spec|reflexivity]].
    unfold palt. destruct H as [[H1 H2]| ->].
    + destruct (tag $ "\""" (t ++ QUOTE :: rest)) as [[a r]|] eqn:E; [|now apply take_until_quote].
      exfalso. apply tag_spec in E as [_ E]. destruct t as [|x t]; [discriminate|]. injection E as -> E.
      destruct t as [|y t]; [now elim H2|]. injection E as -> _. apply H1. right. now left.
    + change ([BACKSLASH; QUOTE] ++ QUOTE :: rest) with ($ "\""" ++ QUOTE :: rest). rewrite tag_app. reflexivity.
Qed.
Lemma space1_spec : forall s b r, space1 s = Some (b, r) <->
  s = b ++ r /\ b <> [] /\ blanks b /\ (forall c t, r = c :: t -> blankb c = false).
Proof.
  intros s b r. split.
  - intros H. apply take_while1_spec in H as (-> & H1 & H2 & H3). split; [reflexivity|]. split; [assumption|].
    split; [|assumption]. intros c Hc. apply blankb_iff. now apply H2.
  - intros (-> & H1 & H2 & H3). apply take_while1_app; [assumption| |assumption].
    intros c Hc. apply blankb_iff. now apply H2.
Qed.

Lemma quoted_app : forall t r, exists u, quoted t ++ r = QUOTE :: u.
Proof. intros. eexists. reflexivity. Qed.
Theorem quadruplet_spec : forall s q rest, quadruplet s = Some (q, rest) <-> quad_line s q rest.
Proof.
  intros s [[[a b] c] d] rest. unfold quadruplet. split.
  - intros H.
    apply pbind_spec in H as (a' & m1 & H1 & H). apply terminated_spec in H1 as (n1 & b1 & P1 & S1).
    apply pbind_spec in H as (b' & m2 & H2 & H). apply terminated_spec in H2 as (n2 & b2 & P2 & S2).
    apply pbind_spec in H as (c' & m3 & H3 & H). apply terminated_spec in H3 as (n3 & b3 & P3 & S3).
    apply pbind_spec in H as (d' & m4 & H4 & H). apply terminated_spec in H4 as (n4 & b4 & P4 & S4).
    injection H as <- <- <- <- <-.
    apply part_spec in P1 as [Q1 ->]. apply part_spec in P2 as [Q2 ->]. apply part_spec in P3 as [Q3 ->].
    apply part_spec in P4 as [Q4 ->].
    apply space1_spec in S1 as (-> & N1 & B1 & _). apply space1_spec in S2 as (-> & N2 & B2 & _).
    apply space1_spec in S3 as (-> & N3 & B3 & _).
    constructor; try assumption. apply end_of_line_spec. eauto.
  - intros H. inversion H as [? ? ? ? s1 s2 s3 e ? Qa Qb Qc Qd B1 N1 B2 N2 B3 N3 E]; subst.
    apply end_of_line_spec in E as [v E].
    assert (SP : forall s t r, blanks s -> s <> [] -> space1 (s ++ quoted t ++ r) = Some (s, quoted t ++ r)).
    { intros s t r Hb Hn. apply space1_spec. split; [reflexivity|]. split; [assumption|]. split; [assumption|].
      intros x y K. injection K as <- _. reflexivity. }
    apply pbind_spec. exists a, (quoted b ++ s2 ++ quoted c ++ s3 ++ quoted d ++ e). split.
    { apply terminated_spec. exists (s1 ++ quoted b ++ s2 ++ quoted c ++ s3 ++ quoted d ++ e), s1.
      split; [apply part_spec; auto|]. now apply SP. }
    apply pbind_spec. exists b, (quoted c ++ s3 ++ quoted d ++ e). split.
    { apply terminated_spec. exists (s2 ++ quoted c ++ s3 ++ quoted d ++ e), s2.
      split; [apply part_spec; auto|]. now apply SP. }
    apply pbind_spec. exists c, (quoted d ++ e). split.
    { apply terminated_spec. exists (s3 ++ quoted d ++ e), s3. split; [apply part_spec; auto|]. now apply SP. }
    apply pbind_spec. exists d, rest. split; [|reflexivity].
    apply terminated_spec. exists e, v. split; [apply part_spec; auto|assumption].
Qed.

Theorem folding_spec : forall s q rest, folding s = Some (q, rest) <-> fold_line s q rest.
Proof.
  intros s [x y] rest. unfold folding. rewrite terminated_spec. split.
  - intros (m & v & H & E). apply pbind_spec in H as (a & m1 & H1 & H). apply pbind_spec in H as (b & m2 & H2 & H).
    apply pchar_spec in H2 as [-> ->]. apply pbind_spec in H as (c & m3 & H3 & H). injection H as <- <- <-.
    destruct s as [|s0 s]; [discriminate|]. injection H1 as -> ->. destruct m2 as [|z m2]; [discriminate|].
    injection H3 as -> ->. constructor. apply end_of_line_spec. eauto.
  - intros H. inversion H as [? ? e ? E]; subst. apply end_of_line_spec in E as [v E].
    exists e, v. split; [reflexivity|assumption].
Qed.

Lemma contains_prefix_free : forall text e,
  contains_str (text ++ $ "*") $ "*/" = false ->
  take_until $ "*/" (text ++ $ "*/" ++ e) = Some (text, $ "*/" ++ e).
Proof.
  intros text e H. apply take_until_spec. split; [reflexivity|]. split; [reflexivity|].
  intros a1 a2 -> N. assert (K : contains_str (a2 ++ $ "*") $ "*/" = false).
  { rewrite <- app_assoc in H. clear - H. induction a1 as [|x a1 IH]; [exact H|].
    cbn [app contains_str] in H. apply orb_false_iff in H as [_ H]. auto. }
  destruct a2 as [|x [|y a2]]; [congruence|..].
  - cbn [app contains_str] in K |- *. apply orb_false_iff in K as [K _].
    unfold starts_with in *. cbn [strip_prefix] in *. destruct (42 =? x); [|reflexivity]. reflexivity.
  - cbn [app contains_str] in K |- *. apply orb_false_iff in K as [K _].
    unfold starts_with in *. cbn [strip_prefix] in *. destruct (42 =? x); [|reflexivity].
    destruct (47 =? y); [discriminate|reflexivity].
Qed.
Lemma prefix_free_contains : forall text e,
  (forall a1 a2, text = a1 ++ a2 -> a2 <> [] -> starts_with (a2 ++ $ "*/" ++ e) $ "*/" = false) ->
  contains_str (text ++ $ "*") $ "*/" = false.
Proof.
  induction text as [|x text IH]; intros e H; [reflexivity|]. cbn [app contains_str].
  apply orb_false_iff. split.
  - specialize (H [] (x :: text) eq_refl ltac:(discriminate)). cbn [app] in H.
    unfold starts_with in *. cbn [strip_prefix] in *. destruct (42 =? x); [|reflexivity].
    destruct text as [|y text]; [reflexivity|]. cbn [app] in *. destruct (47 =? y); [discriminate|reflexivity].
  - apply (IH e). intros a1 a2 -> N. apply (H (x :: a1) a2); [reflexivity|assumption].
Qed.
Theorem multiline_comment_spec : forall s n rest, multiline_comment s = Some (n, rest) <-> comment_line s n rest.
Proof.
  intros s n rest. unfold multiline_comment. rewrite terminated_spec. split.
  - intros (m & v & H & E). apply pbind_spec in H as (a & m1 & H1 & H). apply tag_spec in H1 as [-> ->].
    apply pbind_spec in H as (c & m2 & H2 & H). apply take_until_spec in H2 as (-> & H2 & H3).
    apply pbind_spec in H as (b & m3 & H4 & H). apply tag_spec in H4 as [-> ->]. injection H as <- <-.
    unfold count_lines. apply (comment_line_intro c m3 rest).
    + eapply prefix_free_contains. exact H3.
    + apply end_of_line_spec. eauto.
  - intros H. inversion H as [text e ? K E]; subst. apply end_of_line_spec in E as [v E].
    exists e, v. split; [|assumption]. apply pbind_spec. exists $ "/*", (text ++ $ "*/" ++ e).
    split; [apply tag_app|]. apply pbind_spec. exists text, ($ "*/" ++ e). split; [now apply contains_prefix_free|].
    apply pbind_spec. exists $ "*/", e. split; [apply tag_app|reflexivity].
Qed.

Lemma line_end_not : forall f e rest, line_end e rest ->
  f 32 = false -> f 9 = false -> f (# "/") = false -> f LF = false -> f CR = false ->
  forall c r, e = c :: r -> f c = false.
Proof.
  intros f e rest E H1 H2 H3 H4 H5 c r ->. apply line_end_head in E.
  destruct E as [->|[->|[->|[->| ->]]]]; assumption.
Qed.
Lemma include_char_spec : forall u c, include_char u c = file_name_char (is_alphanumeric u) c.
Proof.
  intros u c. unfold include_char, file_name_char. cbn [isin existsb]. rewrite <- orb_assoc. f_equal.
  unfold isin. cbn. now rewrite orb_false_r.
Qed.
Theorem include_spec : forall u s name rest,
  include u s = Some (name, rest) <-> include_line (file_name_char (is_alphanumeric u)) s name rest.
Proof.
  intros u s name rest. unfold include. rewrite terminated_spec. split.
  - intros (m & v & H & E). unfold preceded in H. apply pbind_spec in H as (a & m1 & H1 & H).
    apply tag_spec in H1 as [-> ->]. apply take_while1_spec in H as (-> & H1 & H2 & _).
    constructor; [assumption|intros c Hc; rewrite <- include_char_spec; auto|]. apply end_of_line_spec. eauto.
  - intros H. inversion H as [? e ? N C E]; subst.
    assert (C' : forall c, In c name -> include_char u c = true) by (intros c Hc; rewrite include_char_spec; auto).
    assert (K : forall c r, e = c :: r -> include_char u c = false).
    { eapply line_end_not; [exact E|reflexivity..]. }
    apply end_of_line_spec in E as [v E].
    exists e, v. split; [|assumption]. unfold preceded. apply pbind_spec. exists $ "#include ", (name ++ e).
    split; [apply tag_app|]. now apply take_while1_app.
Qed.
Theorem language_spec : forall s name rest, language s = Some (name, rest) <-> language_line s name rest.
Proof.
  intros s name rest. unfold language. rewrite terminated_spec. split.
  - intros (m & v & H & E). apply take_while1_spec in H as (-> & H1 & H2 & _).
    constructor; [assumption|assumption|]. apply end_of_line_spec. eauto.
  - intros H. inversion H as [? e ? N C E]; subst.
    assert (K : forall c r, e = c :: r -> is_ascii_alpha c = false).
    { eapply line_end_not; [exact E|reflexivity..]. }
    apply end_of_line_spec in E as [v E].
    exists e, v. split; [|assumption]. now apply take_while1_app.
Qed.
Lemma pmap_tag_spec : forall A (x : A) t s a r, pmap (fun _ => x) (tag t) s = Some (a, r) <-> a = x /\ s = t ++ r.
Proof.
  intros A x t s a r. unfold pmap. rewrite pbind_spec. split.
  - intros (b & m & H1 & H2). apply tag_spec in H1 as [-> ->]. injection H2 as <- <-. auto.
  - intros [-> ->]. exists t, r. split; [apply tag_app|reflexivity].
Qed.
Theorem lang_spec : forall s q rest, lang s = Some (q, rest) <-> lang_line s q rest.
Proof.
  intros s [[a b] v] rest. unfold lang. split.
  - intros H.
    apply pbind_spec in H as (a' & m1 & H1 & H). apply terminated_spec in H1 as (n1 & b1 & P1 & S1).
    apply pbind_spec in H as (b' & m2 & H2 & H). apply terminated_spec in H2 as (n2 & b2 & P2 & S2).
    apply pbind_spec in H as (v' & m3 & H3 & H). apply terminated_spec in H3 as (n3 & b3 & P3 & S3).
    injection H as <- <- <- <-.
    apply take_while1_spec in P1 as (-> & N1 & F1 & _). apply take_while1_spec in P2 as (-> & N2 & F2 & _).
    apply pchar_spec in S1 as [_ ->]. apply pchar_spec in S2 as [_ ->].
    assert (E : line_end n3 m3) by (apply end_of_line_spec; eauto).
    assert (NS : forall l, (forall c, In c l -> not_space c = true) -> ~ In 32 l).
    { intros l Hl K. apply Hl in K. discriminate. }
    unfold palt in P3. destruct (boolean_true m2) as [[x y]|] eqn:BT.
    + injection P3 as -> ->. apply pmap_tag_spec in BT as [-> ->].
      apply (lang_line_intro a' b' true n3 m3); auto.
    + apply pmap_tag_spec in P3 as [-> ->]. apply (lang_line_intro a' b' false n3 m3); auto.
  - intros H. inversion H as [? ? ? e ? N1 F1 N2 F2 E]; subst. apply end_of_line_spec in E as [w E].
    assert (NS : forall l, ~ In 32 l -> forall c, In c l -> not_space c = true).
    { intros l Hl c Hc. apply negb_true_iff, N.eqb_neq. intros ->. contradiction. }
    set (tail := (if v then $ "true" else $ "false") ++ e).
    apply pbind_spec. exists a, (b ++ 32 :: tail). split.
    { apply terminated_spec. exists (32 :: b ++ 32 :: tail), 32. split; [|now apply pchar_spec].
      apply take_while1_app; [assumption|now apply NS|]. intros c r K. injection K as <- _. reflexivity. }
    apply pbind_spec. exists b, tail. split.
    { apply terminated_spec. exists (32 :: tail), 32. split; [|now apply pchar_spec].
      apply take_while1_app; [assumption|now apply NS|]. intros c r K. injection K as <- _. reflexivity. }
    apply pbind_spec. exists v, rest. split; [|reflexivity]. apply terminated_spec. exists e, w.
    split; [|assumption]. unfold palt, tail. destruct v.
    + assert (K : boolean_true ($ "true" ++ e) = Some (true, e)) by (now apply pmap_tag_spec). now rewrite K.
    + assert (K : boolean_true ($ "false" ++ e) = None).
      { unfold boolean_true, pmap, pbind. rewrite tag_none; [reflexivity|]. intros r X. discriminate X. }
      rewrite K. now apply pmap_tag_spec.
Qed.

(** ** Progress *)
Lemma quad_progress : forall s q rest, quad_line s q rest -> exists c, s = c ++ rest /\ c <> [].
Proof.
  intros s q rest H. destruct H as [a b c d s1 s2 s3 e rest _ _ _ _ _ _ _ _ _ _ E].
  apply line_end_suffix in E as (t & -> & _).
  exists (quoted a ++ s1 ++ quoted b ++ s2 ++ quoted c ++ s3 ++ quoted d ++ t).
  rewrite <- !app_assoc. split; [reflexivity|discriminate].
Qed.
Lemma fold_progress : forall s q rest, fold_line s q rest -> exists c, s = c ++ rest /\ c <> [].
Proof.
  intros s q rest H. destruct H as [x y e rest E]. apply line_end_suffix in E as (t & -> & _).
  exists (x :: # "=" :: y :: t). split; [reflexivity|discriminate].
Qed.
Lemma comment_progress : forall s n rest, comment_line s n rest -> exists c, s = c ++ rest /\ c <> [].
Proof.
  intros s n rest H. destruct H as [text e rest K E]. apply line_end_suffix in E as (t & -> & _).
  exists ($ "/*" ++ text ++ $ "*/" ++ t). rewrite <- !app_assoc. split; [reflexivity|discriminate].
Qed.
Lemma include_progress : forall f s n rest, include_line f s n rest -> exists c, s = c ++ rest /\ c <> [].
Proof.
  intros f s n rest H. destruct H as [n e rest N C E]. apply line_end_suffix in E as (t & -> & _).
  exists ($ "#include " ++ n ++ t). rewrite <- !app_assoc. split; [reflexivity|discriminate].
Qed.
Lemma language_progress : forall s n rest, language_line s n rest -> exists c, s = c ++ rest /\ c <> [].
Proof.
  intros s n rest H. destruct H as [n e rest N C E]. apply line_end_suffix in E as (t & -> & _).
  exists (n ++ t). rewrite <- !app_assoc. split; [reflexivity|destruct n; [congruence|discriminate]].
Qed.
Lemma lang_progress : forall s q rest, lang_line s q rest -> exists c, s = c ++ rest /\ c <> [].
Proof.
  intros s q rest H. destruct H as [a b v e rest N1 F1 N2 F2 E]. apply line_end_suffix in E as (t & -> & _).
  exists (a ++ 32 :: b ++ 32 :: (if v then $ "true" else $ "false") ++ t).
  split; [|destruct a; [congruence|discriminate]].
  repeat (rewrite <- ?app_assoc; cbn [app]). reflexivity.
Qed.
Lemma end_progress : forall s rest, s <> [] -> line_end s rest -> exists c, s = c ++ rest /\ c <> [].
Proof. intros s rest N H. apply line_end_suffix in H as (c & -> & [K|K]); [congruence|eauto]. Qed.
