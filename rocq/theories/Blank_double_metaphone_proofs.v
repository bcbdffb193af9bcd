(** * Names without a Double Metaphone code: proofs. *)
From Verif Require Import Base UnicodeM BaseLemmas Spec_common Spec_contextual Spec_double_metaphone
  Contextual_proofs Double_metaphone_spec_proofs Double_metaphone_run_proofs.
Local Open Scope N_scope.

Definition loud_p : ustr := $ "BCDFJKLMNPQTVZ".
Definition loud_a : ustr := $ "BCDFJKMNPQRSTVZ".

Fixpoint leaves {A} (r : rule A) : list A :=
  match r with Out a => [a] | If _ r1 r2 => leaves r1 ++ leaves r2 end.
Lemma gives_leaf : forall A t i (r : rule A) a, gives t i r a -> In a (leaves r).
Proof.
  intros A t i r a H. induction H as [a|c r1 r2 a _ _ IH|c r1 r2 a _ _ IH]; cbn; [now left|apply in_or_app; now left|apply in_or_app; now right].
Qed.

Section Text.
Variable t : ustr.
Lemma stands_nth : forall w p m y, stands_at t w p -> nth_error w m = Some y ->
  (0 <= p)%Z /\ nth_error t (Z.to_nat p + m) = Some y.
Proof.
  intros w p m y (a & b & E & L) W. subst p. split; [lia|]. rewrite Nat2Z.id, E.
  rewrite nth_error_app2 by lia. replace (length a + m - length a)%nat with m by lia.
  rewrite nth_error_app1; [exact W|]. apply nth_error_Some. congruence.
Qed.
Lemma at_nth : forall i d ws, holds t i (At d ws) -> exists w, In w ws /\
  forall m y, nth_error w m = Some y -> (0 <= Z.of_nat i + d)%Z /\ nth_error t (Z.to_nat (Z.of_nat i + d) + m) = Some y.
Proof. intros i d ws (w & I & S). exists w. split; [exact I|]. intros m y. now apply stands_nth. Qed.
Lemma before_nth : forall i set, holds t i (Before set) <-> exists c, nth_error t (i + 1) = Some c /\ In c set.
Proof.
  intros i set. rewrite <- holds_iff. unfold Before. rewrite at_letters. unfold char_b.
  replace (Z.of_nat i + 1 <? 0)%Z with false by (symmetry; apply Z.ltb_ge; lia).
  replace (Z.to_nat (Z.of_nat i + 1)) with (i + 1)%nat by lia.
  destruct (nth_error t (i + 1)) as [x|].
  - rewrite isin_In. split; [intros H; exists x; auto|intros (y & E & H); now injection E as ->].
  - split; [discriminate|intros (y & E & _); discriminate E].
Qed.
Lemma after_nth : forall i set, holds t i (After set) <-> exists c, (0 < i)%nat /\ nth_error t (i - 1) = Some c /\ In c set.
Proof.
  intros i set. rewrite <- holds_iff. unfold After. rewrite at_letters. unfold char_b.
  destruct (Z.ltb_spec (Z.of_nat i + -1) 0) as [L|L].
  - split; [discriminate|]. intros (c & H & _). lia.
  - replace (Z.to_nat (Z.of_nat i + -1)) with (i - 1)%nat by lia.
    destruct (nth_error t (i - 1)) as [x|].
    + rewrite isin_In. split; [intros H; exists x; split; [lia|auto]|intros (y & _ & E & H); now injection E as ->].
    + split; [discriminate|intros (y & _ & E & _); discriminate E].
Qed.

(** A J is not silent because of the letter before it. *)
Definition J_ok (i : nat) : Prop := nth_error t i = Some (# "J") -> ~ holds t i (After $ "SKL").
Lemma J_ok_next : forall i x, nth_error t i = Some x -> ~ In x $ "SKL" -> J_ok (i + 1).
Proof.
  intros i x X H _ A. apply after_nth in A as (c & _ & E & I). replace (i + 1 - 1)%nat with i in E by lia.
  rewrite X in E. injection E as <-. now apply H.
Qed.

Lemma reads_letter : forall i x ps als, nth_error t i = Some x -> dm_reads t i ps als ->
  exists p a k ps' als', gives t i (lookup double_metaphone_table (nothing 0) x) (p, a, k) /\
    ps = p ++ ps' /\ als = a ++ als' /\ dm_reads t (i + 1 + k) ps' als'.
Proof.
  intros i x ps als X R. inversion R as [i0 L|i0 c r p a k ps' als' X0 Ro G R']; subst.
  - apply nth_error_None in L. congruence.
  - rewrite X in X0. injection X0 as <-. apply (rule_of_iff _ _ _ _ _ dm_table_disjoint) in Ro. subst r.
    exists p, a, k, ps', als'. auto.
Qed.

(** Letters that always sound. *)
Definition nonempty (s : ustr) : bool := match s with [] => false | _ => true end.
Definition sounds_p (x : N) : bool := forallb (fun s => nonempty (fst (fst s))) (leaves (lookup double_metaphone_table (nothing 0) x)).
Definition sounds_a (x : N) : bool := forallb (fun s => nonempty (snd (fst s))) (leaves (lookup double_metaphone_table (nothing 0) x)).
Lemma sounds_p_reads : forall i x als, nth_error t i = Some x -> sounds_p x = true -> ~ dm_reads t i [] als.
Proof.
  intros i x als X S R. destruct (reads_letter i x [] als X R) as (p & a & k & ps & al & G & E & _).
  symmetry in E. apply app_eq_nil in E as [-> _]. apply gives_leaf in G. unfold sounds_p in S.
  rewrite forallb_forall in S. apply S in G. discriminate G.
Qed.
Lemma sounds_a_reads : forall i x ps, nth_error t i = Some x -> sounds_a x = true -> ~ dm_reads t i ps [].
Proof.
  intros i x ps X S R. destruct (reads_letter i x ps [] X R) as (p & a & k & ps' & al & G & _ & E & _).
  symmetry in E. apply app_eq_nil in E as [-> _]. apply gives_leaf in G. unfold sounds_a in S.
  rewrite forallb_forall in S. apply S in G. discriminate G.
Qed.

Lemma gives_If : forall A i c (r1 r2 : rule A) a, gives t i (If c r1 r2) a ->
  (holds t i c /\ gives t i r1 a) \/ (~ holds t i c /\ gives t i r2 a).
Proof. intros A i c r1 r2 a H. inversion H; subst; auto. Qed.
Lemma gives_Out : forall A i (a b : A), gives t i (Out a) b -> a = b.
Proof. intros A i a b H. now inversion H. Qed.
Ltac path G := unfold same, two, nothing, skipping, doubled in G;
  repeat (apply gives_If in G as [[?Hc G]|[?Hc G]]; unfold same, two, nothing, skipping, doubled in G);
  apply gives_Out in G; try discriminate G; injection G; intros; subst.

(** What a step that adds nothing to a code leaves. *)
Definition silent_step (loud : ustr) (i : nat) (x : N) (k : nat) : Prop :=
  ~ In x loud /\ J_ok (i + 1 + k) /\ forall m y, (m < k)%nat -> nth_error t (i + 1 + m) = Some y -> ~ In y loud.
Lemma step_0 : forall loud i x, nth_error t i = Some x -> ~ In x loud -> ~ In x $ "SKL" -> silent_step loud i x 0.
Proof.
  intros loud i x X N1 N2. split; [exact N1|]. rewrite Nat.add_0_r. split; [now apply (J_ok_next i x)|]. intros m y L. lia.
Qed.
Lemma step_1 : forall loud i x y, nth_error t i = Some x -> nth_error t (i + 1) = Some y -> ~ In x loud -> ~ In y loud ->
  ~ In y $ "SKL" -> silent_step loud i x 1.
Proof.
  intros loud i x y X Y N1 N2 N3. split; [exact N1|]. split; [now apply (J_ok_next (i + 1) y)|].
  intros m z L Z. assert (m = 0%nat) as -> by lia. rewrite Nat.add_0_r, Y in Z. now injection Z as <-.
Qed.
Lemma last_not_before : forall i set, holds t i Last -> ~ holds t i (Before set).
Proof.
  intros i set L B. cbn in L. apply before_nth in B as (c & E & _).
  assert (i + 1 < length t)%nat by (apply nth_error_Some; congruence). lia.
Qed.
Lemma S_AI : forall i x, nth_error t i = Some x -> (0 < i)%nat -> forall y, nth_error t (i - 1) = Some y -> y <> # "I" ->
  y <> # "Y" -> ~ holds t i (At (-1) [$ "ISL"; $ "YSL"]) /\ ~ holds t i (At (-2) [$ "AI"; $ "OI"]).
Proof.
  intros i x X P y Y N1 N2. split; intros H; apply at_nth in H as (w & I & W).
  - destruct I as [<-|[<-|[]]]; [destruct (W 0%nat (# "I") eq_refl) as [_ E]|destruct (W 0%nat (# "Y") eq_refl) as [_ E]];
    rewrite Nat.add_0_r in E; replace (Z.to_nat (Z.of_nat i + -1)) with (i - 1)%nat in E by lia; congruence.
  - destruct I as [<-|[<-|[]]]; destruct (W 1%nat (# "I") eq_refl) as [Q E];
    replace (Z.to_nat (Z.of_nat i + -2) + 1)%nat with (i - 1)%nat in E by lia; congruence.
Qed.
(** An S after a letter other than I and Y sounds. *)
Lemma S_sounds : forall i als, nth_error t i = Some (# "S") -> (0 < i)%nat ->
  forall y, nth_error t (i - 1) = Some y -> y <> # "I" -> y <> # "Y" -> ~ dm_reads t i [] als /\ ~ dm_reads t i als [].
Proof.
  intros i als X P y Y N1 N2. destruct (S_AI i _ X P y Y N1 N2) as [A B].
  split; intros R; [destruct (reads_letter i _ _ _ X R) as (p & a & k & ps' & al & G & E & _)
                   |destruct (reads_letter i _ _ _ X R) as (p & a & k & ps' & al & G & _ & E & _)];
  symmetry in E; apply app_eq_nil in E as [-> _];
  change (lookup double_metaphone_table (nothing 0) 83) with rule_s in G; unfold rule_s, rule_sc in G; path G;
  first [contradiction|match goal with H : holds t i (Both _ _) |- _ => destruct H; contradiction end].
Qed.
Lemma vowel_cases : forall x, ~ In x $ "ABCDEFGHIJKLMNOPQRSTUVWXYZ" -> lookup double_metaphone_table (nothing 0) x = nothing 0.
Proof.
  intros x H. assert (Q : forall set, incl set $ "ABCDEFGHIJKLMNOPQRSTUVWXYZ" -> isin x set = false).
  { intros set I. apply isin_false. intros K. now apply H, I. }
  unfold lookup, double_metaphone_table. cbn [find fst].
  rewrite !Q by (let y := fresh in intros y; cbn; tauto). reflexivity.
Qed.

Ltac notin := let H := fresh in intros H; cbn in H; intuition congruence.
Ltac plain X := solve [apply step_0; [exact X|notin|notin]].
Ltac skip_one := match goal with H : holds _ _ (Before _), X : nth_error _ ?i = Some ?x |- silent_step ?l ?i ?x 1 =>
  apply before_nth in H as (y & Y & IY); destruct IY as [<-|[]]; apply (step_1 l i _ _ X Y); notin end.
(** J among the letters before which it is silent. *)
Lemma J_silent_false : forall i, nth_error t i = Some (# "J") -> holds t i (Before $ "LTKSNMBZ") ->
  (forall als, ~ dm_reads t (i + 1) [] als) /\ (forall ps, ~ dm_reads t (i + 1) ps []).
Proof.
  intros i X B. apply before_nth in B as (c & E & I).
  assert (P : nth_error t (i + 1 - 1) = Some (# "J")) by now replace (i + 1 - 1)%nat with i by lia.
  assert (LL : c = # "L" -> forall ps, ~ dm_reads t (i + 1) ps []).
  { intros -> ps R. destruct (reads_letter (i + 1) _ _ _ E R) as (p & a & k & ps' & al & G & _ & E' & _).
    symmetry in E'. apply app_eq_nil in E' as [-> _].
    change (lookup double_metaphone_table (nothing 0) 76) with rule_l in G. unfold rule_l in G. path G.
    match goal with H : holds t _ spanish_ll |- _ => destruct H as [[_ H]|[_ H]];
      apply at_nth in H as (w & J & W) end;
    cbn [In] in J; replace (Z.to_nat (Z.of_nat (i + 1) + -1)) with i in W by lia.
    - destruct J as [<-|[<-|[<-|[]]]]; destruct (W 0%nat _ eq_refl) as [_ Q]; rewrite Nat.add_0_r in Q; congruence.
    - destruct J as [<-|[]]; destruct (W 0%nat _ eq_refl) as [_ Q]; rewrite Nat.add_0_r in Q; congruence. }
  split; intros co R.
  - destruct (N.eq_dec c (# "S")) as [->|D].
    + apply (proj1 (S_sounds (i + 1) co E ltac:(lia) _ P ltac:(discriminate) ltac:(discriminate)) R).
    + apply (sounds_p_reads (i + 1) c co E); [|exact R]. cbn in I.
      repeat (destruct I as [<-|I]; [first [reflexivity|congruence]|]). destruct I.
  - destruct (N.eq_dec c (# "S")) as [->|D]; [|destruct (N.eq_dec c (# "L")) as [->|D2]].
    + apply (proj2 (S_sounds (i + 1) co E ltac:(lia) _ P ltac:(discriminate) ltac:(discriminate)) R).
    + now apply (LL eq_refl co).
    + apply (sounds_a_reads (i + 1) c co E); [|exact R]. cbn in I.
      repeat (destruct I as [<-|I]; [first [reflexivity|congruence]|]). destruct I.
Qed.
Lemma J_sounds : forall i, nth_error t i = Some (# "J") -> J_ok i ->
  (forall als, ~ dm_reads t i [] als) /\ (forall ps, ~ dm_reads t i ps []).
Proof.
  intros i X J.
  assert (main : forall p a k, gives t i rule_j (p, a, k) -> (p = [] \/ a = []) -> holds t i (Before $ "LTKSNMBZ") /\ k = 0%nat).
  { intros p a k G Z. unfold rule_j in G. path G; try (destruct Z; discriminate);
    match goal with H : ~ holds t i (Both (Not (Before ?l)) (Not (After _))) |- _ =>
      assert (B : holds t i (Before l));
      [apply holds_iff; destruct (holdsb t i (Before l)) eqn:Q; [reflexivity|]; exfalso; apply H;
       split; [now apply holds_not_iff|]; now apply J|] end.
    - exfalso. apply before_nth in B as (c & E & I).
      match goal with H : holds t i (Before $ "J") |- _ => apply before_nth in H as (c' & E' & I') end.
      rewrite E in E'. injection E' as <-. cbn in I, I'. intuition congruence.
    - now split. }
  split; intros co R; destruct (reads_letter i _ _ _ X R) as (p & a & k & ps' & al & G & E1 & E2 & R');
  change (lookup double_metaphone_table (nothing 0) 74) with rule_j in G.
  - symmetry in E1. apply app_eq_nil in E1 as [-> ->]. destruct (main _ _ _ G (or_introl eq_refl)) as [B ->].
    rewrite Nat.add_0_r in R'. now apply (proj1 (J_silent_false i X B) al).
  - symmetry in E2. apply app_eq_nil in E2 as [-> ->]. destruct (main _ _ _ G (or_intror eq_refl)) as [B ->].
    rewrite Nat.add_0_r in R'. now apply (proj2 (J_silent_false i X B) ps').
Qed.

Lemma primary_step : forall i x als, nth_error t i = Some x -> J_ok i -> dm_reads t i [] als ->
  exists k als', dm_reads t (i + 1 + k) [] als' /\ silent_step loud_p i x k.
Proof.
  intros i x als X J R.
  destruct (sounds_p x) eqn:S1; [now destruct (sounds_p_reads i x als X S1)|].
  destruct (N.eq_dec x (# "J")) as [->|DJ]; [now destruct (proj1 (J_sounds i X J) als)|].
  destruct (reads_letter i x [] als X R) as (p & a & k & ps' & al & G & E & _ & R').
  symmetry in E. apply app_eq_nil in E as [-> ->]. exists k, al. split; [exact R'|].
  destruct (isin x $ "ABCDEFGHIJKLMNOPQRSTUVWXYZ") eqn:EA; [apply isin_In in EA|apply isin_false in EA].
  2: { rewrite (vowel_cases x EA) in G. path G. apply step_0; [exact X|..]; intros I; apply EA; cbn in I |- *; tauto. }
  cbn [In] in EA.
  repeat (destruct EA as [<-|EA]; [try discriminate S1; try congruence|]); [..|destruct EA];
  match goal with G : gives t i (lookup _ _ ?c) _ |- _ =>
    let r := eval cbv [lookup find double_metaphone_table isin existsb N.eqb Pos.eqb fst snd orb] in (lookup double_metaphone_table (nothing 0) c) in
    change (lookup double_metaphone_table (nothing 0) c) with r in G end; cbv beta in G;
  unfold rule_h, rule_w, rule_x, rule_g, rule_gh, rule_gn, rule_r, rule_s, rule_sc in G; path G; try plain X.
  1-3: skip_one.
  - exfalso. match goal with H : holds t i (At _ _) |- _ => apply at_nth in H as (w & I & W) end.
    assert (LL : nth_error t (i + 1) = Some (# "L")).
    { destruct I as [<-|[<-|[]]]; destruct (W 2%nat _ eq_refl) as [P Q]; rewrite <- Q; f_equal; lia. }
    rewrite Nat.add_0_r in R'. exact (sounds_p_reads (i + 1) (# "L") al LL eq_refl R').
  - exfalso. match goal with H : holds t i (Both Last _) |- _ => destruct H as [HL _] end.
    now apply (last_not_before i $ "SZ" HL).
  - match goal with H : holds t i (Both Last _) |- _ => destruct H as [HL _] end.
    split; [notin|]. split; [|intros m y L; lia]. intros Z. exfalso. cbn in HL. rewrite Nat.add_0_r in Z, HL.
    assert (i + 1 < length t)%nat by (apply nth_error_Some; congruence). lia.
Qed.
Lemma S_first : forall i x, nth_error t i = Some x -> holds t i (At (-1) [$ "ISL"; $ "YSL"]) -> x = # "S" /\ nth_error t (i + 1) = Some (# "L").
Proof.
  intros i x X H. apply at_nth in H as (w & I & W).
  destruct I as [<-|[<-|[]]]; destruct (W 2%nat _ eq_refl) as [P Q]; destruct (W 1%nat _ eq_refl) as [_ Q1];
  (split; [|rewrite <- Q; f_equal; lia]); replace (Z.to_nat (Z.of_nat i + -1) + 1)%nat with i in Q1 by lia; congruence.
Qed.
Lemma L_sounds_after_S : forall i ps, nth_error t i = Some (# "S") -> nth_error t (i + 1) = Some (# "L") -> ~ dm_reads t (i + 1) ps [].
Proof.
  intros i ps X E R. destruct (reads_letter (i + 1) _ _ _ E R) as (p & a & k & ps' & al & G & _ & E' & _).
  symmetry in E'. apply app_eq_nil in E' as [-> _].
  change (lookup double_metaphone_table (nothing 0) 76) with rule_l in G. unfold rule_l in G. path G.
  match goal with H : holds t _ spanish_ll |- _ => destruct H as [[_ H]|[_ H]];
    apply at_nth in H as (w & J & W) end;
  cbn [In] in J; replace (Z.to_nat (Z.of_nat (i + 1) + -1)) with i in W by lia.
  - destruct J as [<-|[<-|[<-|[]]]]; destruct (W 0%nat _ eq_refl) as [_ Q]; rewrite Nat.add_0_r in Q; congruence.
  - destruct J as [<-|[]]; destruct (W 0%nat _ eq_refl) as [_ Q]; rewrite Nat.add_0_r in Q; congruence.
Qed.
Lemma alternate_step : forall i x ps, nth_error t i = Some x -> J_ok i -> dm_reads t i ps [] ->
  exists k ps', dm_reads t (i + 1 + k) ps' [] /\ silent_step loud_a i x k.
Proof.
  intros i x ps X J R.
  destruct (sounds_a x) eqn:S1; [now destruct (sounds_a_reads i x ps X S1)|].
  destruct (N.eq_dec x (# "J")) as [->|DJ]; [now destruct (proj2 (J_sounds i X J) ps)|].
  destruct (reads_letter i x ps [] X R) as (p & a & k & ps' & al & G & _ & E & R').
  symmetry in E. apply app_eq_nil in E as [-> ->]. exists k, ps'. split; [exact R'|].
  destruct (isin x $ "ABCDEFGHIJKLMNOPQRSTUVWXYZ") eqn:EA; [apply isin_In in EA|apply isin_false in EA].
  2: { rewrite (vowel_cases x EA) in G. path G. apply step_0; [exact X|..]; intros I; apply EA; cbn in I |- *; tauto. }
  cbn [In] in EA.
  repeat (destruct EA as [<-|EA]; [try discriminate S1; try congruence|]); [..|destruct EA];
  match goal with G : gives t i (lookup _ _ ?c) _ |- _ =>
    let r := eval cbv [lookup find double_metaphone_table isin existsb N.eqb Pos.eqb fst snd orb] in (lookup double_metaphone_table (nothing 0) c) in
    change (lookup double_metaphone_table (nothing 0) c) with r in G end; cbv beta in G;
  unfold rule_h, rule_w, rule_x, rule_g, rule_gh, rule_gn, rule_l, rule_s, rule_sc in G; path G; try plain X.
  1-2: skip_one.
  - match goal with H : holds t i (Before _) |- _ => apply before_nth in H as (y & Y & IY) end.
    destruct IY as [<-|[]]. split; [notin|]. split.
    + intros Z _. match goal with H : holds t _ spanish_ll |- _ => destruct H as [[_ H]|[_ H]];
        apply at_nth in H as (w & I & W) end; cbn [In] in I.
      * destruct I as [<-|[<-|[<-|[]]]]; destruct (W 3%nat _ eq_refl) as [P Q];
        replace (Z.to_nat (Z.of_nat i + -1) + 3)%nat with (i + 1 + 1)%nat in Q by lia; congruence.
      * destruct I as [<-|[]]; destruct (W 3%nat _ eq_refl) as [P Q];
        replace (Z.to_nat (Z.of_nat i + -1) + 3)%nat with (i + 1 + 1)%nat in Q by lia; congruence.
    + intros m z L Z. assert (m = 0%nat) as -> by lia. rewrite Nat.add_0_r, Y in Z. injection Z as <-. notin.
  - exfalso. match goal with H : holds t i (At _ _) |- _ => destruct (S_first i _ X H) as [_ Y] end.
    rewrite Nat.add_0_r in R'. now apply (L_sounds_after_S i ps' X Y).
Qed.

Lemma primary_silent : forall n i als, (length t <= i + n)%nat -> J_ok i -> dm_reads t i [] als ->
  forall k c, (i <= k)%nat -> nth_error t k = Some c -> ~ In c loud_p.
Proof.
  intros n. induction n as [n IH] using lt_wf_ind. intros i als L J R k c Hk Hc.
  assert (k < length t)%nat by (apply nth_error_Some; congruence).
  destruct (nth_error t i) as [x|] eqn:X; [|apply nth_error_None in X; lia].
  destruct (primary_step i x als X J R) as (q & als' & R' & N1 & J' & N2).
  destruct (Nat.eq_dec k i) as [->|D1]; [rewrite X in Hc; now injection Hc as <-|].
  destruct (Nat.ltb_spec k (i + 1 + q)) as [D2|D2].
  - apply (N2 (k - i - 1)%nat c); [lia|]. now replace (i + 1 + (k - i - 1))%nat with k by lia.
  - exact (IH (n - 1 - q)%nat ltac:(lia) (i + 1 + q)%nat als' ltac:(lia) J' R' k c D2 Hc).
Qed.
Lemma alternate_silent : forall n i ps, (length t <= i + n)%nat -> J_ok i -> dm_reads t i ps [] ->
  forall k c, (i <= k)%nat -> nth_error t k = Some c -> ~ In c loud_a.
Proof.
  intros n. induction n as [n IH] using lt_wf_ind. intros i als L J R k c Hk Hc.
  assert (k < length t)%nat by (apply nth_error_Some; congruence).
  destruct (nth_error t i) as [x|] eqn:X; [|apply nth_error_None in X; lia].
  destruct (alternate_step i x als X J R) as (q & als' & R' & N1 & J' & N2).
  destruct (Nat.eq_dec k i) as [->|D1]; [rewrite X in Hc; now injection Hc as <-|].
  destruct (Nat.ltb_spec k (i + 1 + q)) as [D2|D2].
  - apply (N2 (k - i - 1)%nat c); [lia|]. now replace (i + 1 + (k - i - 1))%nat with k by lia.
  - exact (IH (n - 1 - q)%nat ltac:(lia) (i + 1 + q)%nat als' ltac:(lia) J' R' k c D2 Hc).
Qed.

(** From the beginning. *)
Lemma start_silent : forall i ps als, dm_start t i -> dm_reads t i ps als ->
  (ps = [] -> forall c, In c t -> ~ In c loud_p) /\ (als = [] -> forall c, In c t -> ~ In c loud_a).
Proof.
  intros i ps als St R. destruct St as [[-> (w & r & I & E)]|[-> _]].
  - (* the second letter sounds, or is R after W *)
    assert (J : J_ok 1).
    { intros Z _. rewrite E in Z. cbn [In silent_beginnings] in I.
      repeat (destruct I as [<-|I]; [discriminate Z|]). destruct I. }
    split; intros -> c Hc L; apply In_nth_error in Hc as [k Hk].
    + destruct k as [|k].
      * rewrite E in Hk. cbn [In silent_beginnings] in I.
        assert (second : nth_error t 1 = Some (# "N") \/ nth_error t 1 = Some (# "S") /\ nth_error t 0 = Some (# "P") \/ c = # "W" \/ c = # "G").
        { rewrite E. repeat (destruct I as [<-|I]; [injection Hk as <-; cbn; tauto|]). destruct I. }
        destruct second as [Q|[[Q Q0]|[-> | ->]]].
        -- exact (sounds_p_reads 1 (# "N") als Q eq_refl R).
        -- exact (proj1 (S_sounds 1 als Q ltac:(lia) _ Q0 ltac:(discriminate) ltac:(discriminate)) R).
        -- cbn in L; intuition discriminate.
        -- cbn in L; intuition discriminate.
      * exact (primary_silent (length t) 1 als ltac:(lia) J R (S k) c ltac:(lia) Hk L).
    + destruct k as [|k].
      * rewrite E in Hk. cbn [In silent_beginnings] in I.
        assert (second : nth_error t 1 = Some (# "N") \/ nth_error t 1 = Some (# "S") /\ nth_error t 0 = Some (# "P") \/ c = # "W" \/ c = # "G").
        { rewrite E. repeat (destruct I as [<-|I]; [injection Hk as <-; cbn; tauto|]). destruct I. }
        destruct second as [Q|[[Q Q0]|[-> | ->]]].
        -- exact (sounds_a_reads 1 (# "N") ps Q eq_refl R).
        -- exact (proj2 (S_sounds 1 ps Q ltac:(lia) _ Q0 ltac:(discriminate) ltac:(discriminate)) R).
        -- cbn in L; intuition discriminate.
        -- cbn in L; intuition discriminate.
      * exact (alternate_silent (length t) 1 ps ltac:(lia) J R (S k) c ltac:(lia) Hk L).
  - assert (J : J_ok 0). { intros _ A. apply after_nth in A as (c & H & _). lia. }
    split; intros -> c Hc; apply In_nth_error in Hc as [k Hk].
    + exact (primary_silent (length t) 0 als ltac:(lia) J R k c ltac:(lia) Hk).
    + exact (alternate_silent (length t) 0 ps ltac:(lia) J R k c ltac:(lia) Hk).
Qed.
End Text.
