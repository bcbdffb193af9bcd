(** * Names without a Metaphone code: proofs. *)
From Verif Require Import Base UnicodeM Lib Helper Metaphone BaseLemmas Spec_common Spec_rewrite Spec_contextual
  Spec_metaphone Spec_blank Rewrite_proofs Contextual_proofs Metaphone_spec_proofs Metaphone_doubled_proofs.
Local Open Scope N_scope.

Definition loud : ustr := $ "BCDFJKLMNPQRSTVXZ".
Definition not_loud (p : option N) : Prop := forall y, p = Some y -> ~ In y loud.
Lemma isin_opt_iff : forall o set, isin_opt o set = true <-> exists c, o = Some c /\ In c set.
Proof.
  intros [c|] set; cbn [isin_opt].
  - rewrite isin_In. split; [intros H; exists c; auto|intros (x & E & H); now injection E as ->].
  - split; [discriminate|intros (x & E & _); discriminate E].
Qed.
Lemma not_loud_isin : forall p set, not_loud p -> incl set loud -> isin_opt p set = false.
Proof.
  intros p set H I. apply not_true_is_false. intros E. apply isin_opt_iff in E as (c & -> & E).
  apply (H c eq_refl), I, E.
Qed.
Lemma not_loud_one : forall p x, not_loud p -> In x loud -> opt_is p x = false.
Proof.
  intros [c|] x H I; [|reflexivity]. cbn. apply N.eqb_neq. intros ->. now apply (H x eq_refl).
Qed.
Ltac setincl := let x := fresh in intros x; cbn; tauto.
Lemma not_loud_G : forall p, not_loud p -> isin_opt p $ "CSPTG" = opt_is p (# "G").
Proof.
  intros [c|] H; [|reflexivity]. cbn [isin_opt opt_is]. destruct (N.eqb_spec c (# "G")) as [->|D]; [reflexivity|].
  apply isin_false. intros I. apply (H c eq_refl). cbn in I |- *. intuition congruence.
Qed.

(** A letter that is not one of G H W Y nor a vowel gives something, but T before CH. *)
Lemma loud_sym : forall f l p m1 m2 x j, In x loud -> not_loud p ->
  sym f l p m1 m2 x = ([], j) -> x = # "T" /\ m1 = Some (# "C") /\ m2 = Some (# "H").
Proof.
  intros f l p m1 m2 x j I P E.
  assert (M : isin_opt p $ "M" = false) by (apply not_loud_isin; [exact P|setincl]).
  assert (S1 : isin_opt p $ "S" = false) by (apply not_loud_isin; [exact P|setincl]).
  assert (C1 : isin_opt p $ "C" = false) by (apply not_loud_isin; [exact P|setincl]).
  cbn [In loud] in I.
  unfold sym in E. rewrite M, S1, C1 in E. cbn [andb] in E.
  repeat (destruct I as [<-|I]; [
    cbv [isin existsb N.eqb Pos.eqb orb Vowel] in E;
    try (repeat match type of E with (if ?b then _ else _) = _ => destruct b end; discriminate E)|]);
    [|destruct I].
  destruct (opt_is m1 (# "C")) eqn:E1; [destruct (opt_is m2 (# "H")) eqn:E2|];
    cbn [andb] in E; try (exfalso; repeat match type of E with context[if ?b then _ else _] => destruct b end; discriminate E).
  destruct m1 as [a|]; [|discriminate E1]. destruct m2 as [b|]; [|discriminate E2].
  cbn in E1, E2. apply N.eqb_eq in E1. apply N.eqb_eq in E2. subst. auto.
Qed.

(** The quiet letters. *)
Definition quiet_sym (f : bool) (p m1 m2 : option N) (x : N) : Prop :=
  ~ (# "A" <= x <= # "Z")
  \/ (f = false /\ In x $ "AEIOU")
  \/ (x = # "G" /\ ((isin_opt m1 $ "H" = true /\ isin_opt m2 $ "AEIOU" = false) \/ (f = false /\ isin_opt m1 $ "N" = true)))
  \/ (x = # "H" /\ (isin_opt p $ "G" = true \/ isin_opt m1 $ "AEIOU" = false))
  \/ (In x $ "WY" /\ isin_opt m1 $ "AEIOU" = false).
Definition AZ : ustr := $ "ABCDEFGHIJKLMNOPQRSTUVWXYZ".
Lemma in_AZ : forall x, # "A" <= x <= # "Z" <-> In x AZ.
Proof. intros x. cbn. lia. Qed.
Lemma isin_opt_one : forall p x, isin_opt p [x] = opt_is p x.
Proof. intros [c|] x; [|reflexivity]. cbn [isin_opt opt_is]. unfold isin. cbn [existsb]. now rewrite orb_false_r. Qed.
Lemma sym_not_AZ : forall f l p m1 m2 x, ~ In x AZ -> sym f l p m1 m2 x = ([], 0%nat).
Proof.
  intros f l p m1 m2 x H.
  assert (Q : forall k, In k AZ -> (x =? k) = false) by (intros k Hk; apply N.eqb_neq; intros ->; tauto).
  assert (Q' : forall set, incl set AZ -> isin x set = false).
  { intros set I. apply isin_false. intros K. apply H, I, K. }
  unfold sym. rewrite !Q by (cbn; tauto). rewrite !Q' by (unfold Vowel; setincl). reflexivity.
Qed.
Lemma quiet_sym_iff : forall f l p m1 m2 x j, ~ In x loud -> not_loud p ->
  (sym f l p m1 m2 x = ([], j) <-> j = 0%nat /\ quiet_sym f p m1 m2 x).
Proof.
  intros f l p m1 m2 x j NL P. unfold quiet_sym. rewrite in_AZ.
  destruct (isin x AZ) eqn:EA; [apply isin_In in EA|apply isin_false in EA].
  2: { rewrite sym_not_AZ by exact EA. split; [intros E; injection E as <-; auto|]. now intros [-> _]. }
  assert (D : forall R : Prop, ~ In x AZ \/ R <-> R) by (intros R; tauto). rewrite D. clear D.
  rewrite isin_opt_one with (x := # "G"), <- (not_loud_G p P).
  assert (Y : ([] : ustr, 0%nat) = ([], j) <-> j = 0%nat) by (split; [intros E; now injection E|now intros ->]).
  assert (X : forall o : N, ([o] : ustr, 0%nat) = ([], j) <-> False) by (intros o; split; [discriminate|tauto]).
  cbn [In AZ] in EA.
  repeat (destruct EA as [<-|EA]; [
    first [ exfalso; apply NL; cbn; tauto
          | clear NL P; unfold sym; cbv [isin existsb N.eqb Pos.eqb orb Vowel];
            destruct f; cbn [negb andb];
            repeat match goal with
            | |- ?L = _ <-> _ => match L with context[isin_opt ?o ?set] => destruct (isin_opt o set) end
            end; cbn [negb andb]; rewrite ?X, ?Y; clear X Y; cbn [In];
            (split; [intros H; first [contradiction | split; [assumption|intuition congruence]]
                    |intros [? H]; first [assumption | intuition congruence]]) ]|]).
  destruct EA.
Qed.

Section Text.
Variable t : ustr.
Lemma stands_isin : forall k set, stands t k set <-> isin_opt (nth_error t k) set = true.
Proof. intros k set. rewrite isin_opt_iff. reflexivity. Qed.
Lemma not_stands : forall k set, ~ stands t k set <-> isin_opt (nth_error t k) set = false.
Proof. intros k set. rewrite stands_isin. apply not_true_iff_false. Qed.
Lemma prev_stands : forall i set, isin_opt (prev t i) set = true <-> (0 < i)%nat /\ stands t (i - 1) set.
Proof.
  intros i set. rewrite stands_isin. unfold prev. destruct (Nat.ltb_spec 0 i); [intuition lia|].
  split; [discriminate|lia].
Qed.
Lemma prev_some : forall i c, prev t i = Some c <-> (0 < i)%nat /\ stands t (i - 1) [c].
Proof.
  intros i c. rewrite <- prev_stands, isin_opt_one. destruct (prev t i) as [y|]; cbn; [|split; discriminate].
  rewrite N.eqb_eq. split; [intros E; injection E; auto|intros ->; reflexivity].
Qed.
Lemma prev_next : forall i c, nth_error t i = Some c -> prev t (i + 1) = Some c.
Proof.
  intros i c H. unfold prev. replace (Nat.ltb 0 (i + 1)) with true by (symmetry; apply Nat.ltb_lt; lia).
  now replace (i + 1 - 1)%nat with i by lia.
Qed.
Lemma quiet_iff : forall i c, metaphone_quiet t i c <->
  (prev t i = Some c /\ In c $ "GHWY") \/
  (quiet_sym (Nat.eqb i 0) (prev t i) (n1 t i) (n2 t i) c /\
   (c = # "G" -> isin_opt (n1 t i) $ "H" = true /\ isin_opt (n2 t i) $ "AEIOU" = false)).
Proof.
  intros i c. unfold metaphone_quiet, quiet_sym. rewrite <- prev_some, <- prev_stands, !not_stands, stands_isin.
  unfold n1, n2.
  assert (F : (Nat.eqb i 0 = false <-> (0 < i)%nat)) by (rewrite Nat.eqb_neq; lia). rewrite F. clear F.
  set (p := prev t i). set (h := isin_opt (nth_error t (i + 1)) $ "H"). set (v1 := isin_opt (nth_error t (i + 1)) $ "AEIOU").
  set (v2 := isin_opt (nth_error t (i + 2)) $ "AEIOU"). set (nn := isin_opt (nth_error t (i + 1)) $ "N").
  set (g := isin_opt p $ "G"). clearbody h v1 v2 nn g.
  assert (G1 : c = # "G" -> In c $ "GHWY" /\ 65 <= c <= 90 /\ ~ In c $ "AEIOU" /\ ~ In c $ "WY" /\ c <> # "H")
    by (intros ->; cbn; lia).
  assert (G2 : c = # "H" -> In c $ "GHWY") by (intros ->; cbn; lia).
  assert (G3 : In c $ "WY" -> In c $ "GHWY") by (cbn; lia).
  generalize dependent (In c $ "GHWY"). generalize dependent (In c $ "AEIOU"). generalize dependent (In c $ "WY").
  generalize (65 <= c <= 90). intros az wy vow G1 G3 ghwy. generalize (0 < i)%nat. intros pos.
  generalize dependent (c = # "G"). generalize dependent (c = # "H").
  clearbody p.
  generalize (p = Some c) (h = true) (v1 = false) (v2 = false) (nn = true) (g = true). clear. intros. tauto.
Qed.

Lemma reads_inv : forall i c code, nth_error t i = Some c -> reads t i code ->
  (c <> # "C" /\ prev t i = Some c /\ reads t (i + 1) code)
  \/ ((c = # "C" \/ prev t i <> Some c) /\ exists out j code',
        sym (Nat.eqb i 0) (Nat.leb 4 (length t)) (prev t i) (n1 t i) (n2 t i) c = (out, j) /\
        code = out ++ code' /\ reads t (i + 1 + j) code').
Proof.
  intros i c code X R. inversion R as [i0 L|i0 x code0 X0 C P R0|i0 x r out j code0 X0 C Ro G R0]; subst.
  - apply nth_error_None in L. congruence.
  - rewrite X in X0. injection X0 as <-. left. apply after_iff in P. auto.
  - rewrite X in X0. injection X0 as <-. right. rewrite after_iff in C. split; [exact C|].
    pose proof (letter_inv _ _ _ _ _ _ X Ro G) as E. exists out, j, code0. auto.
Qed.
Lemma reads_silent : forall n i, (length t <= i + n)%nat -> not_loud (prev t i) -> reads t i [] ->
  forall k c, (i <= k)%nat -> nth_error t k = Some c -> metaphone_quiet t k c.
Proof.
  intros n. induction n as [|n IH]; intros i L P R k c Hk Hc.
  { exfalso. assert (k < length t)%nat by (apply nth_error_Some; congruence). lia. }
  destruct (nth_error t i) as [x|] eqn:X.
  2: { exfalso. apply nth_error_None in X. assert (k < length t)%nat by (apply nth_error_Some; congruence). lia. }
  assert (main : metaphone_quiet t i x /\ ~ In x loud /\ reads t (i + 1) []).
  { destruct (reads_inv i x [] X R) as [(C & Q & R')|(C & out & j & code' & E & Eo & R')].
    - assert (NL : ~ In x loud) by (apply P; exact Q). split; [|now split].
      assert (0 < i)%nat. { apply prev_some in Q. lia. }
      destruct (isin x AZ) eqn:EA; [apply isin_In in EA|apply isin_false in EA].
      2: { left. now rewrite in_AZ. }
      right. assert (V : In x $ "AEIOU" \/ In x $ "GHWY").
      { cbn [In AZ] in EA. repeat (destruct EA as [<-|EA]; [first [left; cbn; tauto|right; cbn; tauto|exfalso; apply NL; cbn; tauto]|]). destruct EA. }
      destruct V as [V|V]; [left; auto|right]. split; [exact V|]. left. now apply prev_some.
    - symmetry in Eo. apply app_eq_nil in Eo as [-> ->].
      destruct (isin x loud) eqn:EL; [apply isin_In in EL|apply isin_false in EL].
      + exfalso. destruct (loud_sym _ _ _ _ _ _ _ EL P E) as (-> & N1 & N2).
        rewrite N1, N2 in E.
        assert (j = 0%nat) as -> by (destruct (sym_skip _ _ _ _ _ _ _ _ E) as [?|(_ & ? & _)]; [assumption|discriminate]).
        rewrite Nat.add_0_r in R'. unfold n1 in N1. unfold n2 in N2.
        destruct (reads_inv (i + 1) (# "C") [] N1 R') as [(Q & _)|(_ & out & j & code' & E' & Eo & _)]; [now apply Q|].
        symmetry in Eo. apply app_eq_nil in Eo as [-> _]. rewrite (prev_next i _ X) in E'.
        replace (n1 t (i + 1)) with (Some (# "H")) in E' by (unfold n1; rewrite <- N2; f_equal; lia).
        revert E'. unfold sym. cbv [isin_opt isin existsb N.eqb Pos.eqb orb andb opt_is Vowel].
        repeat match goal with |- context[if ?b then _ else _] => destruct b end; discriminate.
      + apply (quiet_sym_iff _ _ _ _ _ _ _ EL P) in E as [-> Q]. rewrite Nat.add_0_r in R'.
        split; [|now split]. apply quiet_iff. right. split; [exact Q|]. intros ->.
        unfold quiet_sym in Q. destruct Q as [Q|[[_ Q]|[[_ [Q|[_ Q]]]|[[Q _]|[Q _]]]]];
          [lia|cbn in Q; intuition congruence|exact Q| |discriminate Q|cbn in Q; intuition congruence].
        exfalso. apply isin_opt_iff in Q as (y & Y & Q). cbn in Q. destruct Q as [<-|[]]. unfold n1 in Y.
        destruct (reads_inv (i + 1) (# "N") [] Y R') as [(_ & Q & _)|(_ & out & j & code' & E' & Eo & _)].
        * rewrite (prev_next i _ X) in Q. discriminate Q.
        * symmetry in Eo. apply app_eq_nil in Eo as [-> _]. discriminate E'. }
  destruct main as (Q & NL & R'). destruct (Nat.eq_dec k i) as [->|D].
  - rewrite X in Hc. now injection Hc as <-.
  - apply (IH (i + 1)%nat); [lia| |exact R'|lia|exact Hc]. intros y Y. rewrite (prev_next i x X) in Y. now injection Y as <-.
Qed.
Lemma quiet_not_loud : forall i c, metaphone_quiet t i c -> ~ In c loud.
Proof.
  intros i c [H|[[_ H]|[H _]]] L.
  - cbn in L. lia.
  - cbn in L, H. lia.
  - cbn in L, H. lia.
Qed.
Lemma silent_reads : forall n i, (length t <= i + n)%nat ->
  (forall k c, nth_error t k = Some c -> metaphone_quiet t k c) -> reads t i [].
Proof.
  intros n. induction n as [|n IH]; intros i L H; [apply rd_end; lia|].
  destruct (nth_error t i) as [x|] eqn:X; [|apply rd_end; now apply nth_error_None].
  assert (R : reads t (i + 1) []) by (apply IH; [lia|exact H]).
  pose proof (H i x X) as Q. pose proof (quiet_not_loud i x Q) as NL.
  assert (P : not_loud (prev t i)).
  { intros y Y. unfold prev in Y. destruct (Nat.ltb 0 i); [|discriminate Y]. apply (quiet_not_loud (i - 1)), H, Y. }
  assert (NC : x <> # "C") by (intros ->; apply NL; cbn; tauto).
  destruct (prev t i) as [y|] eqn:Y.
  1: destruct (N.eq_dec y x) as [->|D].
  1: { apply (rd_repeated t i x [] X NC); [now apply after_iff|exact R]. }
  all: apply quiet_iff in Q as [[Q _]|[Q _]]; [congruence|];
    change ([] : ustr) with (([] : ustr) ++ []); apply (letter_step t i x [] 0 [] X);
    [right; congruence|apply quiet_sym_iff; [exact NL|rewrite Y; exact P|split; [reflexivity|exact Q]]|now rewrite Nat.add_0_r].
Qed.
Lemma reads_nil_iff : reads t 0 [] <-> forall k c, nth_error t k = Some c -> metaphone_quiet t k c.
Proof.
  split.
  - intros R k c. apply (reads_silent (length t) 0); [lia| |exact R|lia]. intros y Y. discriminate Y.
  - intros H. apply (silent_reads (length t)); [lia|exact H].
Qed.
End Text.
