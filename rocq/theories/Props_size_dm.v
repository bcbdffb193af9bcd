(** * C94: how long the codes of Double Metaphone can be. *)
From Verif Require Import Base UnicodeM Lib Helper DoubleMetaphone BaseLemmas Spec_common Spec_contextual Spec_double_metaphone
  UnicodeLemmas Contextual_proofs Props_size Props_double_metaphone Props_double_metaphone_spec Typo_double_metaphone_proofs.
Local Open Scope N_scope.

(** ** What every result of the rules needs *)
(** At least so many letters follow when the condition holds. *)
Definition at_reach (d : Z) (ws : list ustr) : nat :=
  match ws with [] => 0%nat | w :: r => fold_left (fun m w => Nat.min m (Z.to_nat (d + Z.of_nat (length w) - 1))) r (Z.to_nat (d + Z.of_nat (length w) - 1)) end.
Fixpoint reach (c : cond) : nat :=
  match c with
  | At d ws => at_reach d ws
  | Both c d => Nat.max (reach c) (reach d)
  | _ => 0%nat
  end.
Fixpoint results (m : nat) (r : rule sound) : list (sound * nat) :=
  match r with
  | Out s => [(s, m)]
  | If c r1 r2 => results (Nat.max m (reach c)) r1 ++ results m r2
  end.
Lemma fold_min : forall (f : ustr -> nat) r m, (fold_left (fun m w => Nat.min m (f w)) r m <= m)%nat
  /\ forall w, In w r -> (fold_left (fun m w => Nat.min m (f w)) r m <= f w)%nat.
Proof.
  intros f. induction r as [|x r IH]; intros m; cbn [fold_left]; [split; [lia|intros w []]|].
  destruct (IH (Nat.min m (f x))) as [A B]. split; [lia|]. intros w [<-|I]; [lia|now apply B].
Qed.
Lemma at_reach_ok : forall d ws w, In w ws -> (at_reach d ws <= Z.to_nat (d + Z.of_nat (length w) - 1))%nat.
Proof.
  intros d ws w I. destruct ws as [|x r]; [destruct I|]. unfold at_reach.
  destruct (fold_min (fun w => Z.to_nat (d + Z.of_nat (length w) - 1)) r (Z.to_nat (d + Z.of_nat (length x) - 1))) as [A B].
  destruct I as [<-|I]; [exact A|now apply B].
Qed.
Lemma reach_ok : forall c t i, (i < length t)%nat -> holds t i c -> (i + reach c < length t)%nat.
Proof.
  induction c as [d ws|n|n|n|ws|ws|ws|c IHc d IHd|c IHc d IHd|c _]; intros t i L H; cbn [reach]; try lia.
  - cbn [holds] in H. destruct H as (w & I & (a & b & -> & E)). pose proof (at_reach_ok d ws w I) as R. rewrite !app_length in *. lia.
  - destruct H as [H1 H2]. specialize (IHc t i L H1). specialize (IHd t i L H2). lia.
Qed.
Lemma results_ok : forall t i r s, gives t i r s -> forall m, (i + m < length t)%nat -> exists m', In (s, m') (results m r) /\ (i + m' < length t)%nat.
Proof.
  intros t i r s G. induction G as [s|c r1 r2 s H G IH|c r1 r2 s H G IH]; intros m L; cbn [results].
  - exists m. split; [now left|exact L].
  - assert (R : (i + reach c < length t)%nat) by (apply reach_ok; [lia|exact H]).
    destruct (IH (Nat.max m (reach c))) as (m' & I & L'); [lia|]. exists m'. split; [apply in_or_app; now left|exact L'].
  - destruct (IH m L) as (m' & I & L'). exists m'. split; [apply in_or_app; now right|exact L'].
Qed.

(** Two letters and one more, or the X. *)
Definition small (e : sound * nat) : bool :=
  let '(p, a, k, m) := e in Nat.leb (2 * length p + 1) (3 * (1 + Nat.min k m)) && Nat.leb (length a) (2 * (1 + Nat.min k m)).
Definition all_small : bool :=
  forallb (fun e : ustr * (N -> rule sound) => forallb (fun c => (c =? # "X") || forallb small (results 0 (snd e c))) (fst e)) double_metaphone_table.
Lemma all_small_true : all_small = true.
Proof. vm_compute. reflexivity. Qed.

Definition debt (t : ustr) (i : nat) : nat := match nth_error t i with Some c => if c =? # "X" then 1%nat else 0%nat | None => 0%nat end.
Lemma debt_le : forall t i, (debt t i <= 1)%nat.
Proof. intros t i. unfold debt. destruct (nth_error t i) as [c|]; [destruct (c =? # "X")|]; lia. Qed.
Lemma letter_cases : forall c r, rule_of double_metaphone_table (nothing 0) c r ->
  (c = # "X" /\ r = rule_x) \/ forallb small (results 0 r) = true.
Proof.
  intros c r R. destruct R as [ls f I Ic|_]; [|right; reflexivity].
  pose proof all_small_true as A. unfold all_small in A. rewrite forallb_forall in A. specialize (A _ I). cbn [fst snd] in A.
  rewrite forallb_forall in A. specialize (A c Ic). destruct (N.eqb_spec c (# "X")) as [->|N0]; [|right; exact A].
  left. split; [reflexivity|]. clear A. cbn [In double_metaphone_table] in I.
  repeat (destruct I as [I|I]; [injection I as <- <-; first [reflexivity|exfalso; cbn in Ic; repeat (destruct Ic as [Ic|Ic]; [discriminate Ic|]); destruct Ic]|]). destruct I.
Qed.
Lemma reads_small : forall t i ps als, dm_reads t i ps als ->
  (2 * length ps <= 3 * (length t - i) + debt t i)%nat /\ (i = 0%nat -> 2 * length ps <= 3 * length t)%nat /\ (length als <= 2 * (length t - i))%nat.
Proof.
  intros t i ps als R. induction R as [i L|i c r p a k ps als N0 Ru G R (IH1 & _ & IH2)]; [cbn [length]; repeat split; lia|].
  assert (L : (i < length t)%nat) by (apply nth_error_Some; congruence). rewrite !app_length.
  pose proof (debt_le t (i + 1 + k)) as D1. unfold debt at 1. rewrite N0.
  destruct (letter_cases c r Ru) as [[-> ->]|S0].
  - change (# "X" =? # "X") with true. cbv iota. unfold rule_x, same, nothing, skipping in G.
    inversion G as [|? ? ? ? F G1|? ? ? ? F G1]; subst; clear G.
    { unfold First in F. cbn [holds] in F. inversion G1; subst. cbn [length]. lia. }
    assert (I1 : (1 <= i)%nat) by (unfold First in F; cbn [holds] in F; lia). clear F.
    inversion G1 as [|? ? ? ? F G2|? ? ? ? F G2]; subst; clear G1.
    { inversion G2; subst. cbn [length]. lia. }
    clear F. inversion G2 as [|? ? ? ? F G3|? ? ? ? F G3]; subst; clear G2.
    + inversion G3; subst. change (length $ "KS") with 2%nat.
      pose proof (reach_ok _ t i L F) as Re. change (reach (Before $ "CX")) with 1%nat in Re. lia.
    + inversion G3; subst. change (length $ "KS") with 2%nat.
      assert (D0 : debt t (i + 1 + 0) = 0%nat).
      { rewrite Nat.add_0_r. unfold debt. destruct (nth_error t (i + 1)) as [d|] eqn:E; [|reflexivity].
        destruct (N.eqb_spec d (# "X")) as [->|_]; [|reflexivity]. exfalso. apply F. apply (next_is _ _ _ _ E). cbn. tauto. }
      rewrite D0 in IH1. lia.
  - destruct (results_ok t i r (p, a, k) G 0) as (m & I & Lm); [lia|]. rewrite forallb_forall in S0. specialize (S0 _ I). unfold small in S0.
    apply andb_true_iff in S0 as [S1 S2]. apply Nat.leb_le in S1, S2. repeat split; lia.
Qed.

(** Each code has at most three letters for every two of the name, or two for every one. *)
Theorem C94_double_metaphone : forall u max s p a, ascii_str s -> double_metaphone u max s = Ok {| dm_primary := p; dm_alternate := a |} ->
  (2 * length p <= 3 * length s)%nat /\ (length a <= 2 * length s)%nat.
Proof.
  intros u max s p a A H. assert (T : trimmed s (trim u s)) by now apply (trimmed_iff u s _ A).
  apply (C69_double_metaphone_is_its_definition u max s _ _ _ A T) in H as (i & ps & als & St & R & -> & ->).
  apply reads_small in R as (R1 & R0 & R2). rewrite map_length in *.
  assert (L : (length (trim u s) <= length s)%nat).
  { destruct T as (x & y & E & _). apply (f_equal (@length N)) in E. rewrite !app_length in E. lia. }
  assert (C : forall l : ustr, (length (dm_cut max l) <= length l)%nat) by (intros l; destruct max as [n|]; cbn; [rewrite firstn_length; lia|lia]).
  pose proof (C ps) as C1. pose proof (C als) as C2.
  pose proof (debt_le (map ascii_up (trim u s)) i) as D.
  destruct St as [(-> & w & r & I & E)|(-> & _)].
  - assert (L2 : (2 <= length (trim u s))%nat).
    { rewrite <- (map_length ascii_up), E, app_length. cbn in I. repeat (destruct I as [<-|I]; [cbn; lia|]). destruct I. }
    lia.
  - specialize (R0 eq_refl). lia.
Qed.

(** ** Names that need as much *)
Lemma Slavo_K : forall t i, In (# "K") t -> holds t i SlavoGermanic.
Proof.
  intros t i I. apply in_split in I as (a & b & ->). exists $ "K", (Z.of_nat (length a)). split; [right; now left|]. now exists a, b.
Qed.
Lemma step_XZ : forall t k r, (forall x, In x t -> In x $ "KXZ") -> In (# "K") t -> t = $ "K" ++ times k $ "XZ" ++ $ "XZ" ++ r ->
  (r = [] \/ exists r', r = # "X" :: r') -> forall ps als, dm_reads t (1 + S k * 2) ps als ->
  dm_reads t (1 + k * 2) ($ "KSS" ++ ps) ($ "KSTS" ++ als).
Proof.
  intros t k r A K E R ps als D.
  assert (N0 : nth_error t (1 + k * 2) = Some (# "X")) by (rewrite E; replace (k * 2)%nat with (k * 2 + 0)%nat by lia; exact (at_times k $ "XZ" ($ "XZ" ++ r) 0)).
  assert (N1 : nth_error t (1 + k * 2 + 1) = Some (# "Z")) by (rewrite E; exact (at_times k $ "XZ" ($ "XZ" ++ r) 1)).
  assert (N2 : forall s, ~ In (# "X") s -> ~ holds t (1 + k * 2 + 1) (Before s)).
  { intros s NX H. destruct R as [->|(r' & ->)].
    - apply (no_next t (1 + k * 2 + 1) s); [|exact H]. rewrite E, !app_length, times_length. cbn [length]. lia.
    - assert (N2 : nth_error t (1 + k * 2 + 1 + 1) = Some (# "X")) by (rewrite E; replace (1 + k * 2 + 1 + 1)%nat with (1 + (k * 2 + 2))%nat by lia; exact (at_times k $ "XZ" ($ "XZ" ++ # "X" :: r') 2)).
      apply (next_is _ _ _ _ N2) in H. contradiction. }
  apply (dr_letter t (1 + k * 2) (# "X") rule_x $ "KS" $ "KS" 0 ($ "S" ++ ps) ($ "TS" ++ als) N0).
  - apply (ro_listed double_metaphone_table (nothing 0) (# "X") $ "X" (fun _ => rule_x)); [cbn [In double_metaphone_table]; tauto|now left].
  - apply g_no; [unfold First; cbn [holds]; lia|]. apply g_no.
    { intros [L _]. unfold Last in L. cbn [holds] in L. assert (X : nth_error t (1 + k * 2 + 1) <> None) by congruence. apply nth_error_Some in X. lia. }
    apply g_no; [|constructor]. rewrite (next_is _ _ _ _ N1). intros [H|[H|[]]]; discriminate H.
  - rewrite Nat.add_0_r. apply (dr_letter t (1 + k * 2 + 1) (# "Z") rule_z $ "S" $ "TS" 0 ps als N1).
    + apply (ro_listed double_metaphone_table (nothing 0) (# "Z") $ "Z" (fun _ => rule_z)); [cbn [In double_metaphone_table]; tauto|now left].
    + apply g_no; [apply N2; intros [H|[]]; discriminate H|]. apply g_yes.
      { right. split; [now apply Slavo_K|]. split; [unfold First; cbn [holds]; lia|].
        apply (absent_no $ "KXZ" t _ (After $ "T")); [exact A|reflexivity]. }
      apply g_no; [apply N2; intros [H|[]]; discriminate H|constructor].
    + replace (1 + k * 2 + 1 + 1 + 0)%nat with (1 + S k * 2)%nat by lia. exact D.
Qed.
Lemma reads_XZ : forall m k t, (forall x, In x t -> In x $ "KXZ") -> In (# "K") t -> t = $ "K" ++ times k $ "XZ" ++ times m $ "XZ" ->
  dm_reads t (1 + k * 2) (times m $ "KSS") (times m $ "KSTS").
Proof.
  induction m as [|m IH]; intros k t A K E.
  - constructor. rewrite E, !app_length, times_length. cbn [length times repeat concat]. lia.
  - rewrite !times_S. apply (step_XZ t k (times m $ "XZ")); [exact A|exact K| | |].
    + rewrite E. now rewrite (times_S m).
    + destruct m as [|m]; [now left|right]. rewrite times_S. now exists ($ "Z" ++ times m $ "XZ").
    + apply IH; [exact A|exact K|]. rewrite E. unfold times. replace (S k) with (k + 1)%nat by lia. rewrite repeat_app, concat_app, <- !app_assoc. reflexivity.
Qed.
(** 2n+1 letters: a primary code of 3n+1, as many as possible, an alternate code of 4n+1. *)
Theorem C94_double_metaphone_reached : forall u n, double_metaphone u None ($ "K" ++ times n $ "XZ")
  = Ok {| dm_primary := $ "K" ++ times n $ "KSS"; dm_alternate := $ "K" ++ times n $ "KSTS" |}.
Proof.
  intros u n. set (t := $ "K" ++ times n $ "XZ").
  assert (I : forall x, In x t -> In x $ "KXZ").
  { intros x H. apply in_app_or in H as [[<-|[]]|H]; [now left|]. apply times_In in H. cbn in H |- *; intuition. }
  assert (A : ascii_str t) by (intros x H; apply I in H; cbn in H; repeat (destruct H as [<-|H]; [reflexivity|]); destruct H).
  apply (C69_double_metaphone_is_its_definition u None t t _ _ A).
  - apply trimmed_none. intros c H B. apply I in H. cbn in H. repeat (destruct H as [<-|H]; [destruct B as [B|B]; [discriminate B|lia]|]). destruct H.
  - assert (U : map ascii_up t = t) by (unfold t; rewrite map_app, times_up; reflexivity). rewrite U.
    exists 0%nat, ($ "K" ++ times n $ "KSS"), ($ "K" ++ times n $ "KSTS"). split; [|split; [|split; reflexivity]].
    + right. split; [reflexivity|]. intros w r J X. cbn in J. repeat (destruct J as [<-|J]; [|]); [discriminate X| |discriminate X..|destruct J].
      assert (M : In (# "N") t) by (rewrite X; cbn; tauto). apply I in M. cbn in M. repeat (destruct M as [M|M]; [discriminate M|]). destruct M.
    + apply (dr_letter t 0 (# "K") (doubled $ "K" $ "K") $ "K" $ "K" 0 (times n $ "KSS") (times n $ "KSTS")); [reflexivity| | |].
      * apply (ro_listed double_metaphone_table (nothing 0) (# "K") $ "K" (fun _ => doubled $ "K" $ "K")); [cbn [In double_metaphone_table]; tauto|now left].
      * apply g_no; [|constructor]. intros H. destruct n as [|n].
        -- apply (no_next t 0 $ "K"); [reflexivity|exact H].
        -- apply (next_is t 0 (# "X") $ "K") in H; [|reflexivity]. destruct H as [H|[]]. discriminate H.
      * exact (reads_XZ n 0 t I (or_introl eq_refl) eq_refl).
Qed.
Example C94_double_metaphone_nonvacuous : forall u,
  double_metaphone u None $ "KXZXZXZ" = Ok {| dm_primary := $ "KKSSKSSKSS"; dm_alternate := $ "KKSTSKSTSKSTS" |}.
Proof. intros u. vm_compute. reflexivity. Qed.
