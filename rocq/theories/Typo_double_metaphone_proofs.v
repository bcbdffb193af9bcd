(** * Double Metaphone and spelling mistakes: proofs. *)
From Verif Require Import Base UnicodeM Lib DoubleMetaphone BaseLemmas Spec_common Spec_contextual Spec_double_metaphone Spec_typo
  Contextual_proofs Soundex_proofs UnicodeLemmas Props_double_metaphone Props_double_metaphone_spec Typo_proofs Props_size.
Local Open Scope N_scope.

Lemma stands_char : forall t w p c, stands_at t (c :: w) p -> nth_error t (Z.to_nat p) = Some c.
Proof.
  intros t w p c (a & b & -> & <-). rewrite Nat2Z.id, nth_error_app2, Nat.sub_diag by lia. reflexivity.
Qed.
Lemma stands_in : forall t w p c, stands_at t w p -> In c w -> In c t.
Proof. intros t w p c (a & b & -> & _) I. apply in_or_app. right. apply in_or_app. now left. Qed.
(** Words with another character than those of the text. *)
Definition foreign (al : ustr) (ws : list ustr) : bool := forallb (existsb (fun c => negb (isin c al))) ws.
Fixpoint absent (al : ustr) (c : cond) : bool :=
  match c with
  | At _ ws | Begins ws | Somewhere ws | Finishes ws => foreign al ws
  | Both c d => absent al c || absent al d
  | Either c d => absent al c && absent al d
  | _ => false
  end.
Lemma foreign_no : forall al t ws w, (forall x, In x t -> In x al) -> foreign al ws = true -> In w ws -> exists c, In c w /\ ~ In c t.
Proof.
  intros al t ws w A F I. unfold foreign in F. rewrite forallb_forall in F. apply F in I. apply existsb_exists in I as (c & I & B).
  exists c. split; [exact I|]. intros H. apply A in H. apply isin_In in H. rewrite H in B. discriminate B.
Qed.
Lemma absent_no : forall al t i c, (forall x, In x t -> In x al) -> absent al c = true -> ~ holds t i c.
Proof.
  intros al t i c A. induction c as [d ws|n|n|n|ws|ws|ws|c IHc d IHd|c IHc d IHd|c _]; cbn [absent holds]; intros F; try discriminate F.
  - intros (w & I & H). destruct (foreign_no al t ws w A F I) as (x & Ix & Nx). now apply (stands_in t w _ x) in H.
  - intros (w & r & I & H). destruct (foreign_no al t ws w A F I) as (x & Ix & Nx). apply Nx. rewrite H. apply in_or_app. now left.
  - intros (w & r & I & H). destruct (foreign_no al t ws w A F I) as (x & Ix & Nx). apply Nx. rewrite H. apply in_or_app. now right.
  - intros (w & p & I & H). destruct (foreign_no al t ws w A F I) as (x & Ix & Nx). now apply (stands_in t w _ x) in H.
  - apply orb_true_iff in F as [F|F]; [intros [H _]|intros [_ H]]; [now apply IHc in F|now apply IHd in F].
  - apply andb_true_iff in F as [F1 F2]. intros [H|H]; [now apply IHc in F1|now apply IHd in F2].
Qed.
(** Whether the name counts as Slavo-Germanic is whether it has a W, in these texts. *)
Lemma slavo_W : forall al t i, (forall x, In x t -> In x al) -> isin (# "K") al = false -> isin (# "C") al = false ->
  (holds t i SlavoGermanic <-> In (# "W") t).
Proof.
  intros al t i A K C. unfold SlavoGermanic. cbn [holds]. split.
  - intros (w & p & I & St). cbn [In] in I. repeat (destruct I as [<-|I]; [|]); [| | | |destruct I].
    + apply (stands_in _ _ _ (# "W") St). now left.
    + exfalso. pose proof (A _ (stands_in _ _ _ (# "K") St ltac:(now left))) as B. apply isin_In in B. congruence.
    + exfalso. pose proof (A _ (stands_in _ _ _ (# "C") St ltac:(now left))) as B. apply isin_In in B. congruence.
    + apply (stands_in _ _ _ (# "W") St). now left.
  - intros I. apply in_split in I as (a & b & ->). exists $ "W", (Z.of_nat (length a)). split; [now left|]. now exists a, b.
Qed.
Lemma next_is : forall t i c s, nth_error t (i + 1) = Some c -> (holds t i (Before s) <-> In c s).
Proof.
  intros t i c s H. unfold Before. cbn [holds]. split.
  - intros (w & I & St). apply in_map_iff in I as (x & <- & I). apply stands_char in St.
    replace (Z.to_nat (Z.of_nat i + 1)) with (i + 1)%nat in St by lia. rewrite H in St. now injection St as <-.
  - intros I. exists [c]. split; [apply in_map_iff; now exists c|]. apply nth_error_split in H as (a & b & -> & L).
    exists a, b. split; [reflexivity|lia].
Qed.
Lemma no_next : forall t i s, (length t <= i + 1)%nat -> ~ holds t i (Before s).
Proof.
  intros t i s L (w & I & St). apply in_map_iff in I as (x & <- & I). apply stands_char in St.
  assert (K : nth_error t (Z.to_nat (Z.of_nat i + 1)) <> None) by congruence. apply nth_error_Some in K. lia.
Qed.

(** ** Names of any number of GN *)
Lemma at_times : forall k w (r : ustr) i, nth_error (times k w ++ r) (k * length w + i) = nth_error r i.
Proof. intros k w r i. rewrite nth_error_app2 by (rewrite times_length; lia). rewrite times_length. f_equal. lia. Qed.
Section GN.
Variables (e : ustr) (slavo : bool).
Let sounds := if slavo then $ "KN" else $ "N".
Lemma step_GN : forall t k r, (forall x, In x t -> In x $ "GNW") -> (slavo = true <-> In (# "W") t) -> (1 <= k)%nat ->
  t = times k $ "GN" ++ $ "GN" ++ r -> forall ps als, dm_reads t (S k * 2) ps als -> dm_reads t (k * 2) (sounds ++ ps) ($ "KN" ++ als).
Proof.
  intros t k r A W K E ps als R.
  assert (N0 : nth_error t (k * 2) = Some (# "G")) by (rewrite E; replace (k * 2)%nat with (k * 2 + 0)%nat by lia; exact (at_times k $ "GN" ($ "GN" ++ r) 0)).
  assert (N1 : nth_error t (k * 2 + 1) = Some (# "N")) by (rewrite E; exact (at_times k $ "GN" ($ "GN" ++ r) 1)).
  apply (dr_letter t (k * 2) (# "G") rule_g sounds $ "KN" 1 ps als N0).
  - apply (ro_listed double_metaphone_table (nothing 0) (# "G") $ "G" (fun _ => rule_g)); [cbn; tauto|now left].
  - apply g_no; [now apply (absent_no $ "GNW")|]. apply g_yes; [apply (next_is _ _ _ _ N1); now left|].
    apply g_no.
    { intros [[H1 H2] _]. apply H2. cbn [holds]. lia. }
    assert (S0 : slavo = true <-> holds t (k * 2) SlavoGermanic) by (rewrite (slavo_W _ t (k * 2) A eq_refl eq_refl); exact W).
    unfold sounds. destruct slavo.
    + apply g_no; [intros [_ H]; apply H; now apply S0|constructor].
    + apply g_yes; [|constructor]. split; [|intros H; apply S0 in H; discriminate H]. cbn [holds]. now apply (absent_no $ "GNW" t (k * 2) (At 2 [$ "EY"]) A).
  - replace (k * 2 + 1 + 1)%nat with (S k * 2)%nat by lia. exact R.
Qed.
Lemma reads_GN : forall m k t, (forall x, In x t -> In x $ "GNW") -> (slavo = true <-> In (# "W") t) -> (1 <= k)%nat ->
  t = times k $ "GN" ++ times m $ "GN" ++ e -> forall ps als, dm_reads t ((k + m) * 2) ps als -> dm_reads t (k * 2) (times m sounds ++ ps) (times m $ "KN" ++ als).
Proof.
  induction m as [|m IH]; intros k t A W K E ps als R; [replace (k + 0)%nat with k in R by lia; exact R|].
  rewrite !times_S, <- !app_assoc. rewrite times_S, <- app_assoc in E. apply (step_GN t k (times m $ "GN" ++ e) A W K E).
  apply IH; [exact A|exact W|lia| |replace (S k + m)%nat with (k + S m)%nat by lia; exact R].
  rewrite E. unfold times. replace (S k) with (k + 1)%nat by lia. rewrite repeat_app, concat_app, <- !app_assoc. reflexivity.
Qed.
End GN.
Lemma trimmed_none : forall s, (forall c, In c s -> ~ blank c) -> trimmed s s.
Proof.
  intros s H. exists [], []. rewrite app_nil_r. split; [reflexivity|]. split; [intros c []|]. split; [intros c []|].
  split; intros c r E; apply H; rewrite E; [now left|apply in_or_app; right; now left].
Qed.
Lemma start_GN : forall n e (slavo : bool) t ps als, t = times (S n) $ "GN" ++ e -> (forall x, In x e -> x = # "W") -> (slavo = true <-> In (# "W") t) ->
  dm_reads t (S n * 2) ps als -> double_metaphone_codes None t (# "N" :: times n (if slavo then $ "KN" else $ "N") ++ ps) (# "N" :: times n $ "KN" ++ als).
Proof.
  intros n e slavo t ps als E Ee W R.
  assert (A : forall x, In x t -> In x $ "GNW").
  { intros x I. rewrite E in I. apply in_app_or in I as [I|I]; [apply times_In in I; cbn in I |- *; tauto|apply Ee in I as ->; cbn; tauto]. }
  assert (E1 : t = # "G" :: # "N" :: times n $ "GN" ++ e) by (rewrite E, times_S; reflexivity).
  eexists 1%nat, _, _. split; [left; split; [reflexivity|]; exists $ "GN", (times n $ "GN" ++ e); split; [now left|exact E1]|].
  split; [|split; reflexivity].
  apply (dr_letter t 1 (# "N") (doubled $ "N" $ "N") $ "N" $ "N" 0).
  - rewrite E1. reflexivity.
  - apply (ro_listed double_metaphone_table (nothing 0) (# "N") $ "N" (fun _ => doubled $ "N" $ "N")); [cbn; tauto|now left].
  - apply g_no; [|constructor]. destruct (nth_error t (1 + 1)) as [c|] eqn:N2.
    + rewrite (next_is t 1 c _ N2). intros [<-|[]]. rewrite E1 in N2. destruct n as [|n]; cbn in N2; [|discriminate N2].
      destruct e as [|x e]; [discriminate N2|]. cbn in N2. injection N2 as ->. discriminate (Ee 78 (or_introl eq_refl)).
    + apply no_next. now apply nth_error_None in N2.
  - cbn [Nat.add]. apply (reads_GN e slavo n 1 t A W (le_n 1)); [exact E|exact R].
Qed.
Lemma GN_code : forall u n, double_metaphone u None (times (S n) $ "GN") = Ok {| dm_primary := # "N" :: times n $ "N"; dm_alternate := # "N" :: times n $ "KN" |}.
Proof.
  intros u n. set (t := times (S n) $ "GN").
  assert (I : forall x, In x t -> x = # "G" \/ x = # "N") by (intros x H; apply times_In in H; cbn in H; intuition).
  assert (A : ascii_str t) by (intros x H; destruct (I x H) as [->| ->]; reflexivity).
  apply (C69_double_metaphone_is_its_definition u None t t _ _ A).
  - apply trimmed_none. intros c H B. destruct (I c H) as [->| ->]; destruct B as [B|B]; [discriminate B|lia|discriminate B|lia].
  - assert (U : map ascii_up t = t) by (apply times_up; reflexivity). rewrite U.
    pose proof (start_GN n [] false t [] [] ltac:(now rewrite app_nil_r) ltac:(intros x []) ) as K. cbv iota in K. rewrite !app_nil_r in K. apply K.
    + split; [discriminate|]. intros H. destruct (I _ H) as [E|E]; discriminate E.
    + constructor. unfold t. rewrite times_length. cbn [length]. lia.
Qed.
Lemma GNW_code : forall u n, double_metaphone u None (times (S n) $ "GN" ++ $ "W")
  = Ok {| dm_primary := # "N" :: times n $ "KN" ++ []; dm_alternate := # "N" :: times n $ "KN" ++ [] |}.
Proof.
  intros u n. set (t := times (S n) $ "GN" ++ $ "W").
  assert (I : forall x, In x t -> In x $ "GNW") by (intros x H; apply in_app_or in H as [H|H]; [apply times_In in H|]; cbn in H |- *; intuition).
  assert (A : ascii_str t) by (intros x H; apply I in H; cbn in H; repeat (destruct H as [<-|H]; [reflexivity|]); destruct H).
  assert (U : map ascii_up t = t) by (unfold t; rewrite map_app, times_up by reflexivity; reflexivity).
  set (i := (S n * 2)%nat). assert (N0 : nth_error t i = Some (# "W")).
  { unfold t, i. pose proof (at_times (S n) $ "GN" $ "W" 0) as K. cbn [length] in K. rewrite Nat.add_0_r in K. exact K. }
  assert (L : length t = (i + 1)%nat) by (unfold t, i; rewrite app_length, times_length; cbn [length]; lia).
  assert (E : gives t i rule_w ([], [], 0%nat)).
  { apply g_no; [now apply (absent_no $ "GNW")|]. apply g_no; [intros [H _]; apply H; cbn [holds]; lia|]. apply g_no; [intros [H _]; apply H; cbn [holds]; lia|].
    apply g_no; [now apply (absent_no $ "GNW")|]. apply g_no; [now apply (absent_no $ "GNW")|constructor]. }
  apply (C69_double_metaphone_is_its_definition u None t t _ _ A).
  - apply trimmed_none. intros c H B. apply I in H. cbn in H. repeat (destruct H as [<-|H]; [destruct B as [B|B]; [discriminate B|lia]|]). destruct H.
  - rewrite U. apply (start_GN n $ "W" true t); [reflexivity|intros x [<-|[]]; reflexivity| |].
    + split; [|reflexivity]. intros _. unfold t. apply in_or_app. right. now left.
    + apply (dr_letter t i (# "W") rule_w [] [] 0 [] [] N0); [|exact E|constructor; lia].
      apply (ro_listed double_metaphone_table (nothing 0) (# "W") $ "W" (fun _ => rule_w)); [cbn; tauto|now left].
Qed.

(** ** Names of any number of JA *)
Lemma previous_is : forall t i c ws, nth_error t i = Some c -> In [c] ws -> holds t (i + 1) (At (-1) ws).
Proof.
  intros t i c ws H I. cbn [holds]. exists [c]. split; [exact I|]. apply nth_error_split in H as (a & b & -> & L).
  exists a, b. split; [reflexivity|lia].
Qed.
Lemma step_A : forall t i ps als, nth_error t i = Some (# "A") -> (1 <= i)%nat -> dm_reads t (i + 1) ps als -> dm_reads t i ps als.
Proof.
  intros t i ps als H L R. apply (dr_letter t i (# "A") (If First (same $ "A" 0) (nothing 0)) [] [] 0 ps als H).
  - apply (ro_listed double_metaphone_table (nothing 0) (# "A") $ "AEIOUY" (fun _ => If First (same $ "A" 0) (nothing 0))); [cbn; tauto|now left].
  - apply g_no; [|constructor]. intros F. apply F. exact L.
  - rewrite Nat.add_0_r. exact R.
Qed.
Lemma step_JA : forall t k r (slavo : bool), (forall x, In x t -> In x $ "AJW") -> (slavo = true <-> In (# "W") t) ->
  t = times k $ "JA" ++ $ "JA" ++ r -> forall ps als, dm_reads t (S k * 2) ps als ->
  dm_reads t (k * 2) ($ "J" ++ ps) ((if Nat.eqb k 0 then $ "A" else if slavo then $ "J" else $ "H") ++ als).
Proof.
  intros t k r slavo A W E ps als R.
  assert (N0 : nth_error t (k * 2) = Some (# "J")) by (rewrite E; replace (k * 2)%nat with (k * 2 + 0)%nat by lia; exact (at_times k $ "JA" ($ "JA" ++ r) 0)).
  assert (N1 : nth_error t (k * 2 + 1) = Some (# "A")) by (rewrite E; exact (at_times k $ "JA" ($ "JA" ++ r) 1)).
  assert (NJ : ~ holds t (k * 2) (Before $ "J")) by (rewrite (next_is _ _ _ _ N1); intros [H|[]]; discriminate H).
  apply (dr_letter t (k * 2) (# "J") rule_j $ "J" (if Nat.eqb k 0 then $ "A" else if slavo then $ "J" else $ "H") 0 ps als N0).
  - apply (ro_listed double_metaphone_table (nothing 0) (# "J") $ "J" (fun _ => rule_j)); [cbn; tauto|now left].
  - apply g_no; [now apply (absent_no $ "AJW")|]. destruct (Nat.eqb_spec k 0) as [->|K].
    { apply g_yes; [unfold First; cbn [holds]; lia|]. apply g_no; [exact NJ|constructor]. }
    apply g_no; [unfold First; cbn [holds]; lia|].
    pose proof (slavo_W _ t (k * 2) A eq_refl eq_refl) as S0. destruct slavo.
    + apply g_no; [intros [_ [H _]]; apply H, S0, W; reflexivity|].
      apply g_no; [unfold Last; cbn [holds]; intros L; rewrite Nat.add_0_r in L; assert (X : nth_error t (k * 2 + 1) <> None) by congruence; apply nth_error_Some in X; lia|].
      apply g_yes; [split; cbn [holds]; [now apply (absent_no $ "AJW" t (k * 2) (Before $ "LTKSNMBZ"))|now apply (absent_no $ "AJW" t (k * 2) (After $ "SKL"))]|].
      apply g_no; [exact NJ|constructor].
    + apply g_yes.
      { split; [|split].
        - assert (P : nth_error t ((k - 1) * 2 + 1) = Some (# "A")).
          { rewrite E. replace (times k $ "JA") with (times (k - 1 + 1) $ "JA") by (f_equal; lia). unfold times. rewrite repeat_app, concat_app, <- app_assoc. exact (at_times (k - 1) $ "JA" ($ "JA" ++ $ "JA" ++ r) 1). }
          replace (k * 2)%nat with ((k - 1) * 2 + 1 + 1)%nat by lia. apply (previous_is t _ (# "A")); [exact P|now left].
        - intros H. apply S0, W in H. discriminate H.
        - apply (next_is _ _ _ _ N1). now left. }
      apply g_no; [exact NJ|constructor].
  - rewrite Nat.add_0_r. apply step_A; [exact N1|lia|]. replace (k * 2 + 1 + 1)%nat with (S k * 2)%nat by lia. exact R.
Qed.
Lemma reads_JA : forall m k e t (slavo : bool), (forall x, In x t -> In x $ "AJW") -> (slavo = true <-> In (# "W") t) -> (1 <= k)%nat ->
  t = times k $ "JA" ++ times m $ "JA" ++ e -> forall ps als, dm_reads t ((k + m) * 2) ps als ->
  dm_reads t (k * 2) (times m $ "J" ++ ps) (times m (if slavo then $ "J" else $ "H") ++ als).
Proof.
  induction m as [|m IH]; intros k e t slavo A W K E ps als R; [replace (k + 0)%nat with k in R by lia; exact R|].
  rewrite !times_S, <- !app_assoc. rewrite times_S, <- app_assoc in E.
  pose proof (step_JA t k (times m $ "JA" ++ e) slavo A W E) as S1. replace (Nat.eqb k 0) with false in S1 by (symmetry; apply Nat.eqb_neq; lia).
  apply S1. apply (IH (S k) e); [exact A|exact W|lia| |replace (S k + m)%nat with (k + S m)%nat by lia; exact R].
  rewrite E. unfold times. replace (S k) with (k + 1)%nat by lia. rewrite repeat_app, concat_app, <- !app_assoc. reflexivity.
Qed.
Lemma start_JA : forall n e (slavo : bool) t ps als, t = times (S n) $ "JA" ++ e -> (forall x, In x t -> In x $ "AJW") -> (slavo = true <-> In (# "W") t) ->
  dm_reads t (S n * 2) ps als -> double_metaphone_codes None t (# "J" :: times n $ "J" ++ ps) (# "A" :: times n (if slavo then $ "J" else $ "H") ++ als).
Proof.
  intros n e slavo t ps als E A W R. rewrite times_S, <- app_assoc in E.
  eexists 0%nat, _, _. split.
  - right. split; [reflexivity|]. intros w r I X. unfold silent_beginnings in I.
    apply (absent_no $ "AJW" t 0 (Begins silent_beginnings) A eq_refl). exists w, r. now split.
  - split; [|split; reflexivity]. apply (step_JA t 0 (times n $ "JA" ++ e) slavo A W E).
    apply (reads_JA n 1 e t slavo A W (le_n 1)); [exact E|exact R].
Qed.
Lemma JA_code : forall u n, double_metaphone u None (times (S n) $ "JA") = Ok {| dm_primary := # "J" :: times n $ "J"; dm_alternate := # "A" :: times n $ "H" |}.
Proof.
  intros u n. set (t := times (S n) $ "JA").
  assert (I : forall x, In x t -> In x $ "AJ") by (intros x H; apply times_In in H; cbn in H |- *; intuition).
  assert (A : ascii_str t) by (intros x H; apply I in H; cbn in H; repeat (destruct H as [<-|H]; [reflexivity|]); destruct H).
  apply (C69_double_metaphone_is_its_definition u None t t _ _ A).
  - apply trimmed_none. intros c H B. apply I in H. cbn in H. repeat (destruct H as [<-|H]; [destruct B as [B|B]; [discriminate B|lia]|]). destruct H.
  - assert (U : map ascii_up t = t) by (apply times_up; reflexivity). rewrite U.
    pose proof (start_JA n [] false t [] []) as K. cbv iota in K. rewrite !app_nil_r in K. apply K; [reflexivity| | |].
    + intros x H. apply I in H. cbn in H |- *. tauto.
    + split; [discriminate|]. intros H. apply I in H. cbn in H. repeat (destruct H as [H|H]; [discriminate H|]). destruct H.
    + constructor. unfold t. rewrite times_length. cbn [length]. lia.
Qed.
Lemma JAW_code : forall u n, double_metaphone u None (times (S n) $ "JA" ++ $ "W")
  = Ok {| dm_primary := # "J" :: times n $ "J" ++ []; dm_alternate := # "A" :: times n $ "J" ++ $ "F" |}.
Proof.
  intros u n. set (t := times (S n) $ "JA" ++ $ "W").
  assert (I : forall x, In x t -> In x $ "AJW") by (intros x H; apply in_app_or in H as [H|H]; [apply times_In in H|]; cbn in H |- *; intuition).
  assert (A : ascii_str t) by (intros x H; apply I in H; cbn in H; repeat (destruct H as [<-|H]; [reflexivity|]); destruct H).
  assert (U : map ascii_up t = t) by (unfold t; rewrite map_app, times_up by reflexivity; reflexivity).
  set (i := (S n * 2)%nat). assert (N0 : nth_error t i = Some (# "W")).
  { unfold t, i. pose proof (at_times (S n) $ "JA" $ "W" 0) as K. cbn [length] in K. rewrite Nat.add_0_r in K. exact K. }
  assert (L : length t = (i + 1)%nat) by (unfold t, i; rewrite app_length, times_length; cbn [length]; lia).
  assert (N1 : nth_error t (n * 2 + 1) = Some (# "A")).
  { unfold t. replace (S n) with (n + 1)%nat by lia. unfold times. rewrite repeat_app, concat_app, <- app_assoc. exact (at_times n $ "JA" ($ "JA" ++ $ "W") 1). }
  assert (E : gives t i rule_w ([], $ "F", 0%nat)).
  { apply g_no; [now apply (absent_no $ "AJW")|]. apply g_no; [intros [H _]; apply H; cbn [holds]; lia|]. apply g_no; [intros [H _]; apply H; cbn [holds]; lia|].
    apply g_yes; [|constructor]. left. split; [unfold Last; cbn [holds]; lia|].
    replace i with (n * 2 + 1 + 1)%nat by lia. apply (previous_is t _ (# "A")); [exact N1|now left]. }
  apply (C69_double_metaphone_is_its_definition u None t t _ _ A).
  - apply trimmed_none. intros c H B. apply I in H. cbn in H. repeat (destruct H as [<-|H]; [destruct B as [B|B]; [discriminate B|lia]|]). destruct H.
  - rewrite U. apply (start_JA n $ "W" true t); [reflexivity|exact I| |].
    + split; [|reflexivity]. intros _. unfold t. apply in_or_app. right. now left.
    + apply (dr_letter t i (# "W") rule_w [] $ "F" 0 [] [] N0); [|exact E|constructor; lia].
      apply (ro_listed double_metaphone_table (nothing 0) (# "W") $ "W" (fun _ => rule_w)); [cbn; tauto|now left].
Qed.
