(** * Greek capital sigma in names: the two lowercase forms
    (src/beider_morse/mod.rs and src/beider_morse/engine.rs lowercase names with [str::to_lowercase]). *)
From Verif Require Import Base UnicodeM UnicodeLemmas Lib UnicodeReal BmLanguages BmRegex BmRule BmEngine MiniRegex RulesParser
  Spec_bm Spec_bm_engine Spec_bm_name Props_bm_engine.
Local Open Scope N_scope.

(** A text ends (starts) with a cased letter once the characters that case ignores are dropped. *)
Definition starts_cased (u : Unicode) (s : ustr) : Prop :=
  exists skipped c rest, s = skipped ++ c :: rest /\ (forall x, In x skipped -> case_ignorable u x = true)
    /\ case_ignorable u c = false /\ cased u c = true.
Definition ends_cased (u : Unicode) (s : ustr) : Prop :=
  exists rest c skipped, s = rest ++ c :: skipped /\ (forall x, In x skipped -> case_ignorable u x = true)
    /\ case_ignorable u c = false /\ cased u c = true.

(** What the Unicode tables say of the three sigmas: 931 capital, 962 final, 963 small. *)
Definition SigmaOK (u : Unicode) : Prop :=
  LowerOK u
  /\ forall c, In c [931; 962; 963] -> cased u c = true /\ case_ignorable u c = false.

Lemma real_sigma_ok : SigmaOK real_unicode.
Proof.
  split; [exact real_lower_ok|].
  intros c [<-|[<-|[<-|[]]]]; split; vm_compute; reflexivity.
Qed.

Lemma citc_starts : forall u s, case_ignorable_then_cased u s = true <-> starts_cased u s.
Proof.
  intros u s. split.
  - induction s as [|c s IH]; [discriminate|]. cbn [case_ignorable_then_cased].
    destruct (case_ignorable u c) eqn:I; intros H.
    + destruct (IH H) as (k & d & r & -> & K & D1 & D2). exists (c :: k), d, r. split; [reflexivity|].
      split; [intros x [<-|X]; auto|]. now split.
    + exists [], c, s. split; [reflexivity|]. split; [intros x []|]. now split.
  - intros (k & c & r & -> & K & I & D). induction k as [|x k IH]; cbn [app case_ignorable_then_cased].
    + now rewrite I.
    + rewrite (K x) by now left. apply IH. intros y Y. apply K. now right.
Qed.
Lemma citc_ends : forall u s, case_ignorable_then_cased u (rev s) = true <-> ends_cased u s.
Proof.
  intros u s. rewrite citc_starts. split.
  - intros (k & c & r & E & K & I & D). exists (rev r), c, (rev k).
    rewrite <- (rev_involutive s), E, rev_app_distr. cbn [rev]. rewrite <- app_assoc. split; [reflexivity|].
    split; [intros x X; apply K; now apply in_rev in X|]. now split.
  - intros (r & c & k & -> & K & I & D). exists (rev k), c, (rev r).
    rewrite rev_app_distr. cbn [rev]. rewrite <- app_assoc. split; [reflexivity|].
    split; [intros x X; apply K; now apply in_rev in X|]. now split.
Qed.

(** Swapping one sigma for another is not seen by the letters around it. *)
Lemma citc_swap : forall u c d s t, cased u c = cased u d -> case_ignorable u c = case_ignorable u d ->
  case_ignorable_then_cased u (s ++ c :: t) = case_ignorable_then_cased u (s ++ d :: t).
Proof.
  intros u c d s t C I. induction s as [|x s IH]; cbn [app case_ignorable_then_cased]; [now rewrite C, I|].
  now rewrite IH.
Qed.
Lemma str_lower_swap_after : forall u c d b p s, cased u c = cased u d -> case_ignorable u c = case_ignorable u d ->
  str_lower_aux u (b ++ c :: p) s = str_lower_aux u (b ++ d :: p) s.
Proof.
  intros u c d b p s C I. revert b. induction s as [|x s IH]; intros b; [reflexivity|]. cbn [str_lower_aux].
  rewrite (citc_swap u c d b p C I). f_equal. exact (IH (x :: b)).
Qed.
Lemma str_lower_swap : forall u c d p b q, cased u c = cased u d -> case_ignorable u c = case_ignorable u d ->
  (if c =? 931 then if case_ignorable_then_cased u (rev p ++ b) && negb (case_ignorable_then_cased u q) then [962] else [963]
   else to_lower u c)
  = (if d =? 931 then if case_ignorable_then_cased u (rev p ++ b) && negb (case_ignorable_then_cased u q) then [962] else [963]
   else to_lower u d) ->
  str_lower_aux u b (p ++ c :: q) = str_lower_aux u b (p ++ d :: q).
Proof.
  intros u c d p. induction p as [|x p IH]; intros b q C I E; cbn [app str_lower_aux].
  - cbn [rev app] in E. rewrite E. f_equal. exact (str_lower_swap_after u c d [] b q C I).
  - rewrite (citc_swap u c d p q C I). f_equal. apply IH; auto.
    cbn [rev] in E. rewrite <- app_assoc in E. exact E.
Qed.

Lemma lower_final : forall u p q, SigmaOK u -> ends_cased u p -> ~ starts_cased u q ->
  str_lower u (p ++ 931 :: q) = str_lower u (p ++ 962 :: q).
Proof.
  intros u p q ((_ & L1 & L2) & T) E S0. destruct (T 931) as [A1 A2]; [now left|]. destruct (T 962) as [B1 B2]; [now right; left|].
  apply str_lower_swap; [congruence|congruence|]. rewrite app_nil_r.
  apply citc_ends in E. rewrite E. destruct (case_ignorable_then_cased u q) eqn:Q; [now apply citc_starts in Q|].
  cbn [andb negb]. change (931 =? 931) with true. change (962 =? 931) with false. now rewrite L1.
Qed.
Lemma lower_medial : forall u p q, SigmaOK u -> ~ ends_cased u p \/ starts_cased u q ->
  str_lower u (p ++ 931 :: q) = str_lower u (p ++ 963 :: q).
Proof.
  intros u p q ((_ & L1 & L2) & T) H. destruct (T 931) as [A1 A2]; [now left|].
  destruct (T 963) as [B1 B2]; [now right; right; left|].
  apply str_lower_swap; [congruence|congruence|]. rewrite app_nil_r.
  assert (G : case_ignorable_then_cased u (rev p) && negb (case_ignorable_then_cased u q) = false).
  { destruct H as [H|H].
    - destruct (case_ignorable_then_cased u (rev p)) eqn:P; [now apply citc_ends in P|reflexivity].
    - apply citc_starts in H. rewrite H. now rewrite andb_false_r. }
  rewrite G. change (931 =? 931) with true. change (963 =? 931) with false. now rewrite L2.
Qed.

(** A capital sigma at the end of a word is read as the final small sigma, anywhere else as the
    ordinary small sigma, and the code is that of the name so spelled. *)
Theorem C64_final_sigma : forall u rx e p q, SigmaOK u -> ends_cased u p -> ~ starts_cased u q ->
  bm_encode u rx e (p ++ 931 :: q) = bm_encode u rx e (p ++ 962 :: q).
Proof. intros u rx e p q O E S0. apply C64_case; [exact (proj1 O)|]. now apply lower_final. Qed.
Theorem C64_medial_sigma : forall u rx e p q, SigmaOK u -> ~ ends_cased u p \/ starts_cased u q ->
  bm_encode u rx e (p ++ 931 :: q) = bm_encode u rx e (p ++ 963 :: q).
Proof. intros u rx e p q O H. apply C64_case; [exact (proj1 O)|]. now apply lower_medial. Qed.
(** A small set of rules that tells the two small sigmas apart: alpha to 'a', final sigma to 'f', small
    sigma to 's'. *)
Definition greek_rule (c : N) (phoneme : N) : ustr := [34; c; 34; 32; 34; 34; 32; 34; 34; 32; 34; phoneme; 34; 10].
Definition greek_dir : file_list :=
  demo_rules (greek_rule 945 (# "a") ++ greek_rule 962 (# "f") ++ greek_rule 963 (# "s")) [].
Definition greek : res PhoneticEngine :=
  builder_build
    {| bb_config := match config_new real_unicode mini_engine (folder_of greek_dir) 3 with Ok (ROk c) => c | _ => {| cf_langs := []; cf_rules := [] |} end;
       bb_name_type := Generic; bb_rule_type := RtExact; bb_concat := true; bb_max_phonemes := 20 |}.
Definition greek_code (v : ustr) : res ustr := bind greek (fun e => bm_encode real_unicode mini_engine e v).
(** Alpha sigma alpha sigma, in capitals: the first sigma is a small one, the last one final; a sigma on
    its own is a small one. *)
Example C64_sigma_nonvacuous : SigmaOK real_unicode
  /\ ends_cased real_unicode [913; 931; 913] /\ ~ starts_cased real_unicode []
  /\ starts_cased real_unicode [913; 931] /\ ~ ends_cased real_unicode []
  /\ greek_code [913; 931; 913; 931] = Ok $ "asaf"
  /\ greek_code [945; 963; 945; 962] = Ok $ "asaf"
  /\ greek_code [931] = Ok $ "s".
Proof.
  split; [exact real_sigma_ok|]. split; [now apply citc_ends; vm_compute|].
  split; [intros H; apply citc_starts in H; discriminate H|].
  split; [now apply citc_starts; vm_compute|].
  split; [intros H; apply citc_ends in H; discriminate H|].
  split; [vm_compute; reflexivity|]. split; vm_compute; reflexivity.
Qed.
