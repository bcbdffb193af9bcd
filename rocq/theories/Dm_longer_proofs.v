(** * Daitch-Mokotoff and longer texts: proofs. *)
From Verif Require Import Base UnicodeM Lib Helper RulesParser DaitchMokotoff BaseLemmas Spec_common Spec_dm
  Soundex_proofs UnicodeLemmas DoubleMetaphone_proofs Dm_proofs.
Local Open Scope N_scope.

Definition head_length (l : list ustr) : nat := match l with [] => 0%nat | x :: _ => length x end.
Definition max_length (x : Rule) : nat :=
  Nat.max (head_length (r_at_start x)) (Nat.max (head_length (r_before_vowel x)) (head_length (r_default x))).
(** At most so many digits are written for the text [s], whatever the state. *)
Fixpoint cost (d : DMS) (skip : nat) (s : ustr) : nat :=
  match s with
  | [] => 0%nat
  | c :: r =>
      match skip with
      | S k => cost d k r
      | O =>
          match assoc c (dms_rules d) with
          | None => cost d 0 r
          | Some rules =>
              match find (fun rule => rule_matches rule s) rules with
              | None => cost d 0 r
              | Some x => (max_length x + cost d (blen (r_pattern x) - 1) r)%nat
              end
          end
      end
  end.
Lemma process_extends : forall b r f nb, process_next_replacement b r f = Ok nb -> exists t, br_builder nb = br_builder b ++ t /\ (length t <= length r)%nat.
Proof.
  intros b r f nb H. unfold process_next_replacement in H. cbv zeta in H. destruct (_ && Nat.ltb _ _) eqn:C.
  - apply andb_true_iff in C as [_ C]. apply Nat.ltb_lt in C. destruct (Nat.ltb MAX_LENGTH _).
    + apply bind_Ok in H as (x & E & H). injection H as <-. apply slice0_spec in E as (t & E & L). cbn [br_builder].
      symmetry in E. apply app_eq_app in E as (l & [[E1 E2]|[E1 E2]]).
      * subst x. exists l. split; [reflexivity|]. rewrite E2, app_length. lia.
      * exfalso. apply (f_equal blen) in E1. rewrite blen_app in E1. lia.
    + cbn [bind] in H. injection H as <-. cbn [br_builder]. now exists r.
  - cbn [bind] in H. injection H as <-. cbn [br_builder]. exists []. rewrite app_nil_r. split; [reflexivity|cbn; lia].
Qed.
Lemma apply_one : forall f b rs bs, rs <> [] -> apply_to_branches false f [b] rs [] = Ok bs ->
  exists nb t, bs = [nb] /\ br_builder nb = br_builder b ++ t /\ (length t <= head_length rs)%nat.
Proof.
  intros f b [|r rs] bs H E; [now contradiction H|]. cbn [apply_to_branches apply_replacements] in E.
  destruct (process_next_replacement b r f) as [nb| |] eqn:P; cbn [bind] in E; try discriminate E.
  injection E as <-. destruct (process_extends _ _ _ _ P) as (t & T & L). now exists nb, t.
Qed.
Lemma get_length : forall x s b, (head_length (get_replacements x s b) <= max_length x)%nat.
Proof. intros x s b. unfold get_replacements, max_length. destruct b; [lia|]. destruct (_ && _); lia. Qed.
Lemma get_same : forall x a b f, (blen (r_pattern x) < length a)%nat -> get_replacements x (a ++ b) f = get_replacements x a f.
Proof.
  intros x a b f H. unfold get_replacements. destruct f; [reflexivity|]. unfold nth_char. rewrite nth_error_app1 by assumption.
  assert (L : forall s, (length s <= blen s)%nat). { clear. induction s as [|z s IH]; cbn; [lia|]. unfold utf8_len. repeat destruct (_ <? _); lia. }
  pose proof (L a). pose proof (L (a ++ b)). rewrite app_length in *.
  replace (Nat.ltb (blen (r_pattern x)) (blen (a ++ b))) with true by (symmetry; apply Nat.ltb_lt; lia).
  replace (Nat.ltb (blen (r_pattern x)) (blen a)) with true by (symmetry; apply Nat.ltb_lt; lia). reflexivity.
Qed.

Section Longer.
Variables (d : DMS) (B : nat).
(** Every field of every rule has an alternative; a rule and what has been read of a pattern give at most [B] digits. *)
Definition rule_fine (x : Rule) : Prop := r_at_start x <> [] /\ r_before_vowel x <> [] /\ r_default x <> []
  /\ (max_length x <= B)%nat /\ forall r rest, r_pattern x = r ++ rest -> rest <> [] -> (cost d 0 r <= B)%nat.
Hypothesis Fine : forall k rules x, assoc k (dms_rules d) = Some rules -> In x rules -> rule_fine x.
Lemma get_some : forall k rules x s f, assoc k (dms_rules d) = Some rules -> In x rules -> get_replacements x s f <> [].
Proof.
  intros k rules x s f A I. destruct (Fine k rules x A I) as (H1 & H2 & H3 & _). unfold get_replacements. destruct f; [exact H1|].
  destruct (_ && _); assumption.
Qed.
Lemma loop_cost : forall s skip last b bs, dms_loop d false skip last [b] s = Ok bs ->
  exists nb t, bs = [nb] /\ br_builder nb = br_builder b ++ t /\ (length t <= cost d skip s)%nat.
Proof.
  induction s as [|c s IH]; intros skip last b bs E; cbn [dms_loop cost] in *.
  - injection E as <-. exists b, []. rewrite app_nil_r. repeat split. cbn. lia.
  - destruct skip as [|k]; [|now apply IH in E]. destruct (assoc c (dms_rules d)) as [rules|] eqn:A; [|now apply IH in E].
    destruct (find _ rules) as [x|] eqn:F; [|now apply IH in E]. cbv zeta in E. apply bind_Ok in E as (nx & E1 & E2).
    pose proof (find_some _ _ F) as [I _].
    apply apply_one in E1 as (nb & t & -> & T & L); [|now apply (get_some c rules)].
    apply IH in E2 as (nb' & t' & -> & T' & L'). exists nb', (t ++ t'). split; [reflexivity|]. split.
    + rewrite T', T. now rewrite app_assoc.
    + rewrite app_length. pose proof (get_length x (c :: s) (last =? 0)). lia.
Qed.
Lemma cost_skip : forall s skip, (length s <= skip)%nat -> cost d skip s = 0%nat.
Proof. induction s as [|c s IH]; intros skip L; cbn [length cost] in *; [reflexivity|]. destruct skip; [lia|]. apply IH. lia. Qed.
Lemma find_longer : forall rules a b, match find (fun x => rule_matches x (a ++ b)) rules with
  | None => find (fun x => rule_matches x a) rules = None
  | Some x => find (fun x => rule_matches x a) rules = Some x
      \/ exists rest, rest <> [] /\ r_pattern x = a ++ rest end.
Proof.
  intros rules a b. induction rules as [|x rules IH]; [reflexivity|]. cbn [find].
  destruct (rule_matches x (a ++ b)) eqn:M.
  - destruct (rule_matches x a) eqn:M'; [now left|right].
    apply rule_matches_spec in M as [rest M]. apply app_eq_app in M as (l & [[E1 E2]|[E1 E2]]).
    + exfalso. rewrite <- not_true_iff_false in M'. apply M'. apply rule_matches_spec. now exists l.
    + exists l. split; [|exact E1]. intros ->. rewrite app_nil_r in E1. rewrite <- not_true_iff_false in M'. apply M'. apply rule_matches_spec.
      exists []. now rewrite app_nil_r.
  - replace (rule_matches x a) with false; [exact IH|]. symmetry. apply not_true_iff_false. intros M'. apply rule_matches_spec in M' as [rest M'].
    rewrite <- not_true_iff_false in M. apply M. apply rule_matches_spec. exists (rest ++ b). now rewrite M', <- app_assoc.
Qed.
Lemma loop_longer : forall b a skip last br bs1 bs2, dms_loop d false skip last [br] a = Ok bs1 -> dms_loop d false skip last [br] (a ++ b) = Ok bs2 ->
  exists b1 b2 p q q', bs1 = [b1] /\ bs2 = [b2] /\ br_builder b1 = p ++ q /\ br_builder b2 = p ++ q' /\ (length q <= B)%nat.
Proof.
  intros b. induction a as [|c a IH]; intros skip last br bs1 bs2 E1 E2.
  - cbn [dms_loop] in E1. injection E1 as <-. apply loop_cost in E2 as (nb & t & -> & T & _).
    exists br, nb, (br_builder br), [], t. rewrite app_nil_r. repeat split; auto. cbn. lia.
  - assert (GIVE_UP : (cost d skip (c :: a) <= B)%nat -> exists b1 b2 p q q', bs1 = [b1] /\ bs2 = [b2] /\ br_builder b1 = p ++ q /\ br_builder b2 = p ++ q' /\ (length q <= B)%nat).
    { intros L. apply loop_cost in E1 as (n1 & t1 & -> & T1 & L1). apply loop_cost in E2 as (n2 & t2 & -> & T2 & _).
      exists n1, n2, (br_builder br), t1, t2. repeat split; auto. lia. }
    cbn [app dms_loop] in E1, E2. destruct skip as [|k]; [|now apply (IH k last br)].
    destruct (assoc c (dms_rules d)) as [rules|] eqn:A; [|now apply (IH 0%nat last br)].
    pose proof (find_longer rules (c :: a) b) as FL. cbn [app] in FL.
    destruct (find (fun x => rule_matches x (c :: a ++ b)) rules) as [x|] eqn:F2.
    + pose proof (find_some _ _ F2) as [I _]. destruct (Fine c rules x A I) as (_ & _ & _ & M & PR).
      destruct FL as [F1|(rest & R & P)]; [|apply GIVE_UP, (PR (c :: a) rest P R)].
      rewrite F1 in E1. destruct (Nat.lt_ge_cases (blen (r_pattern x)) (length (c :: a))) as [L|L].
      * cbv zeta in E1, E2. change (c :: a ++ b) with ((c :: a) ++ b) in E2. rewrite get_same in E2 by assumption.
        destruct (apply_to_branches _ _ _ _ _) as [nx| |] eqn:AP; cbn [bind] in E1, E2; try discriminate E1.
        apply apply_one in AP as (nb & t & -> & _); [|now apply (get_some c rules)]. exact (IH _ _ _ _ _ E1 E2).
      * apply GIVE_UP. cbn [cost]. rewrite A, F1. rewrite cost_skip by (cbn [length] in L; lia). lia.
    + rewrite FL in E1. exact (IH _ _ _ _ _ E1 E2).
Qed.
End Longer.

(** ** A check *)
Fixpoint proper_prefixes (s : ustr) : list ustr := match s with [] => [] | c :: r => [] :: map (cons c) (proper_prefixes r) end.
Lemma proper_prefixes_In : forall s r rest, s = r ++ rest -> rest <> [] -> In r (proper_prefixes s).
Proof.
  induction s as [|c s IH]; intros r rest E N.
  - destruct r; [|discriminate E]. cbn in E. congruence.
  - cbn [proper_prefixes]. destruct r as [|x r]; [now left|]. cbn in E. injection E as <- E. right. apply in_map. now apply (IH r rest).
Qed.
Definition nonempty {A} (l : list A) : bool := match l with [] => false | _ => true end.
Definition fine_check (d : DMS) (B : nat) : bool :=
  forallb (fun kv => forallb (fun x => nonempty (r_at_start x) && nonempty (r_before_vowel x) && nonempty (r_default x)
    && Nat.leb (max_length x) B && forallb (fun r => Nat.leb (cost d 0 r) B) (proper_prefixes (r_pattern x))) (snd kv)) (dms_rules d).
Lemma fine_check_ok : forall d B, fine_check d B = true -> forall k rules x, assoc k (dms_rules d) = Some rules -> In x rules -> rule_fine d B x.
Proof.
  intros d B H k rules x A I. unfold fine_check in H. rewrite forallb_forall in H.
  assert (K : In (k, rules) (dms_rules d)).
  { clear - A. induction (dms_rules d) as [|[k' v] l IH]; [discriminate A|]. cbn [assoc] in A. destruct (N.eqb_spec k' k) as [->|D]; [injection A as ->; now left|right; auto]. }
  specialize (H _ K). cbn [snd] in H. rewrite forallb_forall in H. specialize (H x I).
  apply andb_true_iff in H as [H H5]. apply andb_true_iff in H as [H H4]. apply andb_true_iff in H as [H H3]. apply andb_true_iff in H as [H1 H2].
  split; [intros E; now rewrite E in H1|]. split; [intros E; now rewrite E in H2|]. split; [intros E; now rewrite E in H3|].
  split; [now apply Nat.leb_le|]. intros r rest E R. rewrite forallb_forall in H5. apply Nat.leb_le. apply H5. now apply (proper_prefixes_In _ r rest).
Qed.
