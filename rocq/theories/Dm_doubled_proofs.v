(** * Daitch-Mokotoff and doubled letters: proofs. *)
From Verif Require Import Base UnicodeM Lib Helper RulesParser DaitchMokotoff BaseLemmas Spec_common Spec_dm Spec_doubled
  Soundex_proofs UnicodeLemmas DoubleMetaphone_proofs Dm_proofs.
Local Open Scope N_scope.

Lemma ends_with_refl : forall r, ends_with r r = true.
Proof. intros r. apply ends_with_spec. now exists []. Qed.
Definition settled (r : ustr) (bs : list Branch) : Prop := NoDup bs /\ forall b, In b bs -> br_last b = Some r.
Lemma process_settled : forall r b, br_last b = Some r -> process_next_replacement b r false = Ok b.
Proof.
  intros r [bu la] E. cbn in E. subst la. unfold process_next_replacement. cbn [br_last br_builder]. rewrite ends_with_refl. reflexivity.
Qed.
Lemma push_new : forall l b, ~ In b l -> push_branch l b = l ++ [b].
Proof.
  intros l b H. unfold push_branch. destruct (existsb _ l) eqn:E; [|reflexivity]. exfalso. apply existsb_exists in E as (x & Hx & E).
  apply branch_eqb_eq in E. subst x. contradiction.
Qed.
Lemma apply_settled : forall br r bs next, NoDup (next ++ bs) -> (forall b, In b bs -> br_last b = Some r) ->
  apply_to_branches br false bs [r] next = Ok (next ++ bs).
Proof.
  intros br r. induction bs as [|b bs IH]; intros next D L; cbn [apply_to_branches]; [now rewrite app_nil_r|].
  cbn [apply_replacements]. rewrite (process_settled r b) by (apply L; now left). cbn [bind].
  rewrite push_new by (apply NoDup_remove_2 in D; intros K; apply D; apply in_or_app; now left).
  replace (if br then Ok (next ++ [b]) else Ok (next ++ [b])) with (Ok (next ++ [b])) by now destruct br.
  cbn [bind]. rewrite IH.
  - now rewrite <- app_assoc.
  - now rewrite <- app_assoc.
  - intros x Hx. apply L. now right.
Qed.
Lemma apply_makes_settled : forall br r bs next out, settled r next -> apply_to_branches br false bs [r] next = Ok out -> settled r out.
Proof.
  intros br r. induction bs as [|b bs IH]; intros next out S E; cbn [apply_to_branches] in E; [injection E as <-; exact S|].
  cbn [apply_replacements] in E. destruct (process_next_replacement b r false) as [nb| |] eqn:P; cbn [bind] in E; try discriminate E.
  assert (NB : br_last nb = Some r).
  { unfold process_next_replacement in P. cbv zeta in P. match type of P with bind ?e _ = _ => destruct e as [x| |] end; cbn [bind] in P; try discriminate P. now injection P as <-. }
  replace (if br then Ok (push_branch next nb) else Ok (push_branch next nb)) with (Ok (push_branch next nb)) in E by now destruct br.
  cbn [bind] in E. apply IH in E; [exact E|]. destruct S as [S1 S2]. split; [now apply push_branch_NoDup|].
  intros x Hx. apply push_branch_In in Hx as [Hx| ->]; [now apply S2|exact NB].
Qed.
Lemma apply_again : forall br r bs out, apply_to_branches br false bs [r] [] = Ok out -> apply_to_branches br false out [r] [] = Ok out.
Proof.
  intros br r bs out E. apply apply_makes_settled in E; [|split; [constructor|intros b []]]. destruct E as [D L].
  now apply (apply_settled br r out []).
Qed.
(** The last character matters only if it is none, m or n. *)
Definition plain_last (c : N) : Prop := c <> 0 /\ c <> # "m" /\ c <> # "n".
Lemma force_plain : forall l c, plain_last l -> ((l =? # "m") && (c =? # "n")) || ((l =? # "n") && (c =? # "m")) = false.
Proof. intros l c (_ & M & K). apply N.eqb_neq in M, K. now rewrite M, K. Qed.
Lemma force_plain' : forall l c, plain_last c -> ((l =? # "m") && (c =? # "n")) || ((l =? # "n") && (c =? # "m")) = false.
Proof. intros l c (_ & M & K). apply N.eqb_neq in M, K. now rewrite M, K, !andb_false_r. Qed.
Lemma last_plain : forall d br s skip l l' bs, plain_last l -> plain_last l' -> dms_loop d br skip l bs s = dms_loop d br skip l' bs s.
Proof.
  intros d br. induction s as [|c s IH]; intros skip l l' bs P P'; [reflexivity|]. cbn [dms_loop]. destruct skip as [|k]; [|now apply IH].
  destruct (assoc c (dms_rules d)) as [rules|]; [|now apply IH]. destruct (find _ rules) as [x|]; [|reflexivity].
  rewrite !force_plain by assumption. destruct P as [P _], P' as [P' _]. apply N.eqb_neq in P, P'. now rewrite P, P'.
Qed.
Lemma replacements_next : forall x s at_start, blen (r_pattern x) = length (r_pattern x) ->
  get_replacements x s at_start = if at_start then r_at_start x
    else if is_vowel (nth_error s (length (r_pattern x))) false then r_before_vowel x else r_default x.
Proof.
  intros x s at_start H. unfold get_replacements. rewrite H. destruct at_start; [reflexivity|]. unfold nth_char.
  destruct (nth_error s (length (r_pattern x))) as [y|] eqn:E.
  - assert (length (r_pattern x) < length s)%nat by (apply nth_error_Some; congruence).
    assert (L : (length s <= blen s)%nat). { clear. induction s as [|z s IH]; cbn; [lia|]. unfold utf8_len. repeat destruct (_ <? _); lia. }
    replace (Nat.ltb (length (r_pattern x)) (blen s)) with true by (symmetry; apply Nat.ltb_lt; lia). reflexivity.
  - cbn [is_vowel]. now rewrite andb_false_r.
Qed.

Section Dup.
Variables (d : DMS) (c : N) (r : ustr) (ok : N -> Prop).
Hypothesis Ok_c : ok c.
Definition constant (x : Rule) : Prop := r_at_start x = [r] /\ r_before_vowel x = [r] /\ r_default x = [r].
Lemma constant_get : forall x s b, constant x -> get_replacements x s b = [r].
Proof. intros x s b (A & B & C). unfold get_replacements. destruct b; [exact A|]. destruct (_ && _); assumption. Qed.
(** Patterns are ASCII; those in which the letter occurs have at most two letters and always the same code [r]. *)
Hypothesis Rules : forall k rules x, ok k -> assoc k (dms_rules d) = Some rules -> In x rules ->
  (exists p, r_pattern x = k :: p) /\ blen (r_pattern x) = length (r_pattern x)
  /\ (In c (r_pattern x) -> constant x /\ (length (r_pattern x) <= 2)%nat /\ plain_last k).
(** The letter followed by itself is read by its own rule. *)
Hypothesis Own : exists rules x, assoc c (dms_rules d) = Some rules /\ In x rules /\ r_pattern x = [c]
  /\ forall y, In y rules -> hd_error (tl (r_pattern y)) <> Some c.
(** If the letter ends a pattern of two letters and starts another one, the second letter of that one
    is read alone. *)
Hypothesis Pairs : forall k x y q, assoc k (dms_rules d) <> None -> (exists rules, assoc k (dms_rules d) = Some rules /\ In x rules) ->
  r_pattern x = [k; c] -> (exists rules, assoc c (dms_rules d) = Some rules /\ In y rules) -> r_pattern y = [c; q] ->
  exists z, assoc q (dms_rules d) = Some [z] /\ r_pattern z = [q] /\ constant z /\ plain_last q /\ blen [q] = 1%nat.

Lemma plain_c : plain_last c.
Proof. destruct Own as (rules & x & A & I & P & _). apply (Rules c rules x Ok_c A I). rewrite P. now left. Qed.
Lemma find_c : forall b, exists rules x, assoc c (dms_rules d) = Some rules /\ find (fun x => rule_matches x (c :: b)) rules = Some x /\ In x rules
  /\ constant x /\ (r_pattern x = [c] \/ exists q b', r_pattern x = [c; q] /\ b = q :: b') /\ (hd_error b = Some c -> r_pattern x = [c]).
Proof.
  intros b. destruct Own as (rules & x0 & A & I & P & O). exists rules.
  destruct (find (fun x => rule_matches x (c :: b)) rules) as [x|] eqn:F.
  - exists x. pose proof (find_some _ _ F) as [Ix M]. apply rule_matches_spec in M as [rest M].
    destruct (Rules c rules x Ok_c A Ix) as ((p & Px) & _ & K). rewrite Px in K. destruct (K (or_introl eq_refl)) as (C & L & _).
    split; [exact A|]. split; [reflexivity|]. split; [exact Ix|]. split; [exact C|].
    rewrite Px in M. injection M as M. destruct p as [|q [|]]; cbn in L; [..|lia].
    + split; [now left|]. intros _. exact Px.
    + split; [right; now exists q, rest|]. intros H. exfalso. rewrite M in H. cbn in H. injection H as ->.
      apply (O x Ix). now rewrite Px.
  - exfalso. apply (find_none _ _ F) in I. rewrite <- not_true_iff_false in I. apply I. apply rule_matches_spec. exists b. now rewrite P.
Qed.
Lemma loop_c : forall br last bs b, exists x, constant x
  /\ (r_pattern x = [c] \/ exists q b', r_pattern x = [c; q] /\ b = q :: b') /\ (hd_error b = Some c -> r_pattern x = [c])
  /\ (exists rules, assoc c (dms_rules d) = Some rules /\ In x rules)
  /\ dms_loop d br 0 last bs (c :: b) = (next <- apply_to_branches br false bs [r] [] ;; dms_loop d br (length (r_pattern x) - 1) c next b).
Proof.
  intros br last bs b. destruct (find_c b) as (rules & x & A & F & I & C & P & S). exists x.
  split; [exact C|]. split; [exact P|]. split; [exact S|]. split; [now exists rules|].
  cbn [dms_loop]. rewrite A, F. rewrite (force_plain' last c plain_c), (constant_get x _ _ C).
  now rewrite (proj1 (proj2 (Rules c rules x Ok_c A I))).
Qed.
Lemma loop_c_same : forall br last last' bs b out, apply_to_branches br false bs [r] [] = Ok out ->
  dms_loop d br 0 last bs (c :: b) = dms_loop d br 0 last' out (c :: b).
Proof.
  intros br last last' bs b out E. cbn [dms_loop]. destruct (find_c b) as (rules & x & A & F & I & C & _). rewrite A, F.
  now rewrite (force_plain' last c plain_c), (force_plain' last' c plain_c), !(constant_get x _ _ C), E, (apply_again _ _ _ _ E).
Qed.
Lemma here : forall br last bs b, dms_loop d br 0 last bs (c :: c :: b) = dms_loop d br 0 last bs (c :: b).
Proof.
  intros br last bs b. destruct (loop_c br last bs (c :: b)) as (x & C & _ & S & _ & ->). rewrite (S eq_refl). cbn [length Nat.sub].
  destruct (loop_c br last bs b) as (y & _ & _ & _ & _ & E).
  destruct (apply_to_branches br false bs [r] []) as [out| |] eqn:A; cbn [bind] in *; [|now rewrite E..].
  symmetry. now apply loop_c_same.
Qed.
Lemma after_pair : forall br k bs out b x rules, ok k -> apply_to_branches br false bs [r] [] = Ok out ->
  assoc k (dms_rules d) = Some rules -> In x rules -> r_pattern x = [k; c] ->
  dms_loop d br 0 k out (c :: b) = dms_loop d br 0 k out b.
Proof.
  intros br k bs out b x rules OK E A I P.
  assert (PK : plain_last k) by (apply (Rules k rules x OK A I); rewrite P; right; now left).
  destruct (loop_c br k out b) as (y & C & Py & _ & Iy & ->). rewrite (apply_again _ _ _ _ E). cbn [bind].
  destruct Py as [Py|(q & b' & Py & ->)]; rewrite Py; cbn [length Nat.sub].
  - apply last_plain; [apply plain_c|exact PK].
  - assert (Z : exists z, assoc q (dms_rules d) = Some [z] /\ r_pattern z = [q] /\ constant z /\ plain_last q /\ blen [q] = 1%nat).
    { apply (Pairs k x y q); try assumption; [congruence|now exists rules]. }
    destruct Z as (z & Aq & Pz & Cz & Lq & Bq). cbn [dms_loop]. rewrite Aq. cbn [find].
    replace (rule_matches z (q :: b')) with true by (symmetry; apply rule_matches_spec; exists b'; now rewrite Pz).
    rewrite (force_plain k q PK), (constant_get z _ _ Cz), (apply_again _ _ _ _ E). cbn [bind].
    rewrite Pz, Bq. cbn [Nat.sub]. apply last_plain; [apply plain_c|exact Lq].
Qed.
Lemma matches_short : forall k rules x a b, ok k -> assoc k (dms_rules d) = Some rules -> In x rules ->
  rule_matches x (k :: a ++ c :: c :: b) = rule_matches x (k :: a ++ c :: b).
Proof.
  intros k rules x a b OK A I. destruct (Rules k rules x OK A I) as ((p & P) & _ & K).
  assert (Q : forall s t, rule_matches x s = true -> (forall rest, s = r_pattern x ++ rest -> exists rest', t = r_pattern x ++ rest') -> rule_matches x t = true).
  { intros s t M F. apply rule_matches_spec in M as [rest M]. apply F in M. now apply rule_matches_spec. }
  assert (Gen : forall b1 b2 rest, k :: a ++ c :: b1 = r_pattern x ++ rest -> exists rest', k :: a ++ c :: b2 = r_pattern x ++ rest').
  { intros b1 b2 rest E. rewrite P in *. cbn [app] in *. injection E as E.
    destruct (Nat.le_gt_cases (length p) (length a)) as [L|L].
    - assert (exists t, a = p ++ t) as [t ->].
      { exists (skipn (length p) a). rewrite <- (firstn_skipn (length p) a) at 1. f_equal.
        apply (f_equal (firstn (length p))) in E. rewrite firstn_app in E. replace (length p - length a)%nat with 0%nat in E by lia.
        cbn [firstn] in E. rewrite app_nil_r in E. rewrite E. rewrite firstn_app, Nat.sub_diag, firstn_all. cbn [firstn]. now rewrite app_nil_r. }
      exists (t ++ c :: b2). now rewrite <- app_assoc.
    - assert (Cp : In c p).
      { apply (f_equal (fun l => nth_error l (length a))) in E. rewrite nth_error_app2, Nat.sub_diag in E by lia. cbn in E.
        rewrite nth_error_app1 in E by lia. symmetry in E. eapply nth_error_In, E. }
      destruct K as (_ & L2 & _); [right; exact Cp|]. cbn [length] in L2. destruct p as [|q [|]]; cbn [length] in *; try lia.
      destruct a; [|cbn in L; lia]. cbn [app] in *. injection E as -> _. now exists b2. }
  destruct (rule_matches x (k :: a ++ c :: b)) eqn:M2.
  - apply (Q _ _ M2). intros rest. apply Gen.
  - destruct (rule_matches x (k :: a ++ c :: c :: b)) eqn:M1; [|reflexivity]. rewrite <- M2. symmetry. apply (Q _ _ M1). intros rest. apply Gen.
Qed.
Lemma find_short : forall k rules a b, ok k -> assoc k (dms_rules d) = Some rules ->
  find (fun x => rule_matches x (k :: a ++ c :: c :: b)) rules = find (fun x => rule_matches x (k :: a ++ c :: b)) rules.
Proof.
  intros k rules a b OK A. assert (H : forall x, In x rules -> rule_matches x (k :: a ++ c :: c :: b) = rule_matches x (k :: a ++ c :: b)).
  { intros x I. now apply (matches_short k rules). }
  clear A OK. induction rules as [|x rules IH]; [reflexivity|]. cbn [find]. rewrite (H x) by now left. destruct (rule_matches _ _); [reflexivity|].
  apply IH. intros y I. apply H. now right.
Qed.
Theorem loop_doubled : forall br b a skip last bs, (forall k, In k a -> ok k) -> (skip <= length a)%nat ->
  dms_loop d br skip last bs (a ++ c :: c :: b) = dms_loop d br skip last bs (a ++ c :: b).
Proof.
  intros br b. induction a as [|k a IH]; intros skip last bs Oa L; cbn [app length] in *.
  { replace skip with 0%nat by lia. apply here. }
  assert (OK : ok k) by (apply Oa; now left). specialize (fun skip last bs => IH skip last bs (fun x I => Oa x (or_intror I))).
  cbn [dms_loop]. destruct skip as [|s]; [|apply IH; lia].
  destruct (assoc k (dms_rules d)) as [rules|] eqn:A; [|apply IH; lia].
  rewrite (find_short k rules a b OK A). destruct (find _ rules) as [x|] eqn:F; [|apply IH; lia].
  pose proof (find_some _ _ F) as [I M]. destruct (Rules k rules x OK A I) as ((p & P) & B & K). rewrite B.
  destruct (Nat.le_gt_cases (length (r_pattern x) - 1) (length a)) as [Le|Gt].
  - assert (E : get_replacements x (k :: a ++ c :: c :: b) (last =? 0) = get_replacements x (k :: a ++ c :: b) (last =? 0)).
    { rewrite !replacements_next by assumption. destruct (last =? 0); [reflexivity|].
      replace (nth_error (k :: a ++ c :: c :: b) (length (r_pattern x))) with (nth_error (k :: a ++ c :: b) (length (r_pattern x))); [reflexivity|].
      rewrite P in *. cbn [length nth_error] in *. replace (S (length p) - 1)%nat with (length p) in Le by lia.
      destruct (Nat.eq_dec (length p) (length a)) as [Q|Q].
      - rewrite Q, !nth_error_app2, Nat.sub_diag by lia. reflexivity.
      - now rewrite !nth_error_app1 by lia. }
    rewrite E. destruct (apply_to_branches _ _ _ _ _); cbn [bind]; [|reflexivity..]. now apply IH.
  - apply rule_matches_spec in M as [rest M]. rewrite P in *. cbn [app length] in *. injection M as M.
    assert (Cp : In c p).
    { apply (f_equal (fun l => nth_error l (length a))) in M. rewrite nth_error_app2, Nat.sub_diag in M by lia. cbn in M.
      rewrite nth_error_app1 in M by lia. symmetry in M. eapply nth_error_In, M. }
    destruct (K (or_intror Cp)) as (C & L2 & PK). destruct p as [|q [|]]; cbn [length] in *; try lia.
    destruct a; [|cbn in Gt; lia]. cbn [app] in *. injection M as <- _. cbn [Nat.sub].
    rewrite !(constant_get x _ _ C), (force_plain' last k PK).
    destruct (apply_to_branches br false bs [r] []) as [out| |] eqn:E; cbn [bind]; [|reflexivity..].
    cbn [dms_loop].     apply (after_pair br k bs out b x rules OK E A I P).
Qed.
End Dup.

(** The hypotheses, checked on a table. *)
Definition constantb (r : ustr) (x : Rule) : bool :=
  match r_at_start x, r_before_vowel x, r_default x with
  | [a], [b], [e] => seq_eqb a r && seq_eqb b r && seq_eqb e r
  | _, _, _ => false
  end.
Lemma constantb_ok : forall r x, constantb r x = true -> constant r x.
Proof.
  intros r x H. unfold constantb in H. unfold constant.
  destruct (r_at_start x) as [|a [|]]; try discriminate H. destruct (r_before_vowel x) as [|b [|]]; try discriminate H.
  destruct (r_default x) as [|e [|]]; try discriminate H. apply andb_true_iff in H as [H C]. apply andb_true_iff in H as [A B].
  apply seq_eqb_eq in A, B, C. now subst.
Qed.
Definition plainb (k : N) : bool := negb (isin k [0; # "m"; # "n"]).
Lemma plainb_ok : forall k, plainb k = true -> plain_last k.
Proof.
  intros k H. unfold plainb in H. apply negb_true_iff, isin_false in H. cbn in H. repeat split; intros ->; apply H; cbn; tauto.
Qed.
Definition rules_check (limit : N) (d : DMS) (c : N) (r : ustr) : bool :=
  forallb (fun e => if limit <=? fst e then true else forallb (fun x =>
    match r_pattern x with k :: _ => k =? fst e | [] => false end
    && Nat.eqb (blen (r_pattern x)) (length (r_pattern x))
    && (if isin c (r_pattern x) then constantb r x && Nat.leb (length (r_pattern x)) 2 && plainb (fst e) else true)) (snd e)) (dms_rules d).
Definition own_check (d : DMS) (c : N) : bool :=
  match assoc c (dms_rules d) with
  | Some rules => existsb (fun x => seq_eqb (r_pattern x) [c]) rules
                  && forallb (fun y => negb (opt_is (hd_error (tl (r_pattern y))) c)) rules
  | None => false
  end.
Definition pairs_check (d : DMS) (c : N) (r : ustr) : bool :=
  forallb (fun e => forallb (fun x =>
    if seq_eqb (r_pattern x) [fst e; c] then
      match assoc c (dms_rules d) with
      | Some rules => forallb (fun y => match r_pattern y with
          | [_; q] => match assoc q (dms_rules d) with
                      | Some [z] => seq_eqb (r_pattern z) [q] && constantb r z && plainb q && Nat.eqb (blen [q]) 1
                      | _ => false
                      end
          | _ => true
          end) rules
      | None => true
      end
    else true) (snd e)) (dms_rules d).
Lemma assoc_In : forall A k (l : list (N * A)) v, assoc k l = Some v -> In (k, v) l.
Proof.
  intros A k l v. induction l as [|[k' v'] l IH]; cbn [assoc]; [discriminate|]. destruct (N.eqb_spec k' k) as [->|].
  - intros [= ->]. now left.
  - intros H. right. now apply IH.
Qed.
Theorem checked_doubled : forall limit d c r, c < limit -> rules_check limit d c r = true -> own_check d c = true -> pairs_check d c r = true ->
  forall br b a skip last bs, (forall k, In k a -> k < limit) -> (skip <= length a)%nat ->
  dms_loop d br skip last bs (a ++ c :: c :: b) = dms_loop d br skip last bs (a ++ c :: b).
Proof.
  intros limit d c r Lc R O P. apply (loop_doubled d c r (fun k => k < limit) Lc).
  - intros k rules x OK A I. unfold rules_check in R. rewrite forallb_forall in R. specialize (R _ (assoc_In _ _ _ _ A)).
    cbn [fst snd] in R. apply N.leb_gt in OK. rewrite OK in R. rewrite forallb_forall in R. specialize (R x I).
    apply andb_true_iff in R as [R R3]. apply andb_true_iff in R as [R1 R2].
    split. { destruct (r_pattern x) as [|y p]; [discriminate R1|]. apply N.eqb_eq in R1. subst y. now exists p. }
    split. { now apply Nat.eqb_eq. }
    intros K. apply isin_In in K. rewrite K in R3. apply andb_true_iff in R3 as [R3 R4]. apply andb_true_iff in R3 as [R3 R5].
    split; [now apply constantb_ok|]. split; [now apply Nat.leb_le|now apply plainb_ok].
  - unfold own_check in O. destruct (assoc c (dms_rules d)) as [rules|]; [|discriminate O].
    apply andb_true_iff in O as [O1 O2]. apply existsb_exists in O1 as (x & I & E). apply seq_eqb_eq in E.
    exists rules, x. split; [reflexivity|]. split; [exact I|]. split; [exact E|].
    intros y Iy H. rewrite forallb_forall in O2. specialize (O2 y Iy). rewrite H in O2. cbn in O2. now rewrite N.eqb_refl in O2.
  - intros k x y q _ (rules & A & I) Px (rules' & A' & I') Py. unfold pairs_check in P. rewrite forallb_forall in P.
    specialize (P _ (assoc_In _ _ _ _ A)). cbn [fst snd] in P. rewrite forallb_forall in P. specialize (P x I).
    rewrite Px, seq_eqb_refl, A' in P. rewrite forallb_forall in P. specialize (P y I'). rewrite Py in P.
    destruct (assoc q (dms_rules d)) as [[|z [|]]|]; try discriminate P. apply andb_true_iff in P as [P P4]. apply andb_true_iff in P as [P P3].
    apply andb_true_iff in P as [P1 P2]. exists z. split; [reflexivity|]. split; [now apply seq_eqb_eq|].
    split; [now apply constantb_ok|]. split; [now apply plainb_ok|now apply Nat.eqb_eq].
Qed.
