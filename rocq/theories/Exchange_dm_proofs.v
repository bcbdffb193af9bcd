(** * Letters that may be exchanged: Daitch-Mokotoff. *)
From Verif Require Import Base UnicodeM Lib Helper RulesParser DaitchMokotoff BaseLemmas Spec_common Spec_dm Spec_doubled Spec_exchange
  Soundex_proofs UnicodeLemmas DoubleMetaphone_proofs Dm_proofs Dm_doubled_proofs.
Local Open Scope N_scope.

Section Exchange.
Variables (d : DMS) (letters : ustr) (r : ustr) (ok : N -> Prop).
Hypothesis Ok_l : forall c, In c letters -> ok c /\ plain_last c /\ is_vowel (Some c) false = false
  /\ exists rules x, assoc c (dms_rules d) = Some rules /\ In x rules /\ r_pattern x = [c].
(** Patterns are ASCII; those in which one of the letters occurs have at most two letters and always the same
    code [r], and if it is the first one, then the second one, if any, is also one of them. *)
Hypothesis Rules : forall k rules x, ok k -> assoc k (dms_rules d) = Some rules -> In x rules ->
  exists p, r_pattern x = k :: p /\ blen (r_pattern x) = length (r_pattern x)
  /\ (forall c, In c letters -> In c (r_pattern x) -> constant r x /\ plain_last k /\ (p = [] \/ exists q, p = [q] /\ In q letters)).
(** If one of them is the second one of a pattern, the first one alone has the same code. *)
Hypothesis Pairs : forall k rules x c, ok k -> assoc k (dms_rules d) = Some rules -> In x rules -> In c letters -> r_pattern x = [k; c] ->
  plain_last k /\ (exists y, In y rules /\ r_pattern y = [k]) /\ forall y, In y rules -> r_pattern y = [k] -> constant r y.

Lemma found : forall k rules c b, ok k -> In c letters -> assoc k (dms_rules d) = Some rules ->
  (exists x, In x rules /\ r_pattern x = [k]) -> 
  exists x, find (fun x => rule_matches x (k :: c :: b)) rules = Some x /\ In x rules /\ blen (r_pattern x) = length (r_pattern x)
    /\ (r_pattern x = [k] \/ (r_pattern x = [k; c] /\ constant r x)).
Proof.
  intros k rules c b OK Ic A (y & Iy & Py). destruct (find (fun x => rule_matches x (k :: c :: b)) rules) as [x|] eqn:F.
  - exists x. destruct (find_some _ _ F) as [Ix M]. destruct (Rules k rules x OK A Ix) as (p & Px & B & K).
    split; [reflexivity|]. split; [exact Ix|]. split; [exact B|]. apply rule_matches_spec in M as [rest M]. rewrite Px in *. cbn [app] in M. injection M as M.
    destruct p as [|q p]; [now left|]. cbn [app] in M. injection M as <- M.
    destruct (K c Ic) as (C & _ & [E|(q & E & _)]); [right; now left|discriminate E|]. injection E as -> ->. right. now split.
  - exfalso. apply (find_none _ _ F) in Iy. rewrite <- not_true_iff_false in Iy. apply Iy. apply rule_matches_spec. exists (c :: b). now rewrite Py.
Qed.
Lemma settle : forall br bs out, apply_to_branches br false bs [r] [] = Ok out -> apply_to_branches br false out [r] [] = Ok out.
Proof. intros br bs out. apply apply_again. Qed.
(** A letter of the class is read alone, whatever follows. *)
Lemma read_letter : forall br b c last bs, In c letters ->
  dms_loop d br 0 last bs (c :: b) = (next <- apply_to_branches br false bs [r] [] ;; dms_loop d br 0 c next b).
Proof.
  intros br. induction b as [|q b IH]; intros c last bs Ic; destruct (Ok_l c Ic) as (OK & Pc & Vc & rules & y & A & Iy & Py).
  - cbn [dms_loop]. rewrite A. destruct (find (fun x => rule_matches x [c]) rules) as [x|] eqn:F.
    + destruct (find_some _ _ F) as [Ix M]. destruct (Rules c rules x OK A Ix) as (p & Px & B & K).
      destruct (K c Ic) as (C & _); [rewrite Px; now left|]. now rewrite (force_plain' last c Pc), (constant_get r x _ _ C).
    + exfalso. apply (find_none _ _ F) in Iy. rewrite <- not_true_iff_false in Iy. apply Iy. apply rule_matches_spec. exists []. now rewrite Py.
  - match goal with |- _ = ?rhs => set (R := rhs) end. cbn [dms_loop]. rewrite A. destruct (find (fun x => rule_matches x (c :: q :: b)) rules) as [x|] eqn:F.
    + destruct (find_some _ _ F) as [Ix M]. destruct (Rules c rules x OK A Ix) as (p & Px & B & K).
      destruct (K c Ic) as (C & _ & D); [rewrite Px; now left|]. rewrite (force_plain' last c Pc), (constant_get r x _ _ C), B, Px.
      unfold R; clear R. destruct (apply_to_branches br false bs [r] []) as [out| |] eqn:E; cbn [bind]; [|reflexivity..].
      destruct D as [->|(q' & -> & Iq)]; [reflexivity|]. change (length [c; q'] - 1)%nat with 1%nat.
      apply rule_matches_spec in M as [rest M]. rewrite Px in M. cbn [app] in M. injection M as -> _.
      change (dms_loop d br 1 c out (q' :: b)) with (dms_loop d br 0 c out b).
      rewrite (IH q' c out Iq), (settle _ _ _ E). cbn [bind]. apply last_plain; [exact Pc|]. apply (Ok_l q' Iq).
    + exfalso. apply (find_none _ _ F) in Iy. rewrite <- not_true_iff_false in Iy. apply Iy. apply rule_matches_spec. exists (q :: b). now rewrite Py.
Qed.
(** So is a letter which is the first one of a pattern with one of them. *)
Lemma read_first : forall br k rules x c c' b last bs, ok k -> assoc k (dms_rules d) = Some rules -> In x rules -> In c letters -> r_pattern x = [k; c] ->
  In c' letters -> dms_loop d br 0 last bs (k :: c' :: b) = (next <- apply_to_branches br false bs [r] [] ;; dms_loop d br 0 k next (c' :: b)).
Proof.
  intros br k rules x c c' b last bs OK A Ix Ic Px Ic'. destruct (Pairs k rules x c OK A Ix Ic Px) as (Pk & Alone & Const).
  destruct (found k rules c' b OK Ic' A Alone) as (z & F & Iz & B & D).
  match goal with |- _ = ?rhs => set (R := rhs) end. cbn [dms_loop]. rewrite A, F, (force_plain' last k Pk), B.
  assert (C : constant r z) by (destruct D as [D|[_ D]]; [now apply Const|exact D]). rewrite (constant_get r z _ _ C).
  unfold R; clear R. destruct (apply_to_branches br false bs [r] []) as [out| |] eqn:E; cbn [bind]; [|reflexivity..].
  destruct D as [->|[-> _]]; [reflexivity|]. change (length [k; c'] - 1)%nat with 1%nat.
  change (dms_loop d br 1 k out (c' :: b)) with (dms_loop d br 0 k out b).
  rewrite (read_letter br b c' k out Ic'), (settle _ _ _ E). cbn [bind]. apply last_plain; [exact Pk|]. apply (Ok_l c' Ic').
Qed.
Lemma matches_within : forall x k p s c b, r_pattern x = k :: p -> ~ In c p -> rule_matches x (k :: s ++ c :: b) = rule_matches x (k :: s).
Proof.
  intros x k p s c b P H. assert (Q : rule_matches x (k :: s ++ c :: b) = true <-> rule_matches x (k :: s) = true).
  { rewrite !rule_matches_spec, P. split; intros [rest E]; cbn [app] in *; injection E as E.
    - destruct (Nat.le_gt_cases (length p) (length s)) as [L|L].
      + exists (skipn (length p) s). f_equal. rewrite <- (firstn_skipn (length p) s) at 1. f_equal.
        apply (f_equal (firstn (length p))) in E. rewrite firstn_app in E. replace (length p - length s)%nat with 0%nat in E by lia.
        cbn [firstn] in E. rewrite app_nil_r in E. rewrite E, firstn_app, Nat.sub_diag, firstn_all. cbn [firstn]. now rewrite app_nil_r.
      + exfalso. apply H. apply (f_equal (fun l => nth_error l (length s))) in E. rewrite nth_error_app2, Nat.sub_diag in E by lia. cbn in E.
        rewrite nth_error_app1 in E by lia. symmetry in E. eapply nth_error_In, E.
    - rewrite E. exists (rest ++ c :: b). now rewrite <- app_assoc. }
  destruct (rule_matches x (k :: s ++ c :: b)), (rule_matches x (k :: s)); intuition congruence.
Qed.
Lemma find_same : forall (f g : Rule -> bool) l, (forall x, In x l -> f x = g x) -> find f l = find g l.
Proof.
  intros f g. induction l as [|x l IH]; intros H; [reflexivity|]. cbn [find]. rewrite (H x) by now left. destruct (g x); [reflexivity|].
  apply IH. intros y I. apply H. now right.
Qed.
Theorem loop_exchange : forall br b c c', In c letters -> In c' letters -> forall a skip last bs, (forall k, In k a -> ok k) -> (skip <= length a)%nat ->
  dms_loop d br skip last bs (a ++ c :: b) = dms_loop d br skip last bs (a ++ c' :: b).
Proof.
  intros br b c c' Ic Ic'. induction a as [|k a IH]; intros skip last bs Oa L; cbn [app length] in *.
  { replace skip with 0%nat by lia. rewrite !read_letter by assumption. destruct (apply_to_branches br false bs [r] []); cbn [bind]; [|reflexivity..].
    apply last_plain; [apply (Ok_l c Ic)|apply (Ok_l c' Ic')]. }
  assert (OK : ok k) by (apply Oa; now left). specialize (fun skip last bs => IH skip last bs (fun x I => Oa x (or_intror I))).
  destruct skip as [|s]; [|cbn [dms_loop]; apply IH; lia].
  destruct (assoc k (dms_rules d)) as [rules|] eqn:A; [|cbn [dms_loop]; rewrite A; apply IH; lia].
  destruct a as [|j a].
  - destruct (existsb (fun x => match r_pattern x with [_; e] => isin e letters | _ => false end) rules) eqn:Ex.
    + apply existsb_exists in Ex as (x & Ix & Ex). destruct (Rules k rules x OK A Ix) as (p & Px & _). rewrite Px in Ex.
      destruct p as [|e [|]]; try discriminate Ex. apply isin_In in Ex. cbn [app].
      rewrite !(read_first br k rules x e _ b last bs OK A Ix Ex Px) by assumption.
      destruct (apply_to_branches br false bs [r] []); cbn [bind]; [|reflexivity..]. apply (IH 0%nat). lia.
    + assert (NoIn : forall x p e, In x rules -> r_pattern x = k :: p -> In e letters -> ~ In e p).
      { intros x p e Ix Px Ie Ip. destruct (Rules k rules x OK A Ix) as (p' & Px' & _ & K). assert (p' = p) as -> by congruence.
        destruct (K e Ie) as (_ & _ & D); [rewrite Px; now right|]. destruct D as [->|(q & -> & Iq)]; [destruct Ip|].
        rewrite <- not_true_iff_false in Ex. apply Ex. apply existsb_exists. exists x. split; [exact Ix|]. rewrite Px. now apply isin_In. }
      cbn [dms_loop app]. rewrite A.
      assert (F : forall e, In e letters -> find (fun x => rule_matches x (k :: e :: b)) rules = find (fun x => rule_matches x [k]) rules).
      { intros e Ie. apply find_same. intros x Ix. destruct (Rules k rules x OK A Ix) as (p & Px & _).
        apply (matches_within x k p [] e b Px). now apply (NoIn x). }
      rewrite (F c Ic), (F c' Ic'). destruct (find _ rules) as [x|] eqn:Fx; [|apply (IH 0%nat); lia].
      destruct (find_some _ _ Fx) as [Ix M]. destruct (Rules k rules x OK A Ix) as (p & Px & B & _).
      apply rule_matches_spec in M as [rest M]. rewrite Px in M. cbn [app] in M. injection M as M. symmetry in M. apply app_eq_nil in M as [-> _].
      rewrite !replacements_next, B, Px by assumption. cbn [length Nat.sub nth_error].
      rewrite (proj1 (proj2 (proj2 (Ok_l c Ic)))), (proj1 (proj2 (proj2 (Ok_l c' Ic')))).
      destruct (apply_to_branches _ _ _ _ _); cbn [bind]; [|reflexivity..]. apply (IH 0%nat). lia.
  - assert (M : forall x, In x rules -> rule_matches x (k :: (j :: a) ++ c :: b) = rule_matches x (k :: j :: a) /\
      rule_matches x (k :: (j :: a) ++ c' :: b) = rule_matches x (k :: j :: a)).
    { intros x Ix. destruct (Rules k rules x OK A Ix) as (p & Px & B & K).
      assert (G : forall e, In e letters -> rule_matches x (k :: (j :: a) ++ e :: b) = rule_matches x (k :: j :: a)).
      { intros e Ie. destruct (in_dec N.eq_dec e p) as [Ip|Ip]; [|now apply (matches_within x k p)].
        destruct (K e Ie) as (_ & _ & D); [rewrite Px; now right|]. destruct D as [->|(q & -> & Iq)]; [destruct Ip|].
        unfold rule_matches. rewrite Px. unfold starts_with. cbn [app strip_prefix]. rewrite N.eqb_refl. now destruct (q =? j). }
      split; apply G; assumption. }
    cbn [dms_loop]. rewrite A. 
    rewrite (find_same (fun x => rule_matches x (k :: (j :: a) ++ c :: b)) (fun x => rule_matches x (k :: j :: a)) rules) by (intros x I; apply M, I).
    rewrite (find_same (fun x => rule_matches x (k :: (j :: a) ++ c' :: b)) (fun x => rule_matches x (k :: j :: a)) rules) by (intros x I; apply M, I).
    destruct (find _ rules) as [x|] eqn:F; [|apply IH; lia].
    destruct (find_some _ _ F) as [Ix Mx]. destruct (Rules k rules x OK A Ix) as (p & Px & B & K).
    apply rule_matches_spec in Mx as [rest Mx]. assert (Lx : (length (r_pattern x) <= S (length (j :: a)))%nat).
    { apply (f_equal (@length N)) in Mx. rewrite app_length in Mx. cbn [length] in *. lia. }
    assert (E : get_replacements x (k :: (j :: a) ++ c :: b) (last =? 0) = get_replacements x (k :: (j :: a) ++ c' :: b) (last =? 0)).
    { rewrite !replacements_next by assumption. destruct (last =? 0); [reflexivity|].
      rewrite Px in *. cbn [length] in Lx. cbn [length nth_error].
      destruct (Nat.eq_dec (length p) (length (j :: a))) as [Q|Q].
      - rewrite Q, !nth_error_app2, Nat.sub_diag by lia. cbn [nth_error].
        now rewrite (proj1 (proj2 (proj2 (Ok_l c Ic)))), (proj1 (proj2 (proj2 (Ok_l c' Ic')))).
      - cbn [length] in Q. rewrite !nth_error_app1 by (cbn [length]; lia). reflexivity. }
    rewrite E. destruct (apply_to_branches _ _ _ _ _); cbn [bind]; [|reflexivity..]. apply IH. rewrite B. cbn [length] in *. lia.
Qed.
End Exchange.

(** The hypotheses, checked on a table. *)
Definition class_check (limit : N) (d : DMS) (letters r : ustr) : bool :=
  if forallb (fun c => (c <? limit) && plainb c && negb (is_vowel (Some c) false)
    && match assoc c (dms_rules d) with Some rules => existsb (fun x => seq_eqb (r_pattern x) [c]) rules | None => false end) letters
  then forallb (fun e => if limit <=? fst e then true else
    forallb (fun x => match r_pattern x with
      | k :: p => (k =? fst e) && Nat.eqb (blen (r_pattern x)) (length (r_pattern x))
                  && (if existsb (fun c => isin c (r_pattern x)) letters
                      then constantb r x && plainb k && match p with [] => true | [q] => isin q letters | _ => false end
                           && match p with
                              | [] => true
                              | _ => existsb (fun y => seq_eqb (r_pattern y) [k]) (snd e)
                                     && forallb (fun y => if seq_eqb (r_pattern y) [k] then constantb r y else true) (snd e)
                              end
                      else true)
      | [] => false
      end) (snd e)) (dms_rules d)
  else false.
Theorem checked_exchange : forall limit d letters r, class_check limit d letters r = true -> forall br b c c', In c letters -> In c' letters ->
  forall a skip last bs, (forall k, In k a -> k < limit) -> (skip <= length a)%nat ->
  dms_loop d br skip last bs (a ++ c :: b) = dms_loop d br skip last bs (a ++ c' :: b).
Proof.
  intros limit d letters r H. unfold class_check in H. destruct (forallb _ letters) eqn:H1; [|discriminate H]. rewrite forallb_forall in H, H1.
  assert (Get : forall k rules x, k < limit -> assoc k (dms_rules d) = Some rules -> In x rules -> exists p, r_pattern x = k :: p /\
    Nat.eqb (blen (r_pattern x)) (length (r_pattern x))
    && (if existsb (fun c => isin c (r_pattern x)) letters
                      then constantb r x && plainb k && match p with [] => true | [q] => isin q letters | _ => false end
                           && match p with
                              | [] => true
                              | _ => existsb (fun y => seq_eqb (r_pattern y) [k]) rules
                                     && forallb (fun y => if seq_eqb (r_pattern y) [k] then constantb r y else true) rules
                              end
                      else true) = true).
  { intros k rules x Lk A I. specialize (H _ (assoc_In _ _ _ _ A)). cbn [fst snd] in H. apply N.leb_gt in Lk. rewrite Lk in H.
    rewrite forallb_forall in H. specialize (H x I). destruct (r_pattern x) as [|k' p]; [discriminate H|].
    rewrite <- andb_assoc in H. apply andb_true_iff in H as [K H]. apply N.eqb_eq in K. subst k'. exists p. now split. }
  apply (loop_exchange d letters r (fun k => k < limit)).
  - intros c Ic. specialize (H1 c Ic). apply andb_true_iff in H1 as [H1 H4]. apply andb_true_iff in H1 as [H1 H3]. apply andb_true_iff in H1 as [H1 H2].
    split; [now apply N.ltb_lt|]. split; [now apply plainb_ok|]. split; [now apply negb_true_iff|].
    destruct (assoc c (dms_rules d)) as [rules|]; [|discriminate H4]. apply existsb_exists in H4 as (x & I & E). apply seq_eqb_eq in E. now exists rules, x.
  - intros k rules x Lk A I. destruct (Get k rules x Lk A I) as (p & Px & G). exists p. split; [exact Px|].
    apply andb_true_iff in G as [G1 G2]. split; [now apply Nat.eqb_eq|]. intros c Ic Ip.
    assert (existsb (fun c => isin c (r_pattern x)) letters = true) as Ex by (apply existsb_exists; exists c; split; [exact Ic|now apply isin_In]).
    rewrite Ex in G2. apply andb_true_iff in G2 as [G2 _]. apply andb_true_iff in G2 as [G2 G4]. apply andb_true_iff in G2 as [G2 G3].
    split; [now apply constantb_ok|]. split; [now apply plainb_ok|]. destruct p as [|q [|]]; [now left| |discriminate G4].
    right. exists q. split; [reflexivity|now apply isin_In].
  - intros k rules x c Lk A I Ic Px. destruct (Get k rules x Lk A I) as (p & Px' & G). assert (p = [c]) as -> by congruence.
    apply andb_true_iff in G as [_ G2].
    assert (existsb (fun c => isin c (r_pattern x)) letters = true) as Ex.
    { apply existsb_exists. exists c. split; [exact Ic|]. rewrite Px. apply isin_In. right. now left. }
    rewrite Ex in G2. apply andb_true_iff in G2 as [G2 G5]. apply andb_true_iff in G2 as [G2 G4]. apply andb_true_iff in G2 as [G2 G3].
    apply andb_true_iff in G5 as [G5 G6]. split; [now apply plainb_ok|]. split.
    + apply existsb_exists in G5 as (y & Iy & E). apply seq_eqb_eq in E. now exists y.
    + intros y Iy Py. rewrite forallb_forall in G6. specialize (G6 y Iy). rewrite Py, seq_eqb_refl in G6. now apply constantb_ok.
Qed.
