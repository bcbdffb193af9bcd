(** * The model of NYSIIS computes the declarative NYSIIS key (Spec_nysiis). *)
From Verif Require Import Base UnicodeM Lib Helper Nysiis BaseLemmas Spec_common Spec_rewrite Spec_nysiis
  Soundex_proofs Rewrite_proofs Nysiis_proofs.
Local Open Scope N_scope.

Ltac lits := repeat match goal with
  | |- context[N.eqb ?a ?b] =>
      let v := eval vm_compute in (N.eqb a b) in
      match v with true => idtac | false => idtac end; change (N.eqb a b) with v
  end; cbn -[N.eqb isin firstn Nat.sub length rev].
Ltac caseN := repeat (lits; try reflexivity; match goal with
  | |- context[N.eqb ?a ?x] => is_var x; let E := fresh "E" in
      destruct (N.eqb_spec a x) as [E|E]; [subst x|]; try congruence
  | |- context[N.eqb ?x ?a] => is_var x; let E := fresh "E" in
      destruct (N.eqb_spec x a) as [E|E]; [subst x|]; try congruence
  end); lits; try reflexivity.

Ltac litsv := repeat match goal with
  | |- context[N.eqb ?a ?b] =>
      let v := eval vm_compute in (N.eqb a b) in
      match v with true => idtac | false => idtac end; change (N.eqb a b) with v
  end; cbn -[N.eqb ny_vowel ny_vowel_opt].
Ltac caseNv := repeat (litsv; try (intros; discriminate); try reflexivity; match goal with
  | |- context[N.eqb ?a ?x] => is_var x; let E := fresh "E" in
      destruct (N.eqb_spec a x) as [E|E]; [subst x|]; try congruence
  | |- context[N.eqb ?x ?a] => is_var x; let E := fresh "E" in
      destruct (N.eqb_spec x a) as [E|E]; [subst x|]; try congruence
  end); litsv.

Lemma ny_start_spec : forall s, ny_start s = start_rw nysiis_start s.
Proof.
  intros [|a [|b [|c r]]]; unfold ny_start, ny_replace_start, start_rw, nysiis_start, starts_with;
    cbn -[N.eqb]; caseN.
Qed.

Lemma ends_with_snoc : forall m z x y, ends_with (m ++ [z]) [x; y] = (y =? z) && ends_with m [x].
Proof.
  intros. unfold ends_with, starts_with. rewrite rev_app_distr. cbn [rev app strip_prefix].
  destruct (y =? z); [|reflexivity]. reflexivity.
Qed.
Lemma firstn_less2 : forall (l : ustr) x y, firstn (length (l ++ [x; y]) - 2) (l ++ [x; y]) = l.
Proof.
  intros. rewrite app_length. cbn [length]. replace (length l + 2 - 2)%nat with (length l) by lia.
  apply firstn_app_exact.
Qed.
Lemma ny_end_spec : forall s, ny_end s = end_rw nysiis_end s.
Proof.
  intros s. unfold ny_end, ny_replace_last2, end_rw, nysiis_end. cbn [find fst].
  destruct (snoc_cases s) as [->|(m & a & ->)]; [reflexivity|].
  rewrite !ends_with_snoc. destruct (snoc_cases m) as [->|(l & b & ->)].
  - assert (E : forall x, ends_with [] [x] = false) by reflexivity. rewrite !E, !andb_false_r.
    cbn [orb]. rewrite !ends_with_snoc, !E, !andb_false_r. reflexivity.
  - rewrite !ends_with1, <- !app_assoc. change ([b] ++ [a]) with [b; a]. rewrite firstn_less2.
    change (l ++ [b; a]) with (l ++ [b] ++ [a]). rewrite (app_assoc l [b] [a]).
    destruct (((69 =? a) && (69 =? b)) || ((69 =? a) && (73 =? b))) eqn:E1.
    + assert (Ea : a = 69) by (destruct (N.eqb_spec 69 a); [congruence|discriminate]).
      subst a. cbn [N.eqb Pos.eqb andb orb] in E1.
      rewrite !ends_with_snoc, <- !app_assoc. cbn [N.eqb Pos.eqb andb orb app].
      change (length $ "EE") with 2%nat. change (length $ "IE") with 2%nat.
      destruct (match b with 0 => false | N.pos q => (69 =? q)%positive end);
        [change (length [69; 69]) with 2%nat; now rewrite firstn_less2|].
      cbn [orb] in E1. rewrite E1. change (length [73; 69]) with 2%nat. now rewrite firstn_less2.
    + apply orb_false_iff in E1 as [E1 E2]. rewrite E1, E2, !ends_with_snoc, !ends_with1, <- !app_assoc.
      cbn [app].
      assert (L2 : forall x y z : N, firstn (length (l ++ [b; a]) - length [x; y]) (l ++ [b; a]) ++ [z] = l ++ [z])
        by (intros; change (length [x; y]) with 2%nat; now rewrite firstn_less2).
      destruct (84 =? a), (68 =? a), (68 =? b), (82 =? b), (78 =? b); cbn [orb andb]; rewrite ?L2, ?firstn_less2; reflexivity.
Qed.

(** Texts without ASCII lowercase letters. *)
Definition nolower (s : ustr) : Prop := forall c, In c s -> is_ascii_lower c = false.
Lemma uppers_nolower : forall s, uppers s -> nolower s.
Proof.
  intros s H c Hc. apply H in Hc. unfold is_ascii_upper in Hc. apply andb_true_iff in Hc as [A B].
  apply N.leb_le in A, B. unfold is_ascii_lower. apply andb_false_iff. left. apply N.leb_gt. lia.
Qed.
Lemma nolower_app : forall a b, nolower (a ++ b) <-> nolower a /\ nolower b.
Proof.
  intros a b. unfold nolower. split.
  - intros H. split; intros c Hc; apply H, in_or_app; auto.
  - intros [A B] c Hc. apply in_app_or in Hc as [Hc|Hc]; auto.
Qed.
Lemma nolower_sub : forall a b, (forall c : N, In c a -> In c b) -> nolower b -> nolower a.
Proof. intros a b H B c Hc. auto. Qed.
Lemma in_skipn : forall (c : N) n s, In c (skipn n s) -> In c s.
Proof. intros c n s H. rewrite <- (firstn_skipn n s). apply in_or_app. now right. Qed.
Lemma in_firstn : forall (c : N) n s, In c (firstn n s) -> In c s.
Proof. intros c n s H. rewrite <- (firstn_skipn n s). apply in_or_app. now left. Qed.
Lemma nolowerb : forall s, forallb (fun c => negb (is_ascii_lower c)) s = true -> nolower s.
Proof. intros s H c Hc. rewrite forallb_forall in H. apply negb_true_iff, H, Hc. Qed.

Lemma transcode_nolower : forall p c next nn x, is_ascii_lower p = false -> is_ascii_lower c = false ->
  In x (ny_transcode p c next nn) -> is_ascii_lower x = false.
Proof.
  intros p c next nn x Hp Hc. unfold ny_transcode.
  repeat (match goal with |- context[if ?b then _ else _] => destruct b end);
    cbn [In]; intros H; repeat (destruct H as [<-|H]; [auto; try reflexivity|]); try destruct H.
Qed.
Lemma ny_replace_start_nolower : forall p q t, nolower q -> nolower t -> nolower (ny_replace_start p q t).
Proof.
  intros p q t Q T. unfold ny_replace_start. destruct (strip_prefix p t) as [r|] eqn:E; [|exact T].
  apply strip_prefix_spec in E. subst t. apply nolower_app in T as [_ T]. apply nolower_app. auto.
Qed.
Lemma ny_start_nolower : forall tmp, nolower tmp -> nolower (ny_start tmp).
Proof.
  intros tmp H. unfold ny_start. apply ny_replace_start_nolower; [now apply nolowerb|].
  assert (K : nolower (ny_replace_start $ "K" $ "C" (ny_replace_start $ "KN" $ "NN" (ny_replace_start $ "MAC" $ "MCC" tmp)))).
  { repeat (apply ny_replace_start_nolower; [now apply nolowerb|]). exact H. }
  destruct (_ || _); [|exact K]. apply nolower_app. split; [now apply nolowerb|].
  eapply nolower_sub; [|exact K]. intros c. apply in_skipn.
Qed.
Lemma ny_end_nolower : forall tmp, nolower tmp -> nolower (ny_end tmp).
Proof.
  assert (R : forall to t, nolower to -> nolower t -> nolower (ny_replace_last2 to t)).
  { intros to t H1 H2. unfold ny_replace_last2. apply nolower_app. split; [|assumption].
    eapply nolower_sub; [|exact H2]. intros c. apply in_firstn. }
  intros tmp H. unfold ny_end.
  assert (K : nolower (if ends_with tmp $ "EE" || ends_with tmp $ "IE" then ny_replace_last2 $ "Y" tmp else tmp)).
  { destruct (_ || _); [|exact H]. apply R; [now apply nolowerb|exact H]. }
  destruct (_ || _ || _ || _ || _); [|exact K]. apply R; [now apply nolowerb|exact K].
Qed.

Lemma upper_vowel_iff : forall c, is_ascii_lower c = false -> (ny_vowel c = true <-> upper_vowel c).
Proof.
  intros c H. unfold ny_vowel, is_vowel, ascii_low, upper_vowel.
  rewrite orb_true_iff, isin_In. unfold is_ascii_lower in H.
  destruct (is_ascii_upper c) eqn:U.
  - unfold is_ascii_upper in U. apply andb_true_iff in U as [A B]. apply N.leb_le in A, B. split.
    + intros [I|I]; [|discriminate]. cbn in I |- *. intuition lia.
    + intros I. left. cbn in I |- *. intuition lia.
  - split.
    + intros [I|I]; [|discriminate]. exfalso. apply andb_false_iff in H. rewrite !N.leb_gt in H. cbn in I. intuition lia.
    + intros I. exfalso. unfold is_ascii_upper in U. apply andb_false_iff in U. rewrite !N.leb_gt in U. cbn in I. intuition lia.
Qed.

(** One step. *)
Lemma rewriting_step : forall p c r, is_ascii_lower p = false -> nolower (c :: r) ->
  forall s', nysiis_rewritten p (c :: r) s' <->
    (let t := ny_transcode p c (hd_error r) (hd_error (tl r)) in
     (length t <= length (c :: r))%nat /\ s' = t ++ skipn (length t) (c :: r)).
Proof.
  intros p c r Hp HU s'. cbv zeta.
  assert (Vp := upper_vowel_iff p Hp).
  assert (Vn : ny_vowel_opt (hd_error r) = true <-> exists n r', r = n :: r' /\ upper_vowel n).
  { destruct r as [|n r']; cbn -[isin].
    - split; [discriminate|]. intros (n & r' & E & _). discriminate.
    - assert (Un : is_ascii_lower n = false) by (apply HU; right; now left).
      rewrite <- (upper_vowel_iff n Un) || idtac. split.
      + intros H. exists n, r'. split; [reflexivity|]. apply (upper_vowel_iff n Un). exact H.
      + intros (n0 & r0 & E & H). injection E as -> ->. apply (upper_vowel_iff n0 Un). exact H. }
  set (hcond := ~ upper_vowel p \/ ~ exists n r', r = n :: r' /\ upper_vowel n).
  assert (Hh : negb (ny_vowel p) || negb (ny_vowel_opt (hd_error r)) = true <-> hcond).
  { unfold hcond. rewrite orb_true_iff, !negb_true_iff, <- Vp, <- Vn.
    destruct (ny_vowel p), (ny_vowel_opt (hd_error r)); intuition congruence. }
  assert (T : forall q rest pat, find (fun e => starts_with (c :: r) (fst e)) nysiis_letters = Some (pat, q) ->
     c :: r = pat ++ rest ->
     ny_transcode p c (hd_error r) (hd_error (tl r)) = q /\ length q = length pat).
  { intros q rest pat F Es. revert F. unfold nysiis_letters, starts_with, ny_transcode.
    assert (Uc : is_ascii_lower c = false) by (apply HU; now left).
    assert (VC : ny_vowel c = isin c $ "AEIOU").
    { destruct (ny_vowel c) eqn:V; symmetry; [apply isin_In, (upper_vowel_iff c Uc), V|].
      apply isin_false. intros I. apply (upper_vowel_iff c Uc) in I. congruence. }
    rewrite VC. clear VC Uc HU Hh hcond Vp Vn Es.
    destruct r as [|n [|m r]]; cbn -[N.eqb]; caseN;
      intros F; try discriminate F; injection F as <- <-; split; reflexivity. }
  assert (NT : find (fun e => starts_with (c :: r) (fst e)) nysiis_letters = None ->
     ny_transcode p c (hd_error r) (hd_error (tl r)) =
     if ((c =? # "H") && (negb (ny_vowel p) || negb (ny_vowel_opt (hd_error r)))) || ((c =? # "W") && ny_vowel p)
     then [p] else [c]).
  { assert (Uc : is_ascii_lower c = false) by (apply HU; now left).
    assert (VC : ny_vowel c = isin c $ "AEIOU").
    { destruct (ny_vowel c) eqn:V; symmetry; [apply isin_In, (upper_vowel_iff c Uc), V|].
      apply isin_false. intros I. apply (upper_vowel_iff c Uc) in I. congruence. }
    unfold nysiis_letters, starts_with, ny_transcode. rewrite VC. clear VC Uc HU Hh hcond Vp Vn T.
    destruct r as [|n [|m r]]; cbn -[N.eqb ny_vowel ny_vowel_opt]; caseNv;
      intros F; try discriminate F; try reflexivity; try congruence. }
  destruct (find (fun e => starts_with (c :: r) (fst e)) nysiis_letters) as [[pat q]|] eqn:F.
  - assert (F' := F). apply find_some in F' as [_ Hs]. cbn [fst] in Hs. apply starts_with_spec in Hs as [rest Es].
    destruct (T q rest pat eq_refl Es) as [-> Lq]. rewrite Lq.
    assert (S1 : (length pat <= length (c :: r))%nat) by (rewrite Es, app_length; lia).
    assert (S2 : skipn (length pat) (c :: r) = rest) by (rewrite Es; apply skipn_app_exact).
    rewrite S2. split.
    + intros H. split; [exact S1|]. inversion H as [s0 p0 q0 r0 FE | r0 HC | r0 HW | c0 r0 NE N1 N2]; subst.
      * apply first_entry_iff in FE as [F2 E2]. rewrite F in F2. injection F2 as <- <-.
        rewrite Es in E2. apply app_inv_head in E2. now subst.
      * discriminate F.
      * discriminate F.
      * apply no_entry_iff in NE. congruence.
    + intros [_ ->]. apply (nr_table p _ pat). apply first_entry_iff. split; assumption.
  - rewrite (NT eq_refl). clear T NT. apply no_entry_iff in F.
    destruct (((c =? # "H") && (negb (ny_vowel p) || negb (ny_vowel_opt (hd_error r)))) || ((c =? # "W") && ny_vowel p)) eqn:B;
      cbn [length app skipn].
    + split.
      * intros H. split; [lia|]. inversion H as [s0 p0 q0 r0 FE | r0 HC | r0 HW | c0 r0 NE N1 N2]; subst; try reflexivity.
        -- apply first_entry_iff in FE as [F2 _]. apply no_entry_iff in F. congruence.
        -- exfalso. apply orb_true_iff in B as [B|B]; apply andb_true_iff in B as [B1 B2]; apply N.eqb_eq in B1; subst c.
           ++ apply N1. split; [reflexivity|]. now apply Hh.
           ++ apply N2. split; [reflexivity|]. now apply Vp.
      * intros [_ ->]. apply orb_true_iff in B as [B|B]; apply andb_true_iff in B as [B1 B2]; apply N.eqb_eq in B1; subst c.
        -- apply nr_h. now apply Hh.
        -- apply nr_w. now apply Vp.
    + apply orb_false_iff in B as [B1 B2]. split.
      * intros H. split; [lia|]. inversion H as [s0 p0 q0 r0 FE | r0 HC | r0 HW | c0 r0 NE N1 N2]; subst; try reflexivity.
        -- apply first_entry_iff in FE as [F2 _]. apply no_entry_iff in F. congruence.
        -- exfalso. assert (X : negb (ny_vowel p) || negb (ny_vowel_opt (hd_error r)) = true) by now apply Hh.
           rewrite X in B1. discriminate.
        -- exfalso. assert (X : ny_vowel p = true) by now apply Vp. rewrite X in B2. discriminate.
      * intros [_ ->]. apply nr_other; [exact F| |].
        -- intros [-> X]. apply Hh in X. rewrite X in B1. discriminate.
        -- intros [-> X]. apply Vp in X. rewrite X in B2. discriminate.
Qed.

(** The loop. *)
Lemma ny_loop_translated : forall n p chars, (length chars <= n)%nat -> is_ascii_lower p = false -> nolower chars ->
  exists out, nysiis_translated p chars out /\ ny_loop n p chars = Ok (tl (collapse (p :: out))) /\
    forall out', nysiis_translated p chars out' -> out' = out.
Proof.
  intros n. induction n as [|n IH]; intros p chars L Hp HU.
  - destruct chars; [|cbn in L; lia]. exists []. split; [constructor|]. split; [reflexivity|].
    intros out' H. inversion H; subst; [reflexivity|congruence].
  - destruct chars as [|c r].
    { exists []. split; [constructor|]. split; [reflexivity|].
      intros out' H. inversion H; subst; [reflexivity|congruence]. }
    pose proof (rewriting_step p c r Hp HU) as St. cbv zeta in St.
    destruct (transcode_len p c (hd_error r) (hd_error (tl r))) as (H1 & _ & _ & _).
    pose proof (transcode_nolower p c (hd_error r) (hd_error (tl r))) as Hu.
    pose proof (ny_loop_ok (c :: r) (S n) p L) as [res Hres].
    cbn [ny_loop] in *. set (t := ny_transcode p c (hd_error r) (hd_error (tl r))) in *.
    destruct (Nat.ltb (length (c :: r)) (length t)) eqn:El; [discriminate|]. apply Nat.ltb_ge in El.
    assert (Hlen : length (t ++ skipn (length t) (c :: r)) = length (c :: r)).
    { rewrite app_length, skipn_length. lia. }
    destruct (t ++ skipn (length t) (c :: r)) as [|c' r'] eqn:E; [discriminate|].
    assert (Hall : nolower (c' :: r')).
    { rewrite <- E. intros x Hx. apply in_app_or in Hx as [Hx|Hx].
      - apply Hu; auto. apply HU. now left.
      - apply HU. rewrite <- (firstn_skipn (length t) (c :: r)). apply in_or_app. now right. }
    destruct (IH c' r') as (out & T & Eq & Un).
    { cbn [length] in *. lia. }
    { apply Hall. now left. }
    { intros x Hx. apply Hall. now right. }
    exists (c' :: out). split; [|split].
    + apply (nt_step p (c :: r) c' r' out); [|discriminate|exact T]. apply St. split; [exact El|reflexivity].
    + rewrite Eq. cbn [bind]. now rewrite tl_collapse.
    + intros out' H. inversion H as [|p0 s0 c0 r0 o0 R _ T']; subst.
      apply St in R as [_ R]. injection R as -> ->. f_equal. now apply Un.
Qed.

Lemma ny_finish_one : forall c, ny_finish [c] = [c].
Proof.
  intros c. unfold ny_finish. destruct (Nat.ltb 1 (blen [c])) eqn:B; [|reflexivity].
  assert (D : forall x, x < 128 -> ends_with [c] [x] = false).
  { intros x Hx. change ([c]) with ([] ++ [c]). rewrite ends_with1. apply N.eqb_neq. intros ->.
    cbn [blen] in B. unfold utf8_len in B. destruct (N.ltb_spec c 128); [|lia]. discriminate. }
  assert (AY : ends_with [c] $ "AY" = false).
  { change [c] with ([] ++ [c]). rewrite ends_with_snoc. apply andb_false_r. }
  rewrite (D 83) by lia. cbv zeta. rewrite AY, andb_false_r. rewrite (D 65) by lia. reflexivity.
Qed.

Lemma ny_finish_spec : forall k k', nysiis_ended k k' <-> k' = ny_finish k.
Proof.
  intros k k'. destruct k as [|c0 [|c1 r0]].
  { split; [intros [[_ H]|[H _]]; [exact H|cbn in H; lia]|]. intros ->. left. split; [cbn; lia|reflexivity]. }
  { rewrite ny_finish_one. split; [intros [[_ H]|[H _]]; [exact H|cbn in H; lia]|]. intros ->. left. split; [cbn; lia|reflexivity]. }
  assert (L : (1 < length (c0 :: c1 :: r0))%nat) by (cbn; lia).
  pose proof (length_le_blen (c0 :: c1 :: r0)) as LB. set (k := c0 :: c1 :: r0) in *. clearbody k.
  unfold nysiis_ended, ny_finish.
  destruct (Nat.ltb_spec 1 (blen k)) as [_|B]; [|lia].
  assert (D : forall x (a b : ustr), final_dropped [x] a b <->
     b = if ends_with a [x] then firstn (length a - 1) a else a).
  { intros x a b. unfold final_dropped. destruct (ends_with a [x]) eqn:E.
    - apply ends_with_spec in E as [r ->]. rewrite drop_last_snoc. split.
      + intros [H|[_ H]]; [apply app_inj_tail in H as [-> _]; reflexivity|now destruct (H r)].
      + intros ->. now left.
    - assert (NE := proj1 (ends_with_not _ _) E). split.
      + intros [H|[H _]]; [now destruct (NE b)|exact H].
      + intros ->. right. auto. }
  assert (A : forall a b : ustr, (final_AY a b <->
     b = if Nat.ltb 2 (blen a) && ends_with a $ "AY" then firstn (length a - 2) a ++ skipn (length a - 1) a else a)).
  { intros a b. unfold final_AY. destruct (ends_with a $ "AY") eqn:E.
    - apply ends_with_spec in E as [r ->].
      assert (Hk2 : firstn (length (r ++ $ "AY") - 2) (r ++ $ "AY") ++ skipn (length (r ++ $ "AY") - 1) (r ++ $ "AY")
        = r ++ $ "Y").
      { rewrite app_length. cbn [length]. replace (length r + 2 - 2)%nat with (length r) by lia.
        rewrite firstn_app_exact. f_equal. replace (length r + 2 - 1)%nat with (length (r ++ $ "A"))
          by (rewrite app_length; cbn; lia).
        change (r ++ $ "AY") with (r ++ $ "A" ++ $ "Y"). rewrite app_assoc. apply skipn_app_exact. }
      rewrite Hk2, blen_app. pose proof (length_le_blen r) as Lbr. change (blen $ "AY") with 2%nat.
      destruct (Nat.ltb_spec 2 (blen r + 2)) as [Lr|Lr]; cbn [andb]; split.
      + intros [(a0 & H & _ & ->)|[-> H]]; [apply app_inv_tail in H; now subst|].
        specialize (H r eq_refl). subst r. cbn in Lr. lia.
      + intros ->. left. exists r. split; [reflexivity|]. split; [|reflexivity]. intros ->. cbn in Lr. lia.
      + intros [(a0 & H & Hn & ->)|[-> _]]; [|reflexivity]. apply app_inv_tail in H. subst a0.
        destruct r; [congruence|cbn [length] in Lbr; lia].
      + intros ->. right. split; [reflexivity|]. intros a0 H. apply app_inv_tail in H. subst a0.
        destruct r; [reflexivity|cbn [length] in Lbr; lia].
    - rewrite andb_false_r. assert (NE := proj1 (ends_with_not _ _) E). split.
      + intros [(a0 & H & _)|[H _]]; [now destruct (NE a0)|exact H].
      + intros ->. right. split; [reflexivity|]. intros a0 H. now destruct (NE a0). }
  split.
  - intros [[H _]|[_ (k1 & k2 & F1 & F2 & F3)]]; [lia|].
    apply D in F1. apply A in F2. apply D in F3. subst k1 k2 k'. reflexivity.
  - intros ->. right. split; [exact L|]. eexists. eexists. split; [apply D; reflexivity|].
    split; [apply A; reflexivity|]. apply D. reflexivity.
Qed.

Theorem nysiis_key_cleaned : forall u s, nolower (soundex_clean u s) ->
  forall key, nysiis_encode u false s = Ok key <-> Spec_nysiis.nysiis_key (soundex_clean u s) key.
Proof.
  intros u s HU key. unfold nysiis_encode. destruct (soundex_clean u s) as [|f q] eqn:E.
  - split.
    + intros X. injection X as <-. constructor.
    + intros X. inversion X; subst; [reflexivity|congruence].
  - pose proof (ny_end_nolower (ny_start (f :: q)) (ny_start_nolower _ HU)) as Hu1.
    assert (Hne : ny_end (ny_start (f :: q)) <> []) by (apply ny_end_ne, ny_start_ne; discriminate).
    assert (Es := ny_start_spec (f :: q)). assert (Ee := ny_end_spec (ny_start (f :: q))).
    destruct (ny_end (ny_start (f :: q))) as [|c r]; [congruence|].
    destruct (ny_loop_translated (length r) c r (le_n _)) as (out & T & Eq & Un).
    { apply Hu1. now left. }
    { intros x Hx. apply Hu1. now right. }
    rewrite Eq. cbn [bind]. rewrite <- collapse_cons.
    split.
    + intros X. injection X as <-. apply (nk_name (f :: q) (start_rw nysiis_start (f :: q)) c r out); [discriminate| | |exact T|].
      * now apply start_rewritten_iff.
      * rewrite <- Es. now apply end_rewritten_iff.
      * now apply ny_finish_spec.
    + intros X. inversion X as [|n a c0 r0 out0 k0 _ S1 S2 T0 F0]; subst.
      apply start_rewritten_iff in S1. subst a. rewrite <- Es in S2.
      apply end_rewritten_iff in S2. rewrite <- Ee in S2. injection S2 as -> ->.
      rewrite (Un _ T0) in F0. apply ny_finish_spec in F0. now subst.
Qed.

Theorem nysiis_key_model : forall u s, letters_are_ascii (is_alphabetic u) s ->
  forall key, nysiis_encode u false s = Ok key <-> Spec_nysiis.nysiis_key (ascii_letters s) key.
Proof.
  intros u s H key. rewrite <- (clean_ascii u s H). apply nysiis_key_cleaned.
  rewrite (clean_ascii u s H). apply uppers_nolower, ascii_letters_uppers.
Qed.
