(** * Double Metaphone reads each letter as the table says. *)
From Verif Require Import Base UnicodeM Lib Helper DoubleMetaphone BaseLemmas Spec_common Spec_contextual
  Spec_double_metaphone Rewrite_proofs Contextual_proofs Soundex_proofs UnicodeLemmas DoubleMetaphone_proofs
  Double_metaphone_spec_proofs.
Local Open Scope Z_scope.

Section Run.
Variables (v : ustr) (i : nat).
Hypothesis Asc : ascii_str v.
Hypothesis Upper : forall x, In x v -> is_ascii_lower x = false.

Ltac handler_expanded Hc :=
  dm_model v i Asc Upper Hc; dm_spec v i; dm_here v i Hc; dm_expand;
  destruct (cases_i i) as [Hi|[Hi|[Hi|[Hi|Hi]]]]; try (exfalso; lia); dm_guards i; dm_negs v i; dm_bools v i.
Ltac handler Hc :=
  dm_model v i Asc Upper Hc; dm_spec v i; dm_here v i Hc;
  destruct (cases_i i) as [Hi|[Hi|[Hi|[Hi|Hi]]]]; try (exfalso; lia); dm_guards i; dm_negs v i; dm_bools v i.

Lemma run_ch : nth_error v i = Some (# "C") -> rmap heard (handle_ch v (Z.of_nat i)) = Ok (run v i rule_ch).
Proof.
  intros Hc. unfold handle_ch, rule_ch, condition_ch0, condition_ch1, greek_ch, germanic_ch,
    L_R_N_M_B_H_F_V_W_SPACE.
  dm_model v i Asc Upper Hc; dm_spec v i; dm_here v i Hc.
  change [$ "HARAC"; $ "HARIS"; $ "HOR"; $ "HYM"; $ "HIA"; $ "HEM"]
    with ([$ "HARAC"; $ "HARIS"] ++ [$ "HOR"; $ "HYM"; $ "HIA"; $ "HEM"]).
  rewrite (sbs_app v i 1).
  destruct (cases_i i) as [Hi|[Hi|[Hi|[Hi|Hi]]]]; dm_guards i; dm_negs v i; dm_bools v i.
Qed.
Lemma run_cc : nth_error v i = Some (# "C") -> rmap heard (handle_cc v (Z.of_nat i)) = Ok (run v i rule_cc).
Proof. intros Hc. unfold handle_cc, rule_cc. handler Hc. Qed.
Lemma run_gh : nth_error v i = Some (# "G") -> rmap heard (handle_gh v (Z.of_nat i)) = Ok (run v i rule_gh).
Proof. intros Hc. unfold handle_gh, rule_gh. handler Hc. Qed.
Lemma run_h : nth_error v i = Some (# "H") -> rmap heard (handle_h v (Z.of_nat i)) = Ok (run v i rule_h).
Proof. intros Hc. unfold handle_h, rule_h. handler Hc. Qed.
Lemma run_p : nth_error v i = Some (# "P") -> rmap heard (handle_p v (Z.of_nat i)) = Ok (run v i rule_p).
Proof. intros Hc. unfold handle_p, rule_p. handler Hc. Qed.
Lemma run_t : nth_error v i = Some (# "T") -> rmap heard (handle_t v (Z.of_nat i)) = Ok (run v i rule_t).
Proof. intros Hc. unfold handle_t, rule_t. handler_expanded Hc. Qed.
Lemma run_w : nth_error v i = Some (# "W") -> rmap heard (handle_w v (Z.of_nat i)) = Ok (run v i rule_w).
Proof. intros Hc. unfold handle_w, rule_w. handler Hc. Qed.
Lemma run_sc : nth_error v i = Some (# "S") -> rmap heard (handle_sc v (Z.of_nat i)) = Ok (run v i rule_sc).
Proof.
  intros Hc. unfold handle_sc, rule_sc. destruct (Nat.eq_dec i 0) as [E|E].
  - replace (at_vowel v 3) with (at_vowel v (Z.of_nat i + 3)) by (rewrite E; reflexivity).
    replace (at_is v 3) with (at_is v (Z.of_nat i + 3)) by (rewrite E; reflexivity). handler Hc.
  - replace (Z.of_nat i =? 0) with false by (symmetry; apply Z.eqb_neq; lia).
    change (pure false &&! notr (at_vowel v 3) &&! notr (at_is v 3 (# "W"))) with (@Ok bool false). handler Hc.
Qed.
Lemma run_r : nth_error v i = Some (# "R") ->
  rmap heard (handle_r v (is_slavo_germanic v) (Z.of_nat i)) = Ok (run v i rule_r).
Proof. intros Hc. rewrite (slavo_b v i). unfold handle_r, rule_r. handler Hc. Qed.
Lemma run_z : nth_error v i = Some (# "Z") ->
  rmap heard (handle_z v (is_slavo_germanic v) (Z.of_nat i)) = Ok (run v i rule_z).
Proof. intros Hc. rewrite (slavo_b v i). unfold handle_z, rule_z. handler Hc. Qed.
Lemma run_j : nth_error v i = Some (# "J") ->
  rmap heard (handle_j v (is_slavo_germanic v) (Z.of_nat i)) = Ok (run v i rule_j).
Proof. intros Hc. rewrite (slavo_b v i). unfold handle_j, rule_j, L_T_K_S_N_M_B_Z.
  dm_model v i Asc Upper Hc; dm_spec v i; dm_here v i Hc.
  rewrite (sbs_cons v i 1 $ "A"), (sbs_single v i 1).
  destruct (cases_i i) as [Hi|[Hi|[Hi|[Hi|Hi]]]]; dm_guards i; dm_negs v i; dm_bools v i.
Qed.
Lemma run_l : nth_error v i = Some (# "L") -> rmap heard (handle_l v (Z.of_nat i)) = Ok (run v i rule_l).
Proof.
  intros Hc. unfold handle_l, rule_l, condition_l0, spanish_ll. rewrite (l0_b v i Asc), (finish2_b v Asc), (finish1_b v Asc).
  replace (0 <? len v) with true by (symmetry; apply Z.ltb_lt; rewrite (len_v v Asc); pose proof (i_in v i _ Hc); lia).
  handler Hc.
Qed.
Lemma run_m : nth_error v i = Some (# "M") ->
  rmap heard (then_skip_if (ac (# "M")) (condition_m0 v (Z.of_nat i))) = Ok (run v i rule_m).
Proof. intros Hc. unfold condition_m0, rule_m. handler Hc. Qed.
Lemma run_x : nth_error v i = Some (# "X") -> rmap heard (handle_x v (Z.of_nat i)) = Ok (run v i rule_x).
Proof.
  intros Hc. unfold handle_x, rule_x. destruct (holdsb v i Last) eqn:L.
  - pose proof (fun x => no_letter_after_last v i x [] L) as NA.
    dm_model v i Asc Upper Hc; dm_spec v i. dm_expand. rewrite !NA, L.
    destruct (cases_i i) as [Hi|[Hi|[Hi|[Hi|Hi]]]]; try (exfalso; lia); dm_guards i; dm_negs v i; dm_bools v i.
  - dm_model v i Asc Upper Hc; dm_spec v i. rewrite L.
    destruct (cases_i i) as [Hi|[Hi|[Hi|[Hi|Hi]]]]; try (exfalso; lia); dm_guards i; dm_negs v i; dm_bools v i.
Qed.
Lemma run_s : nth_error v i = Some (# "S") ->
  rmap heard (handle_s v (is_slavo_germanic v) (Z.of_nat i)) = Ok (run v i rule_s).
Proof.
  intros Hc. rewrite (slavo_b v i). unfold handle_s, rule_s.
  assert (IAN : sb v i 1 $ "IAN" = true -> sb v i 1 $ "IA" = true).
  { unfold sb. intros K. apply stands_at_iff in K as (a & b & K & L). apply stands_at_iff.
    exists a, (# "N" :: b). split; [exact K|exact L]. }
  assert (IAN' : sb v i 1 $ "IO" || sb v i 1 $ "IA" || sb v i 1 $ "IAN"
                 = sb v i 1 $ "IO" || sb v i 1 $ "IA").
  { destruct (sb v i 1 $ "IAN"); [rewrite IAN by reflexivity; now destruct (sb v i 1 $ "IO")|].
    cbn [orb]. now rewrite !orb_false_r. }
  pose proof (run_sc Hc) as SC. remember (handle_sc v (Z.of_nat i)) as hsc eqn:Eh. clear Eh.
  remember rule_sc as rsc eqn:Er. clear Er.
  dm_model v i Asc Upper Hc; dm_spec v i; dm_here v i Hc; rewrite ?(sbs_cons v i 1 $ "IO"), ?sbs_single, orr_b, IAN'.
  destruct (cases_i i) as [Hi|[Hi|[Hi|[Hi|Hi]]]]; dm_guards i; dm_negs v i; dm_bools v i; exact SC.
Qed.
Lemma run_gn : nth_error v i = Some (# "G") -> sb v i 1 $ "N" = true ->
  rmap heard (ifm pure (Z.of_nat i =? 1) &&! at_vowel v 0 &&! pure (negb (is_slavo_germanic v))
     thenm done (astr2 $ "KN" $ "N") 1
     elsem
     ifm notr (contains v (Z.of_nat i + 2) 2 [$ "EY"]) &&! notr (at_is v (Z.of_nat i + 1) (# "Y"))
         &&! pure (negb (is_slavo_germanic v))
     thenm done (astr2 $ "N" $ "KN") 1
     elsem done (astr $ "KN") 1) = Ok (run v i rule_gn).
Proof.
  intros Hc HN. rewrite (slavo_b v i). unfold rule_gn.
  assert (HY : sb v i 1 $ "Y" = false).
  { unfold sb in *. rewrite stands_letter in *. destruct (char_b v _) as [x|]; [|reflexivity].
    apply N.eqb_eq in HN. subst. reflexivity. }
  destruct (Nat.eq_dec i 1) as [E|E].
  - replace (at_vowel v 0) with (at_vowel v (Z.of_nat i + -1)) by (rewrite E; reflexivity).
    dm_model v i Asc Upper Hc; dm_spec v i; rewrite HY; dm_guards i; dm_bools v i.
  - replace (Z.of_nat i =? 1) with false by (symmetry; apply Z.eqb_neq; lia).
    change (pure false &&! at_vowel v 0 &&! pure (negb (holdsb v i SlavoGermanic))) with (@Ok bool false).
    dm_model v i Asc Upper Hc; dm_spec v i; rewrite HY.
    destruct (cases_i i) as [Hi|[Hi|[Hi|[Hi|Hi]]]]; try (exfalso; lia); dm_guards i; dm_bools v i.
Qed.
Lemma run_g : nth_error v i = Some (# "G") ->
  rmap heard (handle_g v (is_slavo_germanic v) (Z.of_nat i)) = Ok (run v i rule_g).
Proof.
  intros Hc. pose proof (run_gn Hc) as GN. pose proof (run_gh Hc) as GH. unfold handle_g, rule_g, hard_or_soft_g.
  remember (handle_gh v (Z.of_nat i)) as hgh eqn:Eh. clear Eh. remember rule_gh as rgh eqn:Er. clear Er.
  match type of GN with _ -> rmap heard ?x = _ => remember x as hgn eqn:En; clear En end.
  remember rule_gn as rgn eqn:Er. clear Er.
  rewrite (slavo_b v i). unfold ES_EP_EB_EL_EY_IB_IL_IN_IE_EI_ER.
  dm_model v i Asc Upper Hc; dm_spec v i.
  dm_simp. destruct (sb v i 1 $ "H"); dm_simp; [exact GH|].
  destruct (sb v i 1 $ "N"); dm_simp; [now apply GN|].
  (destruct (cases_i i) as [Hi|[Hi|[Hi|[Hi|Hi]]]]; dm_guards i; dm_negs v i; dm_bools v i).
Qed.
Lemma run_c : nth_error v i = Some (# "C") -> rmap heard (handle_c v (Z.of_nat i)) = Ok (run v i rule_c).
Proof.
  intros Hc. pose proof (run_ch Hc) as CH. pose proof (run_cc Hc) as CC.
  unfold handle_c, rule_c, condition_c0, bacher.
  remember (handle_ch v (Z.of_nat i)) as hch eqn:Eh. clear Eh. remember rule_ch as rch eqn:Er. clear Er.
  remember (handle_cc v (Z.of_nat i)) as hcc eqn:Eh. clear Eh. remember rule_cc as rcc eqn:Er. clear Er.
  assert (IE : match char_b v (Z.of_nat i + 2) with
               | None => true
               | Some c => negb (N.eqb c (# "I")) && negb (N.eqb c (# "E"))
               end = negb (sbs v i 2 [$ "I"; $ "E"])).
  { rewrite sbs_cons, sbs_single. unfold sb. rewrite !stands_letter.
    destruct (char_b v _) as [x|]; [|reflexivity]. now rewrite negb_orb. }
  rewrite (char_at_b v Asc). cbn [bind]. rewrite IE.
  dm_model v i Asc Upper Hc; dm_spec v i; dm_here v i Hc.
  destruct (cases_i i) as [Hi|[Hi|[Hi|[Hi|Hi]]]]; dm_guards i; dm_negs v i; dm_bools v i.
  all: first [exact CH|exact CC].
Qed.
Lemma run_doubled : forall x out, rmap heard (then_skip_if (ac out) (at_is v (Z.of_nat i + 1) x))
  = Ok (run v i (doubled [x] [out])).
Proof.
  intros x out. rewrite (at_is_d v i Asc). unfold doubled, skipping, Before, letters. cbn [map run].
  rewrite (at_sb v i), sbs_single. now destruct (sb v i 1 [x]).
Qed.

Lemma dm_char_run : forall c, nth_error v i = Some c ->
  rmap heard (dm_char v (is_slavo_germanic v) (Z.of_nat i) c)
  = Ok (run v i (lookup double_metaphone_table (nothing 0) c)).
Proof.
  intros c Hc. assert (Lc : (c < 128)%N) by (apply Asc; eapply nth_error_In; exact Hc).
  destruct (isin c $ "ABCDEFGHIJKLMNOPQRSTUVWXYZ") eqn:Z.
  2: { assert (Q : forall k, isin k $ "ABCDEFGHIJKLMNOPQRSTUVWXYZ" = true -> (c =? k)%N = false).
       { intros k Hk. destruct (N.eqb_spec c k) as [->|D]; [congruence|reflexivity]. }
       unfold dm_char, lookup, double_metaphone_table. cbn [find fst].
       unfold isin. cbn [existsb].
       replace (c =? # "Ç")%N with false by (symmetry; apply N.eqb_neq; lia).
       replace (c =? # "Ñ")%N with false by (symmetry; apply N.eqb_neq; lia).
       repeat match goal with |- context[N.eqb c ?k] => rewrite (Q k) by reflexivity end.
       reflexivity. }
  apply isin_In in Z. cbn [In] in Z.
  assert (First0 : holdsb v i First = (Z.of_nat i =? 0)) by (destruct i; reflexivity).
  repeat (destruct Z as [<-|Z]; [
    unfold dm_char, lookup, double_metaphone_table; cbn [find fst];
    repeat match goal with |- context[isin ?k ?l] =>
       let b := eval vm_compute in (isin k l) in change (isin k l) with b end;
    repeat match goal with |- context[N.eqb ?a ?b] =>
       let x := eval vm_compute in (N.eqb a b) in change (N.eqb a b) with x end;
    cbv iota;
    first [ apply run_doubled | now apply run_c | now apply run_d | now apply run_g | now apply run_h
          | now apply run_j | now apply run_l | now apply run_m | now apply run_p | now apply run_r
          | now apply run_s | now apply run_t | now apply run_w | now apply run_x | now apply run_z
          | cbn [run]; rewrite First0; destruct (Z.of_nat i =? 0); reflexivity
          | idtac ]
    |]); [..|destruct Z].
Qed.
End Run.

Lemma dm_table_disjoint : disjoint_table double_metaphone_table.
Proof.
  unfold disjoint_table, double_metaphone_table. cbn [map fst concat app].
  repeat (constructor; [intros K; apply isin_In in K; vm_compute in K; discriminate|]). constructor.
Qed.
Lemma dm_reads_unique : forall t i p1 a1, dm_reads t i p1 a1 -> forall p2 a2, dm_reads t i p2 a2 -> p1 = p2 /\ a1 = a2.
Proof.
  intros t i p1 a1 H. induction H as [i L|i c r p a k ps als E Ho Hg Hr IH]; intros p2 a2 H2.
  - inversion H2 as [|i0 c0 r0 p0 a0 k0 ps0 als0 E0]; subst; [now split|]. apply nth_error_None in L. congruence.
  - inversion H2 as [i0 L0|i0 c0 r0 p0 a0 k0 ps0 als0 E0 Ho0 Hg0 Hr0]; subst.
    + apply nth_error_None in L0. congruence.
    + assert (c0 = c) by congruence. subst.
      apply (rule_of_iff _ _ _ _ _ dm_table_disjoint) in Ho. apply (rule_of_iff _ _ _ _ _ dm_table_disjoint) in Ho0.
      subst. apply gives_iff in Hg. apply gives_iff in Hg0. rewrite <- Hg in Hg0. injection Hg0 as -> -> ->.
      destruct (IH _ _ Hr0) as [-> ->]. now split.
Qed.

(** The loop without limit reads the text. *)
Lemma char_indices_skipn : forall s o, ascii_str s -> char_indices_from o s = combine (seq o (length s)) s.
Proof.
  induction s as [|x s IH]; intros o A; [reflexivity|]. apply ascii_str_cons in A as [Ax A].
  cbn [char_indices_from length seq combine]. rewrite ascii_utf8_len by exact Ax. f_equal.
  replace (o + 1)%nat with (S o) by lia. now apply IH.
Qed.
Lemma dm_loop_reads : forall v, ascii_str v -> (forall x, In x v -> is_ascii_lower x = false) ->
  forall chars i skip p a r, chars = skipn i v ->
  dm_loop v None (is_slavo_germanic v) skip (combine (seq i (length chars)) chars) (dm_of p a) = Ok r ->
  exists ps als, dm_reads v (i + skip) ps als /\ r = dm_of (p ++ ps) (a ++ als).
Proof.
  intros v A U. induction chars as [|x chars IH]; intros i skip p a r Hs H.
  - cbn in H. injection H as <-. exists [], []. rewrite !app_nil_r. split; [|reflexivity]. apply dr_end.
    assert (L : length (skipn i v) = 0%nat) by now rewrite <- Hs. rewrite skipn_length in L. lia.
  - assert (Hr : chars = skipn (S i) v).
    { replace (S i)%nat with (1 + i)%nat by lia. rewrite <- skipn_skipn, <- Hs. reflexivity. }
    assert (Hx : nth_error v i = Some x) by (now rewrite nth_skipn, <- Hs).
    cbn [length seq combine dm_loop] in H. destruct skip as [|k].
    + cbn [dm_is_complete] in H. apply bind_Ok in H as ([ops k] & Hd & H).
      pose proof (dm_char_run v i A U x Hx) as R. rewrite Hd in R. cbn [rmap bind] in R.
      rewrite dm_apply_none in H. cbn [bind] in H.
      destruct (IH (S i) k _ _ r Hr H) as (ps & als & Rd & ->).
      exists (flat_map op_primary ops ++ ps), (flat_map op_alternate ops ++ als).
      split; [|now rewrite !app_assoc]. rewrite Nat.add_0_r.
      apply (dr_letter v i x (lookup double_metaphone_table (nothing 0) x) _ _ k ps als Hx).
      * now apply (rule_of_iff _ _ _ _ _ dm_table_disjoint).
      * apply gives_iff. injection R as R. exact R.
      * now replace (i + 1 + k)%nat with (S i + k)%nat by lia.
    + destruct (IH (S i) k p a r Hr H) as (ps & als & Rd & ->). exists ps, als. split; [|reflexivity].
      now replace (i + S k)%nat with (S i + k)%nat by lia.
Qed.
