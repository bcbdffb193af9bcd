(** * Metaphone on texts that are not ASCII. *)
From Verif Require Import Base UnicodeM Lib Helper Metaphone BaseLemmas Spec_common Spec_rewrite Spec_contextual
  Spec_metaphone Rewrite_proofs Contextual_proofs Soundex_proofs UnicodeLemmas Cologne_proofs Metaphone_proofs
  Metaphone_spec_proofs Double_metaphone_any_proofs.
Local Open Scope N_scope.

Fixpoint run_any (t : ustr) (i : nat) (r : rule_any) : ustr * nat :=
  match r with
  | Letters r => run t i r
  | IfLetters c r1 r2 => if holdsb t i c then run_any t i r1 else run_any t i r2
  | IfBytes c r1 r2 => if holdsb (in_places t) i c then run_any t i r1 else run_any t i r2
  end.
Lemma gives_any_iff : forall t i r a, gives_any t i r a <-> a = run_any t i r.
Proof.
  intros t i. induction r as [r|c r1 IH1 r2 IH2|c r1 IH1 r2 IH2]; intros a; cbn [run_any]; split.
  - intros H. inversion H; subst. now apply gives_iff.
  - intros ->. constructor. now apply gives_iff.
  - intros H. inversion H as [|c0 s1 s2 a0 Hc Hg|c0 s1 s2 a0 Hc Hg| |]; subst.
    + apply holds_iff in Hc. rewrite Hc. now apply IH1.
    + apply holds_not_iff in Hc. rewrite Hc. now apply IH2.
  - intros ->. destruct (holdsb t i c) eqn:E.
    + apply ga_yes; [now apply holds_iff|now apply IH1].
    + apply ga_no; [now apply holds_not_iff|now apply IH2].
  - intros H. inversion H as [| | |c0 s1 s2 a0 Hc Hg|c0 s1 s2 a0 Hc Hg]; subst.
    + apply holds_iff in Hc. rewrite Hc. now apply IH1.
    + apply holds_not_iff in Hc. rewrite Hc. now apply IH2.
  - intros ->. destruct (holdsb (in_places t) i c) eqn:E.
    + apply gb_yes; [now apply holds_iff|now apply IH1].
    + apply gb_no; [now apply holds_not_iff|now apply IH2].
Qed.
Definition lookup_any (c : N) : rule_any :=
  match find (fun e => N.eqb c (fst e)) byte_rules with
  | Some (_, r) => r
  | None => Letters (lookup metaphone_table silent c)
  end.
Lemma rule_any_of_iff : forall c r, rule_any_of c r <-> r = lookup_any c.
Proof.
  intros c r. unfold lookup_any. split.
  - intros H. inversion H as [r0 Hi|r0 Hn Hr]; subst.
    + cbn [byte_rules In] in Hi. repeat (destruct Hi as [Hi|Hi]; [injection Hi as <- <-; reflexivity|]). destruct Hi.
    + destruct (find _ byte_rules) as [[k r]|] eqn:F.
      * apply find_some in F as [Hi E]. cbn [fst] in E. apply N.eqb_eq in E. subst k. now apply Hn in Hi.
      * f_equal. now apply (rule_of_iff _ _ _ _ _ metaphone_disjoint).
  - intros ->. destruct (find _ byte_rules) as [[k r]|] eqn:F.
    + apply find_some in F as [Hi E]. cbn [fst] in E. apply N.eqb_eq in E. subst k. now apply ra_bytes.
    + apply ra_letters.
      * intros r' Hi. pose proof (find_none _ _ F _ Hi) as E. cbn [fst] in E. now rewrite N.eqb_refl in E.
      * now apply (rule_of_iff _ _ _ _ _ metaphone_disjoint).
Qed.

Lemma region_places : forall t i k w b, plain (k :: w) = true -> mt_region_match t i (k :: w) = Ok b ->
  b = stands_atb (in_places t) (k :: w) (Z.of_nat i).
Proof.
  intros t i k w b P H. unfold mt_region_match in H. pose proof (plain_ascii _ P) as A.
  rewrite (ascii_blen (k :: w) A) in H. unfold stands_atb. rewrite in_places_len, Nat2Z.id.
  replace (0 <=? Z.of_nat i)%Z with true by (symmetry; apply Z.leb_le; lia). cbn [andb].
  destruct (Nat.ltb_spec (i + length (k :: w) - 1) (blen t)) as [L|L].
  - apply bind_Ok in H as (r & Hr & H). injection H as <-. cbn [length] in L.
    replace (Z.of_nat i <=? Z.of_nat (blen t))%Z with true by (symmetry; apply Z.leb_le; lia). cbn [andb].
    apply places_slice_from in Hr. rewrite slice_from_ascii in Hr
      by (apply in_places_ascii || (rewrite in_places_len; lia)).
    injection Hr as Hr. rewrite Hr. now rewrite places_starts.
  - injection H as <-. symmetry. apply andb_false_iff. right. apply starts_with_not. intros r E.
    assert (LL : length (skipn i (in_places t)) = length ((k :: w) ++ r)) by now rewrite E.
    rewrite skipn_length, in_places_len, app_length in LL. cbn [length] in *. lia.
Qed.

Section Any.
Variables (t : ustr) (i : nat) (c : N).
Hypothesis At_i : nth_error t i = Some c.
Hypothesis U : forall x, In x t -> is_ascii_lower x = false.

Lemma last_any : forall x, n1 t i = Some x -> mt_is_last_char (blen t) i = false.
Proof.
  intros x E. unfold n1 in E. assert (i + 1 < length t)%nat by (apply nth_error_Some; congruence).
  pose proof (length_le_blen t). apply Nat.eqb_neq. lia.
Qed.
Lemma last1_any : forall x, n2 t i = Some x -> mt_is_last_char (blen t) (i + 1) = false.
Proof.
  intros x E. unfold n2 in E. assert (i + 2 < length t)%nat by (apply nth_error_Some; congruence).
  pose proof (length_le_blen t). apply Nat.eqb_neq. lia.
Qed.
Lemma bytes_last : mt_is_last_char (blen t) i = holdsb (in_places t) i Last.
Proof. cbn. rewrite in_places_len. unfold mt_is_last_char. rewrite Nat.add_0_r. apply Nat.eqb_sym. Qed.
End Any.

Lemma mt_symbol_any : forall t i c x, nth_error t i = Some c ->
  (forall x, In x t -> is_ascii_lower x = false) ->
  (c = # "C" \/ opt_is (prev t i) c = false) ->
  mt_symbol t (blen t) i c = Ok x -> x = run_any t i (lookup_any c).
Proof.
  intros t i c out Hc U R.
  assert (F : holdsb t i First = Nat.eqb i 0) by (cbn; now destruct i).
  assert (V2 : i = 0%nat -> mt_is_vowel t 2 = isin_opt (n2 t i) Vowel).
  { intros ->. apply vowel_b. exact U. }
  assert (LG : holdsb (in_places t) i (Long 4) = Nat.ltb 3 (blen t)) by (cbn [holdsb]; now rewrite in_places_len).
  pose proof (n2_n1 t i) as NN.
  assert (B : forall a b, holdsb t i (Both a b) = holdsb t i a && holdsb t i b) by reflexivity.
  assert (No : forall a, holdsb t i (Not a) = negb (holdsb t i a)) by reflexivity.
  assert (S2 : forall ws, holdsb t i (Next ws) = existsb (fun w => stands_atb t w (Z.of_nat i + 1)) ws) by reflexivity.
  assert (S1 : forall x, stands_atb t [x] (Z.of_nat i + 1) = opt_is (n1 t i) x) by apply stands1.
  assert (SS : forall x y, stands_atb t [x; y] (Z.of_nat i + 1) = opt_is (n1 t i) x && opt_is (n2 t i) y)
    by (apply (stands2 t i c Hc)).
  assert (HB : forall ws, holdsb (in_places t) i (Here ws) = existsb (fun w => stands_atb (in_places t) w (Z.of_nat i)) ws).
  { intros ws. unfold Here. cbn [holdsb]. now rewrite Z.add_0_r. }
  assert (GNED : stands_atb (in_places t) $ "GNED" (Z.of_nat i) = true -> stands_atb (in_places t) $ "GN" (Z.of_nat i) = true).
  { intros K. apply stands_at_iff in K as (a & b & K & La). apply stands_at_iff. exists a, ($ "ED" ++ b). split; [exact K|exact La]. }
  destruct (isin c $ "ABCDEFGHIJKLMNOPQRSTUVWXYZ") eqn:Z.
  2: { assert (Q : forall k, isin k $ "ABCDEFGHIJKLMNOPQRSTUVWXYZ" = true -> (c =? k) = false).
       { intros k Hk. destruct (N.eqb_spec c k) as [->|D]; [congruence|reflexivity]. }
       unfold mt_symbol, lookup_any, lookup, byte_rules, metaphone_table. cbv zeta. cbn [find fst Vowel].
       unfold isin, Vowel. cbn [existsb]. rewrite !Q by reflexivity. intros K. injection K as <-. reflexivity. }
  apply isin_In in Z. cbn [In] in Z.
  assert (V1 : mt_is_vowel t (i + 1) = isin_opt (n1 t i) Vowel) by (apply vowel_b; exact U).
  assert (V3 : mt_is_vowel t (i + 2) = isin_opt (n2 t i) Vowel) by (apply vowel_b; exact U).
  pose proof (last_any t i) as L0. pose proof (last1_any t i) as L1.
  pose proof (bytes_last t i) as BL.
  pose proof (after_b t i) as AB. pose proof (before_b t i) as BB. pose proof (at2_b t i) as A2.
  unfold mt_symbol. cbv zeta.
  rewrite !prev_b, !next_b, !front1_b, !front2_b, V1, V3.
  replace (Nat.ltb 0 i && isin_opt (nth_char t (i - 1)) VARSON) with (isin_opt (prev t i) VARSON)
    by (unfold prev, nth_char; now destruct (Nat.ltb 0 i)).
  replace (Nat.eqb i 0 && Nat.ltb 3 (blen t) && mt_is_vowel t 2)
    with (Nat.eqb i 0 && Nat.ltb 3 (blen t) && isin_opt (n2 t i) Vowel)
    by (destruct (Nat.eqb_spec i 0); [now rewrite V2|reflexivity]).
  replace (Nat.ltb 0 i) with (negb (Nat.eqb i 0)) by now destruct i.
  assert (PZ : Nat.eqb i 0 = true -> prev t i = None) by (intros K; apply Nat.eqb_eq in K; subst; reflexivity).
  remember (Nat.eqb i 0) as zero eqn:Ez. remember (Nat.ltb 3 (blen t)) as long eqn:El.
  remember (mt_is_last_char (blen t) i) as last0 eqn:Ela0.
  remember (mt_is_last_char (blen t) (i + 1)) as last1 eqn:Ela.
  remember (prev t i) as p eqn:Ep. remember (n1 t i) as x eqn:Ex. remember (n2 t i) as y eqn:Ey.
  repeat (destruct Z as [<-|Z]; [
    unfold lookup_any, lookup, byte_rules, metaphone_table; cbn [find fst Vowel];
    repeat match goal with |- context[isin ?k ?l] => lit k;
       let v := eval vm_compute in (isin k l) in change (isin k l) with v end;
    repeat match goal with |- context[N.eqb ?a ?b] => lit a; lit b;
       let v := eval vm_compute in (N.eqb a b) in change (N.eqb a b) with v end;
    cbn [andb orb negb run run_any find fst]; unfold silent, says; cbn [run run_any];
    rewrite ?B, ?No, ?AB, ?BB, ?A2, ?S2, ?HB, ?F, ?LG, <- ?BL;
    cbn [existsb]; rewrite ?S1, ?SS; unfold orelse
    |]); [..|destruct Z].
  all: try (intros K; injection K as <-; reflexivity); unfold VARSON; rewrite ?isin_opt1.
  all: repeat match goal with |- context[mt_region_match ?tt ?ii ?w] =>
         let b := fresh "b" in let E := fresh "E" in
         remember (mt_region_match tt ii w) as b eqn:E; symmetry in E;
         destruct b as [b| |]; [apply region_places in E; [subst b|reflexivity]|clear E|clear E] end.
  all: try (match goal with H : stands_atb _ ?a ?z = true -> stands_atb _ ?b ?z = true |- context[stands_atb _ ?a ?z] =>
     revert H end).
  all: repeat match goal with
       | |- context[stands_atb (in_places ?tt) ?w ?z] =>
         let b := fresh "b" in remember (stands_atb (in_places tt) w z) as b end.
  all: try (match goal with |- (?b = true -> _) -> _ => intros GN end).
  all: destruct R as [R|R]; [try discriminate R|].
  all: clear -R L0 L1 PZ GN || clear -R L0 L1 PZ.
  all: destruct x as [x|]; [specialize (L0 x eq_refl); subst last0|clear L0].
  all: destruct y as [y|]; [specialize (L1 y eq_refl); subst last1|clear L1].
  all: destruct p as [p|]; [destruct zero; [specialize (PZ eq_refl); discriminate PZ|]|]; clear PZ.
  all: cbn [opt_is isin_opt] in *; unfold isin; cbn [existsb]; rewrite ?R; cbn [negb andb orb bind].
  all: repeat (try (intros K; injection K as <-; reflexivity); try (intros K; discriminate K); match goal with
    | |- context[if ?b then _ else _] => is_var b; destruct b; cbn [negb andb orb bind]
    | |- context[negb ?b] => is_var b; destruct b; cbn [negb andb orb bind]
    | |- context[N.eqb ?a ?b] => destruct (N.eqb a b); cbn [negb andb orb bind]
    | |- context[existsb ?f ?b] => destruct (existsb f b); cbn [negb andb orb bind]
    | |- context[?b || _] => is_var b; destruct b; cbn [negb andb orb bind]
    | |- context[?b && _] => is_var b; destruct b; cbn [negb andb orb bind]
    end).
  all: try (intros K; injection K as <-; reflexivity); try (intros K; discriminate K).
  all: try (specialize (GN eq_refl); discriminate GN).
Qed.

(** ** Reading *)
Lemma reads_any_unique : forall t i c1, reads_any t i c1 -> forall c2, reads_any t i c2 -> c1 = c2.
Proof.
  intros t i c1 H. induction H as [i L|i c code E NC Hh Hr IH|i c r out k code E NC Ho Hg Hr IH]; intros c2 H2.
  - inversion H2 as [|i0 c0 code0 E0|i0 c0 r0 out0 k0 code0 E0]; subst; [reflexivity| |];
      apply nth_error_None in L; congruence.
  - inversion H2 as [i0 L0|i0 c0 code0 E0 NC0 Hh0 Hr0|i0 c0 r0 out0 k0 code0 E0 NC0 Ho0 Hg0 Hr0]; subst.
    + apply nth_error_None in L0. congruence.
    + now apply IH.
    + assert (c0 = c) by congruence. subst. destruct NC0; contradiction.
  - inversion H2 as [i0 L0|i0 c0 code0 E0 NC0 Hh0 Hr0|i0 c0 r0 out0 k0 code0 E0 NC0 Ho0 Hg0 Hr0]; subst.
    + apply nth_error_None in L0. congruence.
    + assert (c0 = c) by congruence. subst. destruct NC; contradiction.
    + assert (c0 = c) by congruence. subst.
      apply rule_any_of_iff in Ho. apply rule_any_of_iff in Ho0.
      subst. apply gives_any_iff in Hg. apply gives_any_iff in Hg0. rewrite <- Hg in Hg0. injection Hg0 as -> ->.
      f_equal. now apply IH.
Qed.
Lemma reads_any_exists : forall t n i, (length t - i <= n)%nat -> exists code, reads_any t i code.
Proof.
  intros t. induction n as [|n IH]; intros i L.
  - exists []. apply rx_end. lia.
  - destruct (nth_error t i) as [c|] eqn:E.
    2: { exists []. apply rx_end. now apply nth_error_None. }
    assert (Li : (i < length t)%nat) by (apply nth_error_Some; congruence).
    destruct (N.eq_dec c (# "C")) as [EC|NC]; [|destruct (holdsb t i (After [c])) eqn:Hh].
    2: { destruct (IH (i + 1)%nat) as [code R]; [lia|]. exists code. apply (rx_repeated t i c code E NC); [now apply holds_iff|exact R]. }
    all: destruct (run_any t i (lookup_any c)) as [out k] eqn:Er;
      destruct (IH (i + 1 + k)%nat) as [code R]; [lia|]; exists (out ++ code);
      apply (rx_letter t i c (lookup_any c) out k code E); [|now apply rule_any_of_iff|now apply gives_any_iff|exact R].
    + now left.
    + right. now apply holds_not_iff.
Qed.
Lemma cut_app_full : forall n (a b : ustr), length a = n -> firstn n (a ++ b) = a.
Proof. intros n a b <-. apply firstn_app_exact. Qed.
Lemma mt_loop_reads_any : forall t max, (forall x, In x t -> is_ascii_lower x = false) ->
  forall chars i skip code c, chars = skipn i t -> ascii_str code ->
  (forall n, max = Some n -> (length code <= n)%nat) ->
  mt_loop max t (blen t) i skip chars code = Ok c ->
  exists c2, reads_any t (i + skip) c2 /\ c = cut max (code ++ c2).
Proof.
  intros t max U. induction chars as [|x r IH]; intros i skip code c Hs Ac Lc H.
  - injection H as <-. exists []. rewrite app_nil_r. split.
    + apply rx_end. assert (L : length (skipn i t) = 0%nat) by now rewrite <- Hs. rewrite skipn_length in L. lia.
    + destruct max as [n|]; [|reflexivity]. cbn [cut]. symmetry. apply firstn_all2. now apply Lc.
  - assert (Hr : r = skipn (i + 1) t).
    { replace (i + 1)%nat with (1 + i)%nat by lia. rewrite <- skipn_skipn, <- Hs. reflexivity. }
    assert (Hx : nth_error t i = Some x) by (now rewrite nth_skipn, <- Hs).
    replace (i + 1)%nat with (S i) in Hr by lia.
    cbn [mt_loop] in H. destruct skip as [|k].
    + rewrite Nat.add_0_r. destruct (mt_full max code) eqn:Fu.
      { injection H as <-. destruct max as [n|]; [|discriminate]. cbn [mt_full] in Fu. apply Nat.eqb_eq in Fu.
        rewrite ascii_blen in Fu by exact Ac. destruct (reads_any_exists t (length t - i) i (le_n _)) as [c2 R].
        exists c2. split; [exact R|]. cbn [cut]. symmetry. now apply cut_app_full. }
      assert (TR : forall pushed code', ascii_str pushed -> mt_truncate max (code ++ pushed) = Ok code' ->
        code' = cut max (code ++ pushed) /\ ascii_str code' /\ (forall n, max = Some n -> (length code' <= n)%nat)).
      { intros pushed code' Ap K.
        assert (A2 : ascii_str (code ++ pushed)) by (apply ascii_str_app; now split).
        destruct max as [n|].
        - rewrite mt_truncate_ascii in K by exact A2. injection K as <-. split; [reflexivity|]. split.
          + intros y Hy. apply A2. rewrite <- (firstn_skipn n (code ++ pushed)). apply in_or_app. now left.
          + intros m Em. injection Em as <-. rewrite firstn_length. lia.
        - injection K as <-. split; [reflexivity|]. split; [exact A2|]. intros n En. discriminate. }
      assert (CC : forall a b : ustr, cut max (cut max a ++ b) = cut max (a ++ b)).
      { intros a b. destruct max as [n|]; [|reflexivity]. cbn [cut]. rewrite !firstn_app, firstn_firstn, Nat.min_id, firstn_length.
        f_equal. destruct (Nat.leb_spec n (length a)); [|f_equal; lia].
        replace (n - Nat.min n (length a))%nat with 0%nat by lia. now replace (n - length a)%nat with 0%nat by lia. }
      rewrite prev_b in H.
      destruct ((x =? 67) || negb (opt_is (prev t i) x)) eqn:E.
      * assert (NC : x = # "C" \/ opt_is (prev t i) x = false).
        { apply orb_true_iff in E as [E|E]; [left; now apply N.eqb_eq|right; now apply negb_true_iff]. }
        apply bind_Ok in H as ([out k] & Hm & H). apply bind_Ok in H as (code' & Ht & H).
        destruct (TR out code' (mt_symbol_ascii _ _ _ _ _ _ Hm) Ht) as (E1 & E2 & E3).
        apply (mt_symbol_any t i x _ Hx U NC) in Hm.
        destruct (IH (S i) k code' c Hr E2 E3 H) as (c2 & R & ->).
        exists (out ++ c2). split; [|rewrite E1, CC; now rewrite app_assoc].
        apply (rx_letter t i x (lookup_any x) out k c2 Hx).
        -- destruct NC as [NC|NC]; [now left|right]. apply holds_not_iff.
           rewrite after_b. now rewrite isin_opt1.
        -- now apply rule_any_of_iff.
        -- now apply gives_any_iff.
        -- now replace (i + 1 + k)%nat with (S i + k)%nat by lia.
      * apply orb_false_iff in E as [E1 E2]. apply negb_false_iff in E2. cbn [bind] in H.
        apply bind_Ok in H as (code' & Ht & H).
        destruct (TR [] code' ascii_str_nil Ht) as (E3 & E4 & E5). rewrite app_nil_r in E3.
        destruct (IH (S i) 0%nat code' c Hr E4 E5 H) as (c2 & R & ->).
        exists c2. split; [|now rewrite E3, CC]. apply (rx_repeated t i x c2 Hx).
        -- now apply N.eqb_neq.
        -- apply holds_iff. now rewrite after_b, isin_opt1.
        -- now replace (i + 1)%nat with (S i + 0)%nat by lia.
    + destruct (IH (S i) k code c Hr Ac Lc H) as (c2 & R & ->). exists c2. split; [|reflexivity].
      now replace (i + S k)%nat with (S i + k)%nat by lia.
Qed.

(** ** Totality *)
Lemma region_total : forall a c b w, ascii_str a -> exists r, mt_region_match (a ++ c :: b) (length a) w = Ok r.
Proof.
  intros a c b w A. unfold mt_region_match. destruct (Nat.ltb _ _); [|now eexists].
  rewrite <- (ascii_blen a A). unfold slice_from. rewrite split_byte_app. cbn [bind]. now eexists.
Qed.
Lemma mt_symbol_total : forall a c b, (In c $ "CGST" -> ascii_str a) ->
  forall w, exists r, mt_symbol (a ++ c :: b) w (length a) c = Ok r.
Proof.
  intros a c b A w.
  assert (T : In c $ "CGST" -> forall x, exists r, mt_region_match (a ++ c :: b) (length a) x = Ok r).
  { intros H x. apply region_total. now apply A. }
  unfold mt_symbol. cbv zeta.
  repeat match goal with
    | |- context[if N.eqb c ?k then _ else _] => destruct (N.eqb_spec c k) as [Ek|];
        [try (assert (T' := T (proj1 (isin_In _ _) (eq_trans (f_equal (fun z => isin z $ "CGST") Ek) eq_refl))))|]
    | |- context[if ?x then _ else _] => lazymatch x with context[bind] => fail | context[if _ then _ else _] => fail | _ => destruct x end
    | |- context[mt_region_match (a ++ c :: b) (length a) ?x] =>
        let r := fresh in let E := fresh in destruct (T' x) as [r E]; rewrite E; clear E; unfold orelse; cbn [bind]
    | |- exists r, Ok _ = Ok r => now eexists
    | |- _ => progress (unfold orelse; cbn [bind])
    end.
Qed.
Lemma mt_loop_total : forall t max, (forall a c b, t = a ++ c :: b -> In c $ "CGST" -> ascii_str a) ->
  forall chars a k code, t = a ++ chars -> ascii_str code ->
  exists r, mt_loop max t (blen t) (length a) k chars code = Ok r.
Proof.
  intros t max H. induction chars as [|x r IH]; intros a k code Et Ac; [now eexists|].
  cbn [mt_loop]. assert (Et' : t = (a ++ [x]) ++ r) by (rewrite <- app_assoc; exact Et).
  assert (La : S (length a) = length (a ++ [x])) by (rewrite app_length; cbn [length]; lia).
  rewrite La. destruct k as [|k]; [|now apply IH]. destruct (mt_full max code); [now eexists|].
  assert (TR : forall out, ascii_str out -> exists c', mt_truncate max (code ++ out) = Ok c' /\ ascii_str c').
  { intros out Ao. assert (A2 : ascii_str (code ++ out)) by (apply ascii_str_app; now split).
    destruct max as [n|]; [|now eexists]. rewrite mt_truncate_ascii by exact A2. eexists. split; [reflexivity|].
    intros y Hy. apply A2. rewrite <- (firstn_skipn n (code ++ out)). apply in_or_app. now left. }
  destruct ((x =? # "C") || _).
  - destruct (mt_symbol_total a x r (H a x r Et) (blen t)) as [[out k] E]. rewrite <- Et in E. rewrite E. cbn [bind].
    destruct (TR out (mt_symbol_ascii _ _ _ _ _ _ E)) as (c' & Ec & Ac'). rewrite Ec. cbn [bind]. now apply IH.
  - cbn [bind]. destruct (TR [] ascii_str_nil) as (c' & Ec & Ac'). rewrite Ec. cbn [bind]. now apply IH.
Qed.
