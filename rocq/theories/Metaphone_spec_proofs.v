(** * Metaphone computes the rules of Spec_metaphone: proofs. *)
From Verif Require Import Base UnicodeM Lib Helper Metaphone BaseLemmas Spec_common Spec_rewrite Spec_contextual
  Spec_metaphone Rewrite_proofs Contextual_proofs Soundex_proofs UnicodeLemmas Cologne_proofs Metaphone_proofs.
Local Open Scope N_scope.

(** The characters around position [i]. *)
Section Around.
Variables (t : ustr) (i : nat) (c : N).
Hypothesis At_i : nth_error t i = Some c.
Hypothesis Asc : ascii_str t.
Hypothesis Upper : forall x, In x t -> is_ascii_lower x = false.
Definition prev := if Nat.ltb 0 i then nth_error t (i - 1) else None.
Definition n1 := nth_error t (i + 1).
Definition n2 := nth_error t (i + 2).

Lemma i_lt : (i < length t)%nat.
Proof. apply nth_error_Some. now rewrite At_i. Qed.
Lemma n2_n1 : n1 = None -> n2 = None.
Proof. unfold n1, n2. rewrite !nth_error_None. lia. Qed.

Lemma char_b_prev : char_b t (Z.of_nat i + -1) = prev.
Proof.
  unfold char_b, prev. destruct (Nat.ltb_spec 0 i) as [L|L].
  - replace (Z.of_nat i + -1 <? 0)%Z with false by (symmetry; apply Z.ltb_ge; lia). f_equal. lia.
  - replace (Z.of_nat i + -1 <? 0)%Z with true by (symmetry; apply Z.ltb_lt; lia). reflexivity.
Qed.
Lemma char_b_n1 : char_b t (Z.of_nat i + 1) = n1.
Proof.
  unfold char_b, n1. replace (Z.of_nat i + 1 <? 0)%Z with false by (symmetry; apply Z.ltb_ge; lia). f_equal. lia.
Qed.
Lemma char_b_n2 : char_b t (Z.of_nat i + 2) = n2.
Proof.
  unfold char_b, n2. replace (Z.of_nat i + 2 <? 0)%Z with false by (symmetry; apply Z.ltb_ge; lia). f_equal. lia.
Qed.
Lemma after_b : forall s, holdsb t i (After s) = isin_opt prev s.
Proof. intros s. unfold After. rewrite at_letters, char_b_prev. reflexivity. Qed.
Lemma before_b : forall s, holdsb t i (Before s) = isin_opt n1 s.
Proof. intros s. unfold Before. rewrite at_letters, char_b_n1. reflexivity. Qed.
Lemma at2_b : forall s, holdsb t i (At 2 (letters s)) = isin_opt n2 s.
Proof. intros s. rewrite at_letters, char_b_n2. reflexivity. Qed.
Lemma isin_opt1 : forall o x, isin_opt o [x] = opt_is o x.
Proof. intros [y|] x; [|reflexivity]. unfold isin_opt, isin, opt_is. cbn [existsb]. now rewrite orb_false_r. Qed.
Lemma letter_b : forall x, existsb (fun w => stands_atb t w (Z.of_nat i + 1)) [[x]] = opt_is n1 x.
Proof. intros x. rewrite <- isin_opt1, <- before_b. reflexivity. Qed.
Lemma stands1 : forall x, stands_atb t [x] (Z.of_nat i + 1) = opt_is n1 x.
Proof. intros x. rewrite <- letter_b. cbn [existsb]. now rewrite orb_false_r. Qed.
Lemma skipn_around : skipn (i + 1) t = match n1, n2 with
  | Some x, Some y => x :: y :: skipn (i + 3) t | Some x, None => [x] | None, _ => [] end.
Proof.
  unfold n1, n2. rewrite !nth_skipn. replace (i + 2)%nat with (1 + (i + 1))%nat by lia.
  replace (i + 3)%nat with (2 + (i + 1))%nat by lia. generalize (i + 1)%nat as k. intros k. clear.
  rewrite <- !skipn_skipn. destruct (skipn k t) as [|x [|y r]]; reflexivity.
Qed.
Lemma stands2 : forall x y, stands_atb t [x; y] (Z.of_nat i + 1) = opt_is n1 x && opt_is n2 y.
Proof.
  intros x y. pose proof i_lt. unfold stands_atb.
  replace (0 <=? Z.of_nat i + 1)%Z with true by (symmetry; apply Z.leb_le; lia).
  replace (Z.of_nat i + 1 <=? Z.of_nat (length t))%Z with true by (symmetry; apply Z.leb_le; lia).
  cbn [andb]. replace (Z.to_nat (Z.of_nat i + 1)) with (i + 1)%nat by lia. rewrite skipn_around.
  destruct n1 as [a|] eqn:E1; [destruct n2 as [b|]|]; cbn [starts_with opt_is andb].
  - unfold starts_with. cbn [strip_prefix]. rewrite (N.eqb_sym x a). destruct (a =? x); [|reflexivity].
    rewrite (N.eqb_sym y b). now destruct (b =? y).
  - unfold starts_with. cbn [strip_prefix]. rewrite andb_false_r. now destruct (_ =? _).
  - reflexivity.
Qed.

Lemma prev_b : forall x, mt_is_previous_char t i x = opt_is prev x.
Proof. intros x. unfold mt_is_previous_char, prev, nth_char. now destruct (Nat.ltb 0 i). Qed.
Lemma next_b : forall x, mt_is_next_char t i x = opt_is n1 x.
Proof. reflexivity. Qed.
Lemma front1_b : mt_frontv t (i + 1) = isin_opt n1 $ "EIY".
Proof. reflexivity. Qed.
Lemma front2_b : mt_frontv t (i + 2) = isin_opt n2 $ "EIY".
Proof. reflexivity. Qed.
Lemma vowel_b : forall k, mt_is_vowel t k = isin_opt (nth_error t k) Vowel.
Proof.
  intros k. unfold mt_is_vowel, nth_char. destruct (nth_error t k) as [x|] eqn:E; [|reflexivity].
  apply nth_error_In in E. apply Upper in E. cbn [option_map is_vowel isin_opt andb]. rewrite orb_false_r.
  unfold is_ascii_lower in E. unfold ascii_low. destruct (is_ascii_upper x) eqn:U.
  - unfold is_ascii_upper in U. unfold isin, Vowel. cbn [existsb].
    apply andb_true_iff in U as [U1 U2]. apply N.leb_le in U1. apply N.leb_le in U2.
    assert (forall k, (x + 32 =? k + 32) = (x =? k)) as Q.
    { intros q. destruct (N.eqb_spec x q) as [->|D]; [apply N.eqb_refl|]. apply N.eqb_neq. lia. }
    change 97 with (65 + 32). change 101 with (69 + 32). change 105 with (73 + 32).
    change 111 with (79 + 32). change 117 with (85 + 32). now rewrite !Q.
  - transitivity false; [|symmetry].
    + apply isin_false. intros K. cbn [In] in K. repeat (destruct K as [<-|K]; [discriminate|]). destruct K.
    + apply isin_false. intros K. cbn [In] in K. repeat (destruct K as [<-|K]; [discriminate|]). destruct K.
Qed.
Lemma last_b : mt_is_last_char (length t) i = match n1 with None => true | Some _ => false end.
Proof.
  unfold mt_is_last_char, n1. pose proof i_lt. destruct (nth_error t (i + 1)) as [x|] eqn:E.
  - assert (i + 1 < length t)%nat by (apply nth_error_Some; congruence). apply Nat.eqb_neq. lia.
  - apply nth_error_None in E. apply Nat.eqb_eq. lia.
Qed.
Lemma last1_b : forall x, n1 = Some x -> mt_is_last_char (length t) (i + 1) = match n2 with None => true | Some _ => false end.
Proof.
  intros x E1. unfold mt_is_last_char. unfold n1, n2 in *.
  assert (i + 1 < length t)%nat by (apply nth_error_Some; congruence).
  destruct (nth_error t (i + 2)) as [y|] eqn:E.
  - assert (i + 2 < length t)%nat by (apply nth_error_Some; congruence). apply Nat.eqb_neq. lia.
  - apply nth_error_None in E. apply Nat.eqb_eq. lia.
Qed.
Lemma skipn_here : skipn i t = c :: skipn (i + 1) t.
Proof.
  pose proof At_i as E. rewrite nth_skipn in E. replace (i + 1)%nat with (1 + i)%nat by lia.
  rewrite <- skipn_skipn. destruct (skipn i t); [discriminate|]. now injection E as ->.
Qed.
Lemma region_b : forall w, w <> [] ->
  mt_region_match t i (c :: w) = Ok (starts_with (skipn (i + 1) t) w).
Proof.
  intros w Hw. unfold mt_region_match. rewrite (ascii_blen t) by assumption.
  rewrite slice_from_ascii by (auto; pose proof i_lt; lia). cbn [bind].
  assert (E : starts_with (skipn i t) (c :: w) = starts_with (skipn (i + 1) t) w).
  { rewrite skipn_here. unfold starts_with. cbn [strip_prefix]. now rewrite N.eqb_refl. }
  rewrite E. destruct (Nat.ltb _ _) eqn:L; [reflexivity|]. f_equal. symmetry. apply starts_with_not.
  intros r K. apply Nat.ltb_ge in L. assert (LL : length (skipn (i + 1) t) = length (w ++ r)) by now rewrite K.
  rewrite skipn_length, app_length in LL. cbn [blen] in L. pose proof i_lt.
  assert (length w <= blen w)%nat. { clear. induction w as [|x w IH]; cbn; [lia|]. unfold utf8_len. repeat destruct (_ <? _); lia. }
  assert (ascii_str w).
  { intros x Hx. assert (Q : In x (skipn (i + 1) t)) by (rewrite K; apply in_or_app; now left).
    apply Asc. rewrite <- (firstn_skipn (i + 1) t). apply in_or_app. now right. }
  rewrite (ascii_blen w) in L by assumption.
  assert (utf8_len c = 1%nat). { apply ascii_utf8_len. apply Asc. eapply nth_error_In. exact At_i. }
  destruct w; [contradiction|]. cbn [length] in *. lia.
Qed.
Lemma region1 : forall x, mt_region_match t i [c; x] = Ok (opt_is n1 x).
Proof.
  intros x. rewrite region_b by discriminate. f_equal. rewrite <- stands1. unfold stands_atb. pose proof i_lt.
  replace (0 <=? Z.of_nat i + 1)%Z with true by (symmetry; apply Z.leb_le; lia).
  replace (Z.of_nat i + 1 <=? Z.of_nat (length t))%Z with true by (symmetry; apply Z.leb_le; lia).
  cbn [andb]. f_equal. f_equal. lia.
Qed.
Lemma region2 : forall x y, mt_region_match t i [c; x; y] = Ok (opt_is n1 x && opt_is n2 y).
Proof.
  intros x y. rewrite region_b by discriminate. f_equal. rewrite <- stands2. unfold stands_atb. pose proof i_lt.
  replace (0 <=? Z.of_nat i + 1)%Z with true by (symmetry; apply Z.leb_le; lia).
  replace (Z.of_nat i + 1 <=? Z.of_nat (length t))%Z with true by (symmetry; apply Z.leb_le; lia).
  cbn [andb]. f_equal. f_equal. lia.
Qed.
End Around.

Lemma metaphone_disjoint : disjoint_table metaphone_table.
Proof.
  unfold disjoint_table, metaphone_table. cbn [map fst concat app Vowel].
  repeat (constructor; [intros K; apply isin_In in K; vm_compute in K; discriminate|]). constructor.
Qed.

Ltac lit k := lazymatch k with N.pos _ => idtac end.
(** The model reads a letter as the table says. *)
Lemma mt_symbol_run : forall t i c, nth_error t i = Some c -> ascii_str t ->
  (forall x, In x t -> is_ascii_lower x = false) ->
  (c = # "C" \/ opt_is (prev t i) c = false) ->
  mt_symbol t (length t) i c = Ok (run t i (lookup metaphone_table silent c)).
Proof.
  intros t i c Hc A U R.
  assert (F : holdsb t i First = Nat.eqb i 0) by (cbn; now destruct i).
  assert (L : holdsb t i Last = match n1 t i with None => true | Some _ => false end).
  { rewrite <- (last_b t i c Hc). cbn. unfold mt_is_last_char. rewrite Nat.add_0_r. apply Nat.eqb_sym. }
  assert (V2 : i = 0%nat -> mt_is_vowel t 2 = isin_opt (n2 t i) Vowel).
  { intros ->. apply vowel_b. exact U. }
  assert (LG : holdsb t i (Long 4) = Nat.ltb 3 (length t)) by reflexivity.
  pose proof (n2_n1 t i) as NN.
  assert (L1 : forall x, n1 t i = Some x -> mt_is_last_char (length t) (i + 1) = match n2 t i with None => true | Some _ => false end)
    by (apply last1_b).
  assert (G : c = # "G" -> mt_region_match t i $ "GNED" = Ok (starts_with (skipn (i + 1) t) $ "NED")).
  { intros ->. apply (region_b t i _ Hc A). discriminate. }
  assert (GN : starts_with (skipn (i + 1) t) $ "NED" = true -> opt_is (n1 t i) (# "N") = true).
  { intros K. apply starts_with_spec in K as [r K]. unfold n1. rewrite nth_skipn, K. reflexivity. }
  assert (GN' : (if opt_is (n1 t i) (# "N") then Ok true else Ok (starts_with (skipn (i + 1) t) $ "NED")) = Ok (opt_is (n1 t i) (# "N"))).
  { destruct (starts_with (skipn (i + 1) t) $ "NED"); [rewrite GN; reflexivity|].
    clear. destruct (opt_is (n1 t i) (# "N")); reflexivity. }
  assert (W1 : forall x, mt_region_match t i [c; x] = Ok (opt_is (n1 t i) x)) by (apply region1; assumption).
  assert (W2 : forall x y, mt_region_match t i [c; x; y] = Ok (opt_is (n1 t i) x && opt_is (n2 t i) y))
    by (apply region2; assumption).
  assert (S2 : forall ws, holdsb t i (Next ws) = existsb (fun w => stands_atb t w (Z.of_nat i + 1)) ws) by reflexivity.
  assert (S1 : forall x, stands_atb t [x] (Z.of_nat i + 1) = opt_is (n1 t i) x) by apply stands1.
  assert (SS : forall x y, stands_atb t [x; y] (Z.of_nat i + 1) = opt_is (n1 t i) x && opt_is (n2 t i) y)
    by (apply (stands2 t i c Hc)).
  assert (B : forall a b, holdsb t i (Both a b) = holdsb t i a && holdsb t i b) by reflexivity.
  assert (No : forall a, holdsb t i (Not a) = negb (holdsb t i a)) by reflexivity.
  destruct (isin c $ "ABCDEFGHIJKLMNOPQRSTUVWXYZ") eqn:Z.
  2: { assert (Q : forall k, isin k $ "ABCDEFGHIJKLMNOPQRSTUVWXYZ" = true -> (c =? k) = false).
       { intros k Hk. destruct (N.eqb_spec c k) as [->|D]; [congruence|reflexivity]. }
       unfold mt_symbol, lookup, metaphone_table. cbv zeta. cbn [find fst Vowel].
       unfold isin, Vowel. cbn [existsb]. rewrite !Q by reflexivity. reflexivity. }
  apply isin_In in Z. cbn [In] in Z.
  assert (V1 : mt_is_vowel t (i + 1) = isin_opt (n1 t i) Vowel) by (apply vowel_b; exact U).
  assert (V3 : mt_is_vowel t (i + 2) = isin_opt (n2 t i) Vowel) by (apply vowel_b; exact U).
  pose proof (last_b t i c Hc) as L0.
  pose proof (after_b t i) as AB. pose proof (before_b t i) as BB. pose proof (at2_b t i) as A2.
  unfold mt_symbol. cbv zeta.
  rewrite !prev_b, !next_b, !front1_b, !front2_b, L0, V1, V3.
  replace (Nat.ltb 0 i && isin_opt (nth_char t (i - 1)) VARSON) with (isin_opt (prev t i) VARSON)
    by (unfold prev, nth_char; now destruct (Nat.ltb 0 i)).
  replace (Nat.eqb i 0 && Nat.ltb 3 (length t) && mt_is_vowel t 2)
    with (Nat.eqb i 0 && Nat.ltb 3 (length t) && isin_opt (n2 t i) Vowel)
    by (destruct (Nat.eqb_spec i 0); [now rewrite V2|reflexivity]).
  replace (Nat.ltb 0 i) with (negb (Nat.eqb i 0)) by now destruct i.
  assert (PZ : Nat.eqb i 0 = true -> prev t i = None) by (intros K; apply Nat.eqb_eq in K; subst; reflexivity).
  remember (Nat.eqb i 0) as zero eqn:Ez. remember (Nat.ltb 3 (length t)) as long eqn:El.
  remember (mt_is_last_char (length t) (i + 1)) as last1 eqn:Ela.
  remember (prev t i) as p eqn:Ep. remember (n1 t i) as x eqn:Ex. remember (n2 t i) as y eqn:Ey.
  repeat (destruct Z as [<-|Z]; [
    unfold lookup, metaphone_table; cbn [find fst Vowel];
    repeat match goal with |- context[isin ?k ?l] => lit k;
       let v := eval vm_compute in (isin k l) in change (isin k l) with v end;
    repeat match goal with |- context[N.eqb ?a ?b] => lit a; lit b;
       let v := eval vm_compute in (N.eqb a b) in change (N.eqb a b) with v end;
    cbn [andb orb negb run]; unfold silent, says; cbn [run];
    rewrite ?G by reflexivity; rewrite ?W1, ?W2, ?B, ?No, ?AB, ?BB, ?A2, ?S2, ?F, ?L, ?LG;
    cbn [existsb]; rewrite ?S1, ?SS; unfold orelse; cbn [bind]; rewrite ?GN'
    |]); [..|destruct Z].
  all: try reflexivity; unfold VARSON; rewrite ?isin_opt1.
  all: destruct R as [R|R]; [try discriminate R|].
  all: destruct x as [x|]; [specialize (L1 x eq_refl)|specialize (NN eq_refl); subst y].
  all: try (destruct y as [y|]); try subst last1.
  all: clear Ep Ez El; destruct long; try (destruct (mt_is_last_char (length t) (i + 1))).
  all: destruct p as [p|]; destruct zero; try (specialize (PZ eq_refl); discriminate PZ).
  all: cbn [opt_is isin_opt] in *; unfold isin in *; cbn [existsb] in *; rewrite ?R, ?L1; cbn [negb andb orb bind].
  all: repeat (try reflexivity; match goal with
    | |- context[N.eqb ?a ?b] => destruct (N.eqb a b); cbn [negb andb orb bind]
    | |- context[existsb ?f ?b] => destruct (existsb f b); cbn [negb andb orb bind]
    | |- context[if ?b then _ else _] => is_var b; destruct b; cbn [negb andb orb bind]
    end); try reflexivity; try discriminate.
Qed.

Lemma reads_unique : forall t i c1, reads t i c1 -> forall c2, reads t i c2 -> c1 = c2.
Proof.
  intros t i c1 H. induction H as [i L|i c code E NC Hh Hr IH|i c r out k code E NC Ho Hg Hr IH]; intros c2 H2.
  - inversion H2 as [|i0 c0 code0 E0|i0 c0 r0 out0 k0 code0 E0]; subst; [reflexivity| |];
      apply nth_error_None in L; congruence.
  - inversion H2 as [i0 L0|i0 c0 code0 E0 NC0 Hh0 Hr0|i0 c0 r0 out0 k0 code0 E0 NC0 Ho0 Hg0 Hr0]; subst.
    + apply nth_error_None in L0. congruence.
    + now apply IH.
    + assert (c0 = c) by congruence. subst. destruct NC0; contradiction.
  - inversion H2 as [i0 L0|i0 c0 code0 E0 NC0 Hh0 Hr0|i0 c0 r0 out0 k0 code0 E0 NC0 Ho0 Hg0 Hr0]; subst.
    + apply nth_error_None in L0. congruence.
    + assert (c0 = c) by congruence. subst. destruct NC; contradiction.
    + assert (c0 = c) by congruence. subst.
      apply (rule_of_iff _ _ _ _ _ metaphone_disjoint) in Ho. apply (rule_of_iff _ _ _ _ _ metaphone_disjoint) in Ho0.
      subst. apply gives_iff in Hg. apply gives_iff in Hg0. rewrite <- Hg in Hg0. injection Hg0 as -> ->.
      f_equal. now apply IH.
Qed.

Lemma mt_loop_reads : forall t, ascii_str t -> (forall x, In x t -> is_ascii_lower x = false) ->
  forall chars i skip code c, chars = skipn i t ->
  mt_loop None t (length t) i skip chars code = Ok c ->
  exists c2, reads t (i + skip) c2 /\ c = code ++ c2.
Proof.
  intros t A U. induction chars as [|x r IH]; intros i skip code c Hs H.
  - injection H as <-. exists []. rewrite app_nil_r. split; [|reflexivity]. apply rd_end.
    assert (L : length (skipn i t) = 0%nat) by now rewrite <- Hs. rewrite skipn_length in L. lia.
  - assert (Hr : r = skipn (i + 1) t).
    { replace (i + 1)%nat with (1 + i)%nat by lia. rewrite <- skipn_skipn, <- Hs. reflexivity. }
    assert (Hx : nth_error t i = Some x) by (now rewrite nth_skipn, <- Hs).
    replace (i + 1)%nat with (S i) in Hr by lia.
    cbn [mt_loop] in H. destruct skip as [|k].
    + cbn [mt_full] in H. rewrite Nat.add_0_r. rewrite prev_b in H.
      destruct ((x =? 67) || negb (opt_is (prev t i) x)) eqn:E.
      * assert (NC : x = # "C" \/ opt_is (prev t i) x = false).
        { apply orb_true_iff in E as [E|E]; [left; now apply N.eqb_eq|right; now apply negb_true_iff]. }
        rewrite (mt_symbol_run t i x Hx A U NC) in H.
        destruct (run t i (lookup metaphone_table silent x)) as [out k] eqn:Er.
        cbn [bind mt_truncate] in H. destruct (IH (S i) k (code ++ out) c Hr H) as (c2 & R & ->).
        exists (out ++ c2). split; [|now rewrite app_assoc].
        apply (rd_letter t i x (lookup metaphone_table silent x) out k c2 Hx).
        -- destruct NC as [NC|NC]; [now left|right]. apply holds_not_iff.
           rewrite after_b. now rewrite isin_opt1.
        -- now apply (rule_of_iff _ _ _ _ _ metaphone_disjoint).
        -- now apply gives_iff.
        -- now replace (i + 1 + k)%nat with (S i + k)%nat by lia.
      * apply orb_false_iff in E as [E1 E2]. apply negb_false_iff in E2. cbn [bind mt_truncate] in H.
        destruct (IH (S i) 0%nat (code ++ []) c Hr H) as (c2 & R & ->).
        exists c2. split; [|now rewrite app_nil_r]. apply (rd_repeated t i x c2 Hx).
        -- now apply N.eqb_neq.
        -- apply holds_iff. now rewrite after_b, isin_opt1.
        -- now replace (i + 1)%nat with (S i + 0)%nat by lia.
    + destruct (IH (S i) k code c Hr H) as (c2 & R & ->). exists c2. split; [|reflexivity].
      now replace (i + S k)%nat with (S i + k)%nat by lia.
Qed.

Ltac mlits := repeat match goal with
  | |- context[N.eqb ?a ?b] => lit a; lit b;
      let v := eval vm_compute in (N.eqb a b) in change (N.eqb a b) with v
  end; cbn -[N.eqb].
Ltac mcase := repeat (mlits; try reflexivity; match goal with
  | |- context[N.eqb ?k ?x] => is_var x; destruct (N.eqb_spec k x); [subst x|]; try congruence
  | |- context[N.eqb ?x ?k] => is_var x; destruct (N.eqb_spec x k); [subst x|]; try congruence
  end); mlits; try reflexivity.
Lemma mt_local_rw : forall w, mt_local w = start_rw metaphone_beginnings w.
Proof.
  intros [|a [|b r]]; [reflexivity| |]; unfold mt_local, start_rw, metaphone_beginnings, starts_with;
    cbn [hd_error opt_is tl]; unfold isin; cbn -[N.eqb]; mcase.
Qed.
