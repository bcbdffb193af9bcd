(** * Match rating approach, any name: the code (C29), the comparison (C30), the
    exact panics (C31). *)
From Coq Require Import Permutation FinFun.
From Verif Require Import Base UnicodeM UnicodeReal Lib Helper MatchRating BaseLemmas Spec_common Spec_mra
  Lib_proofs Soundex_proofs UnicodeLemmas Cologne_proofs Caverphone_proofs DoubleMetaphone_proofs
  Mra_proofs Mra_compare_proofs Props_mra.
Local Open Scope N_scope.

(** White space and - & ' . , in any script. *)
Definition noise (u : Unicode) (c : N) : bool := isin c $ "-&'.," || is_whitespace u c.
(** What is encoded before the cut to six bytes. *)
Definition letters (u : Unicode) (s : ustr) : ustr := mra_letters (str_upper u) (noise u) s.
(** The text can be cut into three bytes, a middle and three bytes. *)
Definition cut3 (v p q : ustr) : Prop := exists m, v = p ++ m ++ q /\ blen p = 3%nat /\ blen q = 3%nat.

(** C29: the code of any name. *)
Theorem C29_code_any : forall u s,
  (mra_short u s = true -> mra_encode u s = Ok [])
  /\ (mra_short u s = false -> (blen (letters u s) <= 6)%nat -> mra_encode u s = Ok (letters u s))
  /\ (mra_short u s = false -> (6 < blen (letters u s))%nat ->
      (forall p q, cut3 (letters u s) p q -> mra_encode u s = Ok (p ++ q))
      /\ ((forall p q, ~ cut3 (letters u s) p q) -> mra_encode u s = Panic)).
Proof.
  intros u s. assert (K : mra_short u s = false -> mra_encode u s = get_first3_last3 (letters u s)).
  { intros S. unfold mra_encode. cbv zeta. unfold mra_short in S. rewrite S.
    now rewrite mra_letters_eq. }
  split; [|split].
  - intros S. unfold mra_encode. cbv zeta. unfold mra_short in S. now rewrite S.
  - intros S L. rewrite K by assumption. destruct (get_first3_last3_cases (letters u s)) as [[_ H]|[[H _]|[H _]]];
      [assumption|lia|lia].
  - intros S L. rewrite K by assumption.
    destruct (get_first3_last3_cases (letters u s)) as [[H _]|[(_ & p & m & q & E & Bp & Bq & H)|(_ & H & H2)]]; [lia|..].
    + split.
      * intros p' q' (m' & E' & Bp' & Bq'). rewrite H. rewrite E in E'.
        destruct (prefix_cut p (m ++ q) p' (m' ++ q') E') as (x & -> & E2); [lia|].
        assert (x = []) as ->. { rewrite blen_app in Bp'. destruct x as [|c x]; [reflexivity|].
          cbn [blen] in Bp'. pose proof (utf8_len_pos c). lia. }
        rewrite app_nil_r. cbn [app] in E2. do 2 f_equal.
        destruct (Nat.le_ge_cases (blen m) (blen m')) as [Q|Q].
        -- destruct (prefix_cut m q m' q' E2 Q) as (y & -> & ->). rewrite blen_app in Bq.
           destruct y as [|c y]; [reflexivity|]. cbn [blen] in Bq. pose proof (utf8_len_pos c). lia.
        -- destruct (prefix_cut m' q' m q (eq_sym E2) Q) as (y & -> & ->). rewrite blen_app in Bq'.
           destruct y as [|c y]; [reflexivity|]. cbn [blen] in Bq'. pose proof (utf8_len_pos c). lia.
      * intros N. destruct (N p q). exists m. auto.
    + split; [|intros _; exact H2]. intros p q (m & C). destruct H. exists p, m, q. exact C.
Qed.
(** So [encode] panics exactly when the cut falls inside a character. *)
Theorem C31_encode_panics : forall u s,
  mra_encode u s = Panic <->
  mra_short u s = false /\ (6 < blen (letters u s))%nat /\ forall p q, ~ cut3 (letters u s) p q.
Proof.
  intros u s. destruct (C29_code_any u s) as (A & B & C). split.
  - intros H. destruct (mra_short u s); [rewrite A in H by reflexivity; discriminate|].
    split; [reflexivity|]. destruct (Nat.le_gt_cases (blen (letters u s)) 6) as [L|L].
    + rewrite B in H by (assumption || reflexivity). discriminate.
    + split; [assumption|]. intros p q K. destruct (C eq_refl L) as [C1 _]. rewrite (C1 p q K) in H. discriminate.
  - intros (S & L & N). now apply C.
Qed.

(** Upper-casing never makes a space. *)
Definition no_new_space (u : Unicode) : Prop := forall c, In 32 (to_upper u c) -> c = 32.
Theorem C30_real_tables : no_new_space real_unicode.
Proof.
  intros c H. unfold to_upper in H. destruct (N.ltb_spec c 256) as [L|L].
  - assert (G : forallb (fun c => negb (isin 32 (to_upper real_unicode c)) || (c =? 32)) (map N.of_nat (seq 0 256)) = true)
      by (vm_compute; reflexivity).
    rewrite forallb_forall in G. assert (I : In c (map N.of_nat (seq 0 256))).
    { apply in_map_iff. exists (N.to_nat c). split; [lia|]. apply in_seq. lia. }
    apply G in I. apply orb_true_iff in I as [I|I]; [|now apply N.eqb_eq].
    unfold to_upper in I. destruct (N.ltb_spec c 256); [|lia].
    apply negb_true_iff in I. apply isin_false in I. contradiction.
  - exfalso. cbn [hi_upper real_unicode] in H. unfold case_map in H.
    destruct (special c upper_special) as [v|] eqn:S.
    + pose proof (special_In _ _ _ S) as I.
      assert (G : forallb (fun kv : N * ustr => negb (isin 32 (snd kv))) upper_special = true) by (vm_compute; reflexivity).
      rewrite forallb_forall in G. apply G in I. cbn [snd] in I. apply negb_true_iff in I. apply isin_false in I.
      contradiction.
    + destruct (find (run_has c) upper_runs) as [r|] eqn:F.
      * apply find_some in F as [F _]. destruct H as [H|[]].
        assert (G : forallb (fun r : run => let '(lo, n, st, t) := r in 32 <? t) upper_runs = true)
          by (vm_compute; reflexivity).
        rewrite forallb_forall in G. apply G in F. destruct r as [[[lo n] st] t]. cbn [run_map] in H.
        apply N.ltb_lt in F. lia.
      * destruct H as [H|[]]. lia.
Qed.
Lemma upper_no_space : forall u s, no_new_space u -> ~ In 32 s -> ~ In 32 (str_upper u s).
Proof.
  intros u s U H K. unfold str_upper in K. apply in_flat_map in K as (c & Hc & K).
  apply U in K. subst c. contradiction.
Qed.
Lemma letters_no_space : forall u s, no_new_space u -> ~ In 32 (letters u s).
Proof.
  intros u s U H. unfold letters, mra_letters in H. cbv zeta in H.
  apply (halve_incl _ _ _ (le_n _)) in H. revert H. apply upper_no_space; [assumption|].
  assert (N : forall c, In c (map unaccent (filter (fun c => negb (noise u c)) (str_upper u s))) -> c <> 32).
  { intros c Hc E. apply in_map_iff in Hc as (x & Ex & Hx). apply filter_In in Hx as [_ Hx].
    assert (P : mra_keep u (plain x) = true).
    { apply plain_keep. unfold mra_keep. unfold noise in Hx. now rewrite negb_orb in Hx. }
    rewrite plain_unaccent, Ex, E in P. vm_compute in P. discriminate. }
  destruct (map unaccent _) as [|x r]; [intros []|]. intros [->|H]; [apply (N 32); [now left|reflexivity]|].
  apply filter_In in H as [H _]. apply (N 32); [now right|reflexivity].
Qed.
Lemma code_no_space : forall u s r, no_new_space u -> mra_encode u s = Ok r -> ~ In 32 r.
Proof.
  intros u s r U H. destruct (C29_code_any u s) as (A & B & C). destruct (mra_short u s).
  - rewrite A in H by reflexivity. injection H as <-. intros [].
  - pose proof (letters_no_space u s U) as L.
    destruct (Nat.le_gt_cases (blen (letters u s)) 6) as [Q|Q].
    + rewrite B in H by (assumption || reflexivity). now injection H as <-.
    + destruct (get_first3_last3_cases (letters u s)) as [[K _]|[(_ & p & m & q & E & Bp & Bq & _)|(_ & K & _)]]; [lia|..].
      * rewrite (proj1 (C eq_refl Q) p q) in H by (exists m; auto). injection H as <-.
        intros K. apply L. rewrite E. apply in_or_app. apply in_app_or in K as [K|K]; [now left|right].
        apply in_or_app. now right.
      * rewrite (proj2 (C eq_refl Q)) in H by (intros p q (m & K2); apply K; exists p, m, q; exact K2). discriminate.
Qed.

(** The first steps of the comparison. *)
Lemma compare_codes : forall p u a b, mra_short u a = false -> mra_short u b = false -> a <> b ->
  mra_is_encoded_equals p u a b
  = (ca <- mra_encode u a ;; cb <- mra_encode u b ;;
     if Nat.leb 3 (abs_diff (blen ca) (blen cb)) then Ok false
     else r <- mra_rate p ca cb ;; Ok (Nat.leb (mra_threshold (blen ca + blen cb)) r)).
Proof.
  intros p u a b Sa Sb Hab. unfold mra_is_encoded_equals. cbv zeta. unfold mra_short in *.
  apply orb_false_iff in Sa as [-> ->]. apply orb_false_iff in Sb as [-> ->]. cbn [orb].
  destruct (seq_eqb a b) eqn:E; [apply seq_eqb_eq in E; contradiction|]. reflexivity.
Qed.

(** C30: the decision for two different names whose codes are not empty: false if
    the lengths of the codes differ by three or more, else the rating is compared
    with the threshold. *)
Theorem C30_decision : forall p u a b ca cb, no_new_space u ->
  mra_short u a = false -> mra_short u b = false -> a <> b ->
  mra_encode u a = Ok ca -> mra_encode u b = Ok cb -> ca <> [] -> cb <> [] ->
  mra_is_encoded_equals p u a b
  = Ok (if Nat.leb 3 ((blen ca - blen cb) + (blen cb - blen ca)) then false
        else Nat.leb (mra_threshold (blen ca + blen cb)) (mra_rating ca cb)).
Proof.
  intros p u a b ca cb U Sa Sb Hab Ea Eb Na Nb. rewrite compare_codes by assumption.
  rewrite Ea, Eb. cbn [bind]. unfold abs_diff. destruct (Nat.leb 3 _); [reflexivity|].
  rewrite mra_rate_struck; [reflexivity|assumption|assumption|..].
  - eapply C29_at_most_six_bytes; eassumption.
  - eapply C29_at_most_six_bytes; eassumption.
  - eapply code_no_space; eassumption.
  - eapply code_no_space; eassumption.
Qed.
(** For ASCII names no hypothesis on the tables is needed, and the codes are
    [mra_code]. *)
Theorem C30_decision_ascii : forall p u a b, ascii_str a -> ascii_str b ->
  mra_short u a = false -> mra_short u b = false -> a <> b ->
  mra_code a <> [] -> mra_code b <> [] ->
  let la := length (mra_code a) in let lb := length (mra_code b) in
  mra_is_encoded_equals p u a b
  = Ok (if Nat.leb 3 ((la - lb) + (lb - la)) then false
        else Nat.leb (mra_threshold (la + lb))
               (6 - (Nat.max la lb - length (struck (mra_code a) (mra_code b) (Nat.min la lb))))).
Proof.
  intros p u a b Aa Ab Sa Sb Hab Na Nb la lb.
  assert (Code : forall s, ascii_str s -> mra_short u s = false -> mra_encode u s = Ok (mra_code s)).
  { intros s A S. unfold mra_encode. cbv zeta. unfold mra_short in S. rewrite S. now apply mra_pipeline_ascii. }
  assert (Asc : forall s, ascii_str s -> ascii_str (mra_code s)).
  { intros s A c Hc. now apply mra_code_clean in Hc as [Hc _]. }
  assert (Sp : forall s, ascii_str s -> ~ In 32 (mra_code s)).
  { intros s A Hc. apply mra_code_clean in Hc as (_ & H & _); [|assumption]. vm_compute in H. discriminate. }
  rewrite compare_codes by assumption. rewrite !Code by assumption. cbn [bind].
  assert (Six : forall s, (blen (mra_code s) <= 6)%nat -> True) by trivial.
  rewrite !(ascii_blen (mra_code _)) by (now apply Asc). fold la lb. unfold abs_diff.
  destruct (Nat.leb 3 _); [reflexivity|].
  rewrite mra_rate_struck; [|assumption|assumption|..].
  - cbn [bind]. unfold mra_rating. rewrite !(ascii_blen (mra_code _)) by (now apply Asc). fold la lb.
    replace (struck_bytes (mra_code a) (struck (mra_code a) (mra_code b) (Nat.min la lb)))
      with (length (struck (mra_code a) (mra_code b) (Nat.min la lb))); [reflexivity|].
    pose proof (Asc a Aa) as A. set (x := mra_code a) in *. set (y := mra_code b) in *. clearbody x y.
    assert (G : forall k, length (struck x y k) = struck_bytes x (struck x y k)).
    { assert (St : forall q l, length l = struck_bytes x l ->
                length (strike x y q l) = struck_bytes x (strike x y q l)).
      { intros q l IH. unfold strike. destruct (free l q && same_char x y q) eqn:E; [|assumption].
        apply andb_true_iff in E as [_ E]. unfold same_char in E. cbn [length struck_bytes]. rewrite IH.
        destruct (nth_error x (fst q)) as [c|] eqn:Q; [|discriminate].
        apply nth_error_In in Q. rewrite (ascii_utf8_len c) by (now apply A). reflexivity. }
      induction k as [|k IH]; [reflexivity|]. cbn [struck]. now do 2 apply St. }
    apply G.
  - rewrite ascii_blen by (now apply Asc). apply first3_length.
  - rewrite ascii_blen by (now apply Asc). apply first3_length.
  - now apply Sp.
  - now apply Sp.
Qed.

Lemma encode_not_nofuel : forall u s, mra_encode u s <> NoFuel.
Proof.
  intros u s. destruct (C29_code_any u s) as (A & B & C). destruct (mra_short u s).
  - rewrite A by reflexivity. discriminate.
  - destruct (Nat.le_gt_cases (blen (letters u s)) 6) as [Q|Q]; [rewrite B by (assumption || reflexivity); discriminate|].
    destruct (get_first3_last3_cases (letters u s)) as [[K _]|[(_ & p & m & q & E & Bp & Bq & _)|(_ & K & _)]]; [lia|..].
    + rewrite (proj1 (C eq_refl Q) p q) by (exists m; auto). discriminate.
    + rewrite (proj2 (C eq_refl Q)) by (intros p q (m & K2); apply K; exists p, m, q; exact K2). discriminate.
Qed.
(** C31: when the comparison panics, exactly, in both build profiles. *)
Theorem C31_compare_panics_checked : forall u a b,
  mra_is_encoded_equals Checked u a b = Panic <->
  mra_short u a = false /\ mra_short u b = false /\ a <> b
  /\ (mra_encode u a = Panic \/ mra_encode u b = Panic
      \/ exists ca cb, mra_encode u a = Ok ca /\ mra_encode u b = Ok cb
         /\ (ca = [] \/ cb = []) /\ (blen ca < 3)%nat /\ (blen cb < 3)%nat).
Proof.
  intros u a b.
  destruct (mra_short u a) eqn:Sa.
  { rewrite C30_blank_or_single_is_false by auto. split; [discriminate|intros (? & _); discriminate]. }
  destruct (mra_short u b) eqn:Sb.
  { rewrite C30_blank_or_single_is_false by auto. split; [discriminate|intros (_ & ? & _); discriminate]. }
  destruct (list_eq_dec N.eq_dec a b) as [->|Hab].
  { rewrite C30_reflexive by assumption. split; [discriminate|intros (_ & _ & H & _); now destruct H]. }
  rewrite compare_codes by assumption.
  destruct (mra_encode u a) as [ca| |] eqn:Ea; cbn [bind].
  2: split; [intros _; split; [reflexivity|]; split; [reflexivity|]; split; [assumption|now left]|reflexivity].
  2: now destruct (encode_not_nofuel u a).
  destruct (mra_encode u b) as [cb| |] eqn:Eb; cbn [bind].
  2: split; [intros _; split; [reflexivity|]; split; [reflexivity|]; split; [assumption|right; now left]|reflexivity].
  2: now destruct (encode_not_nofuel u b).
  assert (Z : forall c, blen c = 0%nat -> c = []).
  { intros [|x c] H; [reflexivity|]. cbn [blen] in H. pose proof (utf8_len_pos x). lia. }
  assert (R : (exists ca0 cb0, Ok ca = Ok ca0 /\ Ok cb = Ok cb0 /\ (ca0 = [] \/ cb0 = [])
               /\ (blen ca0 < 3)%nat /\ (blen cb0 < 3)%nat)
              <-> (ca = [] \/ cb = []) /\ (blen ca < 3)%nat /\ (blen cb < 3)%nat).
  { split; [intros (x & y & Ex & Ey & H); injection Ex as <-; injection Ey as <-; assumption|intros H; exists ca, cb; auto]. }
  unfold abs_diff. destruct (Nat.leb 3 _) eqn:D; [apply Nat.leb_le in D|apply Nat.leb_gt in D].
  - split; [discriminate|]. intros (_ & _ & _ & [H|[H|H]]); [discriminate|discriminate|].
    apply R in H as ([-> | ->] & ? & ?); cbn [blen] in *; lia.
  - split.
    + intros H. split; [reflexivity|]. split; [reflexivity|]. split; [assumption|]. right. right. apply R.
      assert (E : ca = [] \/ cb = []).
      { destruct ca as [|x ca]; [now left|]. destruct cb as [|y cb]; [now right|].
        destruct (mra_rate_ok Checked (x :: ca) (y :: cb)) as [r Er]; [discriminate|discriminate|].
        rewrite Er in H. discriminate. }
      split; [assumption|]. destruct E as [-> | ->]; cbn [blen] in *; lia.
    + intros (_ & _ & _ & [H|[H|H]]); [discriminate|discriminate|]. apply R in H as ([-> | ->] & _ & _);
        [destruct cb; reflexivity|]. destruct ca; reflexivity.
Qed.
(** Without overflow checks an empty first code is compared (with the wrapped
    length) and an empty second code panics. *)
Theorem C31_compare_release : forall u a b ca cb, no_new_space u ->
  mra_short u a = false -> mra_short u b = false -> a <> b ->
  mra_encode u a = Ok ca -> mra_encode u b = Ok cb -> (blen ca < 3)%nat -> (blen cb < 3)%nat ->
  (ca = [] -> mra_is_encoded_equals Wrapping u a b = Ok (Nat.leb (blen cb) 1))
  /\ (ca <> [] -> cb = [] -> mra_is_encoded_equals Wrapping u a b = Panic).
Proof.
  intros u a b ca cb U Sa Sb Hab Ea Eb La Lb. rewrite compare_codes by assumption. rewrite Ea, Eb. cbn [bind].
  unfold abs_diff. destruct (Nat.leb 3 _) eqn:D; [apply Nat.leb_le in D; lia|].
  pose proof (code_no_space u b cb U Eb) as H32. split.
  - intros ->. replace (mra_rate Wrapping [] cb) with (Ok (mra_count [] cb)) by (destruct cb; reflexivity).
    cbn [bind blen Nat.add]. f_equal. unfold mra_count. cbn [filter blen]. rewrite filter_id
      by (intros c Hc; apply negb_true_iff; apply N.eqb_neq; intros ->; contradiction).
    replace (mra_threshold (blen cb)) with 5%nat
      by (unfold mra_threshold; destruct (Nat.leb (blen cb) 4) eqn:Q; [reflexivity|apply Nat.leb_gt in Q; lia]).
    unfold abs_diff. destruct (blen cb) as [|[|[|n]]]; [reflexivity..|lia].
  - intros H ->. destruct ca; [congruence|]. reflexivity.
Qed.

(** A concrete case of unequal lengths: SMTH and SMTHRN, ABC and XABC (matched from the
    right); "--" and "a." in a debug build panic; a non-ASCII name that panics and one
    that does not. *)
Example C30_decision_nonvacuous :
  mra_code $ "Smith" = $ "SMTH" /\ mra_code $ "Smithern" = $ "SMTHRN"
  /\ struck $ "SMTH" $ "SMTHRN" 4 = [(3, 3); (2, 2); (1, 1); (0, 0)]%nat
  /\ mra_is_encoded_equals Checked real_unicode $ "Smith" $ "Smithern" = Ok true
  /\ struck $ "ABC" $ "XABC" 3 = [(0, 1); (1, 2); (2, 3)]%nat
  /\ mra_is_encoded_equals Checked real_unicode $ "Smith" $ "Smithernsky" = Ok true
  /\ mra_is_encoded_equals Checked real_unicode $ "Sm" $ "Smithern" = Ok false.
Proof. repeat split; vm_compute; reflexivity. Qed.
Example C31_any_nonvacuous :
  mra_is_encoded_equals Checked real_unicode $ "--" $ "a." = Panic
  /\ mra_is_encoded_equals Wrapping real_unicode $ "--" $ "a." = Ok true
  /\ mra_is_encoded_equals Wrapping real_unicode $ "a." $ "--" = Panic
  /\ mra_encode real_unicode $ "éøøø" = Panic
  /\ mra_encode real_unicode $ "Øystein Ångström" = Ok $ "ØYTRM"
  /\ mra_encode real_unicode $ "Ångström-Öst" = Ok $ "ANGMST".
Proof. repeat split; vm_compute; reflexivity. Qed.

(** C30: two names with one (non-empty) code are equal; in particular two names that
    differ in the case of ASCII letters only, whatever their other characters. *)
Lemma struck_self : forall c k, (k <= length c)%nat ->
  NoDup (struck c c k) /\ (forall p, In p (struck c c k) -> fst p = snd p /\ (fst p < length c)%nat)
  /\ (forall i, (i < k)%nat -> In (i, i) (struck c c k)).
Proof.
  intros c. assert (St : forall j l, (j < length c)%nat -> NoDup l ->
    (forall p, In p l -> fst p = snd p /\ (fst p < length c)%nat) ->
    NoDup (strike c c (j, j) l) /\ (forall p, In p (strike c c (j, j) l) -> fst p = snd p /\ (fst p < length c)%nat)
    /\ In (j, j) (strike c c (j, j) l) /\ incl l (strike c c (j, j) l)).
  { intros j l Hj N D. unfold strike.
    assert (Sm : same_char c c (j, j) = true).
    { unfold same_char. cbn [fst snd]. destruct (nth_error c j) eqn:E; [apply N.eqb_refl|].
      apply nth_error_None in E. lia. }
    rewrite Sm, andb_true_r. destruct (free l (j, j)) eqn:F.
    - repeat split.
      + constructor; [|assumption]. intros I. unfold free in F. apply negb_true_iff in F.
        assert (T : existsb (fun q => Nat.eqb (fst q) (fst (j, j)) || Nat.eqb (snd q) (snd (j, j))) l = true)
          by (apply existsb_exists; exists (j, j); split; [assumption|]; cbn [fst]; now rewrite Nat.eqb_refl).
        congruence.
      + destruct H as [<-|H]; [reflexivity|now apply D].
      + destruct H as [<-|H]; [assumption|now apply D].
      + now left.
      + intros x I. now right.
    - split; [assumption|]. split; [assumption|]. split; [|apply incl_refl].
      unfold free in F. apply negb_false_iff, existsb_exists in F as (q & I & Q). cbn [fst snd] in Q.
      destruct (D q I) as [E _]. assert (q = (j, j)) as <-; [|assumption].
      destruct q as [x y]. cbn [fst snd] in *. apply orb_true_iff in Q. rewrite !Nat.eqb_eq in Q.
      f_equal; lia. }
  induction k as [|k IH]; intros Hk.
  - cbn. repeat split; [constructor|destruct H|destruct H|intros i Hi; lia].
  - destruct IH as (N & D & A); [lia|]. cbn [struck].
    destruct (St k _ ltac:(lia) N D) as (N1 & D1 & I1 & J1).
    destruct (St (length c - 1 - k)%nat _ ltac:(lia) N1 D1) as (N2 & D2 & _ & J2).
    split; [exact N2|]. split; [exact D2|]. intros i Hi. apply J2.
    destruct (Nat.eq_dec i k) as [->|Hn]; [assumption|]. apply J1, A. lia.
Qed.
Lemma struck_bytes_perm : forall a l l', Permutation l l' -> struck_bytes a l = struck_bytes a l'.
Proof. intros a l l' P. induction P; cbn [struck_bytes]; lia. Qed.
Lemma struck_bytes_all : forall c pre, struck_bytes (pre ++ c) (map (fun i => (i, i)) (seq (length pre) (length c))) = blen c.
Proof.
  induction c as [|x c IH]; intros pre; [reflexivity|]. cbn [length seq map struck_bytes fst].
  rewrite nth_error_app2 by lia. rewrite Nat.sub_diag. cbn [nth_error].
  specialize (IH (pre ++ [x])). rewrite <- app_assoc in IH. cbn [app] in IH.
  rewrite app_length in IH. cbn [length] in IH. rewrite Nat.add_1_r in IH. rewrite IH. reflexivity.
Qed.
Lemma rating_self : forall c, mra_rating c c = 6%nat.
Proof.
  intros c. unfold mra_rating. rewrite !Nat.max_id, Nat.min_id.
  destruct (struck_self c (length c) (le_n _)) as (N & D & A).
  rewrite (struck_bytes_perm c _ (map (fun i => (i, i)) (seq 0 (length c)))).
  - pose proof (struck_bytes_all c []) as E. cbn [length app] in E. rewrite E. lia.
  - apply NoDup_Permutation; [assumption| |].
    + apply FinFun.Injective_map_NoDup; [|apply seq_NoDup]. intros x y E. congruence.
    + intros [x y]. split.
      * intros I. destruct (D _ I) as [E L]. cbn [fst snd] in E, L. subst y. apply in_map_iff.
        exists x. split; [reflexivity|]. apply in_seq. lia.
      * intros I. apply in_map_iff in I as (i & E & L). apply in_seq in L. injection E as <- <-. apply A. lia.
Qed.
Theorem C30_same_code : forall p u a b code, no_new_space u ->
  mra_short u a = false -> mra_short u b = false ->
  mra_encode u a = Ok code -> mra_encode u b = Ok code -> code <> [] ->
  mra_is_encoded_equals p u a b = Ok true.
Proof.
  intros p u a b code U Sa Sb Ea Eb Hc. destruct (list_eq_dec N.eq_dec a b) as [<-|Hab]; [now apply C30_reflexive|].
  rewrite (C30_decision p u a b code code) by assumption. f_equal. rewrite Nat.sub_diag. cbn [Nat.add Nat.leb].
  rewrite rating_self. apply Nat.leb_le. unfold mra_threshold.
  repeat destruct (Nat.leb _ _); try destruct (Nat.eqb _ _); lia.
Qed.
Theorem C30_same_up_to_case_any : forall p u a b code, no_new_space u ->
  mra_short u a = false -> map ascii_up a = map ascii_up b ->
  mra_encode u a = Ok code -> code <> [] -> mra_is_encoded_equals p u a b = Ok true.
Proof.
  intros p u a b code U Sa E Ea Hc.
  assert (Up : forall s, blen (map ascii_up s) = blen s).
  { induction s as [|x s IH]; [reflexivity|]. cbn [map blen]. rewrite IH. f_equal.
    destruct (ascii_up_cases x) as [[H ->]|[_ ->]]; [|reflexivity]. unfold utf8_len.
    destruct (N.ltb_spec (x - 32) 128); destruct (N.ltb_spec x 128); lia. }
  assert (Sb : mra_short u b = false).
  { unfold mra_short in *.
    assert (T : map ascii_up (trim u a) = map ascii_up (trim u b)) by (rewrite <- !trim_up; now rewrite E).
    assert (B : blen (trim u a) = blen (trim u b)) by (rewrite <- (Up (trim u a)), <- (Up (trim u b)); now rewrite T).
    assert (L : length (trim u a) = length (trim u b))
      by (rewrite <- (map_length ascii_up (trim u a)), <- (map_length ascii_up (trim u b)); now rewrite T).
    rewrite <- B, <- ?L. exact Sa. }
  apply (C30_same_code p u a b code); try assumption.
  rewrite <- C29_ascii_case, <- E, C29_ascii_case. assumption.
Qed.
Example C30_same_nonvacuous :
  mra_encode real_unicode $ "Øystein" = Ok $ "ØYSTN" /\ mra_encode real_unicode $ "Øy-stéin" = Ok $ "ØYSTN"
  /\ mra_is_encoded_equals Checked real_unicode $ "Øystein" $ "ØySTEIN" = Ok true
  /\ mra_is_encoded_equals Checked real_unicode $ "Øystein" $ "Øy-stéin" = Ok true.
Proof. repeat split; vm_compute; reflexivity. Qed.

Print Assumptions C30_same_code. Print Assumptions C30_same_up_to_case_any.
Print Assumptions C29_code_any. Print Assumptions C31_encode_panics. Print Assumptions C30_decision.
Print Assumptions C30_decision_ascii. Print Assumptions C31_compare_panics_checked.
Print Assumptions C31_compare_release. Print Assumptions C30_real_tables.
