(** * Exactly when Metaphone panics. *)
From Verif Require Import Base UnicodeM Lib Helper Metaphone BaseLemmas Spec_common Spec_rewrite Spec_contextual
  Spec_metaphone Rewrite_proofs Contextual_proofs Soundex_proofs UnicodeLemmas Cologne_proofs Metaphone_proofs
  Metaphone_spec_proofs Double_metaphone_any_proofs Metaphone_any_proofs.
Local Open Scope N_scope.

Definition inb (t : ustr) (i : nat) : bool := match split_byte i t with None => true | Some _ => false end.
Lemma inb_iff : forall t i, inb t i = true <-> inside_character t i.
Proof.
  intros t i. unfold inb, inside_character. destruct (split_byte i t) as [[a b]|] eqn:E; split.
  - discriminate.
  - intros H. apply split_byte_spec in E as [E L]. exfalso. apply (H a b E). now rewrite in_places_len.
  - intros _ a b Et L. rewrite in_places_len in L. subst i t. rewrite split_byte_app in E. discriminate.
  - reflexivity.
Qed.
Lemma region_cases : forall t i k w, plain (k :: w) = true ->
  mt_region_match t i (k :: w) =
    if Nat.leb (i + length (k :: w)) (blen t)
    then if inb t i then Panic else Ok (stands_atb (in_places t) (k :: w) (Z.of_nat i))
    else Ok false.
Proof.
  intros t i k w P. pose proof (plain_ascii _ P) as A.
  destruct (mt_region_match t i (k :: w)) as [b| |] eqn:E.
  - pose proof (region_places t i k w b P E) as Eb. revert E. unfold mt_region_match, inb, slice_from.
    rewrite (ascii_blen _ A). cbn [length].
    destruct (Nat.ltb_spec (i + S (length w) - 1) (blen t)) as [L|L];
    destruct (Nat.leb_spec (i + S (length w)) (blen t)) as [M|M]; try lia.
    + destruct (split_byte i t) as [[x y]|]; cbn [bind]; [|discriminate]. intros K. now rewrite <- Eb.
    + intros K. congruence.
  - revert E. unfold mt_region_match, inb, slice_from. rewrite (ascii_blen _ A). cbn [length].
    destruct (Nat.ltb_spec (i + S (length w) - 1) (blen t)) as [L|L];
    destruct (Nat.leb_spec (i + S (length w)) (blen t)) as [M|M]; try lia; [|discriminate].
    destruct (split_byte i t) as [[x y]|]; cbn [bind]; [discriminate|reflexivity].
  - revert E. unfold mt_region_match, slice_from.
    destruct (Nat.ltb _ _); [|discriminate]. destruct (split_byte i t) as [[x y]|]; cbn [bind]; discriminate.
Qed.

Definition looksb (t : ustr) (i : nat) (c : N) : bool :=
  inb t i &&
  (((c =? # "C") && negb (holdsb t i (Both (After $ "S") (Before $ "EIY"))) && Nat.leb (i + 3) (blen t))
   || ((c =? # "G") && negb (holdsb t i First) && negb (holdsb t i (Both (Before $ "H") (Not (At 2 (letters Vowel)))))
       && Nat.leb (i + 2) (blen t))
   || (isin c $ "ST" && Nat.leb (i + 2) (blen t))).
Lemma looksb_iff : forall t i c, looksb t i c = true <-> looks_inside t i c.
Proof.
  intros t i c. unfold looksb, looks_inside. cbv zeta. rewrite in_places_len.
  rewrite andb_true_iff, !orb_true_iff, !andb_true_iff, !negb_true_iff, !Nat.leb_le, inb_iff, isin_In, !N.eqb_eq.
  rewrite <- !holds_not_iff. intuition.
Qed.

Lemma mt_symbol_panic : forall t i c, nth_error t i = Some c ->
  (forall x, In x t -> is_ascii_lower x = false) ->
  if looksb t i c then mt_symbol t (blen t) i c = Panic else exists x, mt_symbol t (blen t) i c = Ok x.
Proof.
  intros t i c Hc U. unfold looksb.
  assert (B : forall a b, holdsb t i (Both a b) = holdsb t i a && holdsb t i b) by reflexivity.
  assert (No : forall a, holdsb t i (Not a) = negb (holdsb t i a)) by reflexivity.
  rewrite !B, No, after_b, !before_b, at2_b. change (holdsb t i First) with (negb (Nat.leb 1 i)). rewrite negb_involutive.
  assert (V3 : mt_is_vowel t (i + 2) = isin_opt (n2 t i) Vowel) by (apply vowel_b; exact U).
  pose proof (last_any t i) as L0. pose proof (last1_any t i) as L1.
  unfold mt_symbol. cbv zeta.
  rewrite !prev_b, !next_b, !front1_b, V3. rewrite !isin_opt1.
  destruct (isin c $ "CGST") eqn:Z.
  2: { assert (Q : forall k, isin k $ "CGST" = true -> (c =? k) = false).
       { intros k Hk. destruct (N.eqb_spec c k) as [->|D]; [congruence|reflexivity]. }
       unfold isin at 1. cbn [existsb].
       rewrite (Q 67 eq_refl), (Q 71 eq_refl), (Q 83 eq_refl), (Q 84 eq_refl). cbn [andb orb]. rewrite andb_false_r.
       repeat match goal with |- context[if ?x then _ else _] => destruct x end; now eexists. }
  apply isin_In in Z. cbn [In] in Z.
  destruct Z as [<-|[<-|[<-|[<-|[]]]]].
  all: repeat match goal with |- context[isin ?k ?l] => lit k;
       let v := eval vm_compute in (isin k l) in change (isin k l) with v end;
    repeat match goal with |- context[N.eqb ?a ?b] => lit a; lit b;
       let v := eval vm_compute in (N.eqb a b) in change (N.eqb a b) with v end;
    cbn [andb orb]; unfold orelse; rewrite ?region_cases by reflexivity; cbn [length];
    rewrite ?orb_false_r.
  (* C *)
  - destruct (n1 t i) as [x|]; [rewrite (L0 x eq_refl)|]; cbn [negb andb];
    [|change (isin_opt None $ "EIY") with false; rewrite !andb_false_r].
    + rewrite andb_true_r. destruct (opt_is (prev t i) _ && isin_opt (Some x) _); cbn [negb andb].
      * rewrite andb_false_r. now eexists.
      * destruct (Nat.leb_spec (i + 3) (blen t)); rewrite ?andb_true_r, ?andb_false_r; cbn [bind].
        -- destruct (inb t i); [reflexivity|]. cbn [bind].
           repeat match goal with |- context[if ?x then _ else _] => destruct x end; now eexists.
        -- repeat match goal with |- context[if ?x then _ else _] => destruct x end; now eexists.
    + cbn [negb andb]. destruct (Nat.leb_spec (i + 3) (blen t)); rewrite ?andb_true_r, ?andb_false_r; cbn [bind].
        -- destruct (inb t i); [reflexivity|]. cbn [bind].
           repeat match goal with |- context[if ?x then _ else _] => destruct x end; now eexists.
        -- repeat match goal with |- context[if ?x then _ else _] => destruct x end; now eexists.
  (* G *)
  - replace ((mt_is_last_char (blen t) (i + 1) && opt_is (n1 t i) (# "H"))
          || (negb (mt_is_last_char (blen t) (i + 1)) && opt_is (n1 t i) (# "H") && negb (isin_opt (n2 t i) Vowel)))
      with (opt_is (n1 t i) (# "H") && negb (isin_opt (n2 t i) Vowel)).
    2: { destruct (n2 t i) as [y|]; [rewrite (L1 y eq_refl)|]; [reflexivity|]. cbn [isin_opt negb].
         destruct (mt_is_last_char _ (i + 1)); destruct (opt_is (n1 t i) _); reflexivity. }
    destruct (opt_is (n1 t i) _ && negb (isin_opt (n2 t i) Vowel)); cbn [negb andb bind].
    + rewrite !andb_false_r. now eexists.
    + rewrite andb_true_r. change (Nat.ltb 0 i) with (Nat.leb 1 i). destruct (Nat.leb 1 i); cbn [andb bind].
      * destruct (Nat.leb_spec (i + 2) (blen t)) as [M|M]; rewrite ?andb_true_r, ?andb_false_r; cbn [bind].
        -- destruct (inb t i); [reflexivity|]. cbn [bind]. 
           destruct (stands_atb _ _ _); cbn [bind]; [now eexists|].
           destruct (Nat.leb (i + 4) (blen t)); cbn [bind];
           repeat match goal with |- context[if ?x then _ else _] => destruct x end; now eexists.
        -- destruct (Nat.leb_spec (i + 4) (blen t)); [lia|]. cbn [bind].
           repeat match goal with |- context[if ?x then _ else _] => destruct x end; now eexists.
      * rewrite andb_false_r. repeat match goal with |- context[if ?x then _ else _] => destruct x end; now eexists.
  (* S *)
  - destruct (Nat.leb_spec (i + 2) (blen t)) as [M|M]; rewrite ?andb_true_r, ?andb_false_r; cbn [bind].
    + destruct (inb t i); [reflexivity|]. cbn [bind]. destruct (Nat.leb (i + 3) (blen t)); cbn [bind];
      repeat match goal with |- context[if ?x then _ else _] => destruct x; cbn [bind] end; now eexists.
    + destruct (Nat.leb_spec (i + 3) (blen t)); [lia|]. cbn [bind]. now eexists.
  (* T *)
  - destruct (Nat.leb_spec (i + 2) (blen t)) as [M|M]; rewrite ?andb_true_r, ?andb_false_r; cbn [bind].
    + destruct (inb t i); [|].
      * destruct (Nat.leb (i + 3) (blen t)); reflexivity.
      * cbn [bind]. destruct (Nat.leb (i + 3) (blen t)); cbn [bind];
        repeat match goal with |- context[if ?x then _ else _] => destruct x; cbn [bind] end; now eexists.
    + destruct (Nat.leb_spec (i + 3) (blen t)); [lia|]. cbn [bind]. now eexists.
Qed.

Lemma meets_lt : forall max t i n, meets max t i n -> (i < length t)%nat.
Proof. intros max t i n H. inversion H; apply nth_error_Some; congruence. Qed.

Lemma mt_loop_panics : forall t max, (forall x, In x t -> is_ascii_lower x = false) ->
  forall chars i skip code n, chars = skipn i t -> ascii_str code ->
  (match max with Some m => length code = Nat.min n m | None => True end) ->
  mt_loop max t (blen t) i skip chars code <> NoFuel /\
  (mt_loop max t (blen t) i skip chars code = Panic <-> meets max t (i + skip) n).
Proof.
  intros t max U. induction chars as [|x r IH]; intros i skip code n Hs Ac Ln.
  - split; [discriminate|]. split; [discriminate|]. intros H. apply meets_lt in H.
    assert (L : length (skipn i t) = 0%nat) by now rewrite <- Hs. rewrite skipn_length in L. lia.
  - assert (Hr : r = skipn (i + 1) t).
    { replace (i + 1)%nat with (1 + i)%nat by lia. rewrite <- skipn_skipn, <- Hs. reflexivity. }
    assert (Hx : nth_error t i = Some x) by (now rewrite nth_skipn, <- Hs).
    replace (i + 1)%nat with (S i) in Hr by lia.
    cbn [mt_loop]. destruct skip as [|k].
    2: { replace (i + S k)%nat with (S i + k)%nat by lia. now apply IH. }
    rewrite Nat.add_0_r. destruct (mt_full max code) eqn:Fu.
    { destruct max as [m|]; [|discriminate]. cbn [mt_full] in Fu. apply Nat.eqb_eq in Fu.
      rewrite ascii_blen in Fu by exact Ac. split; [discriminate|]. split; [discriminate|].
      intros H. inversion H as [j q c E R|j q c E R|j q c rr out kk E R]; subst; specialize (R _ eq_refl); lia. }
    assert (Room : forall m, max = Some m -> (n < m)%nat).
    { intros m ->. cbn [mt_full] in Fu. apply Nat.eqb_neq in Fu. rewrite ascii_blen in Fu by exact Ac. lia. }
    assert (TR : forall pushed, ascii_str pushed -> exists code', mt_truncate max (code ++ pushed) = Ok code' /\ ascii_str code'
       /\ match max with Some m => length code' = Nat.min (n + length pushed) m | None => True end).
    { intros pushed Ap. assert (A2 : ascii_str (code ++ pushed)) by (apply ascii_str_app; now split).
      destruct max as [m|]; [|now eexists]. rewrite mt_truncate_ascii by exact A2. eexists. split; [reflexivity|]. split.
      - intros y Hy. apply A2. rewrite <- (firstn_skipn m (code ++ pushed)). apply in_or_app. now left.
      - rewrite firstn_length, app_length. specialize (Room m eq_refl). lia. }
    rewrite prev_b.
    destruct ((x =? 67) || negb (opt_is (prev t i) x)) eqn:E.
    + assert (NC : x = # "C" \/ ~ holds t i (After [x])).
      { apply orb_true_iff in E as [E|E]; [left; now apply N.eqb_eq|right]. apply negb_true_iff in E.
        apply holds_not_iff. now rewrite after_b, isin_opt1. }
      assert (NC2 : x = # "C" \/ opt_is (prev t i) x = false).
      { apply orb_true_iff in E as [E|E]; [left; now apply N.eqb_eq|right]. now apply negb_true_iff in E. }
      pose proof (mt_symbol_panic t i x Hx U) as P. destruct (looksb t i x) eqn:Lb.
      * rewrite P. cbn [bind]. split; [discriminate|]. split; [intros _|reflexivity].
        apply (me_here max t i n x Hx Room NC). now apply looksb_iff.
      * destruct P as [[out k] P]. rewrite P. cbn [bind].
        destruct (TR out (mt_symbol_ascii _ _ _ _ _ _ P)) as (code' & E1 & E2 & E3). rewrite E1. cbn [bind].
        pose proof (mt_symbol_any t i x _ Hx U NC2 P) as Q.
        destruct (IH (S i) k code' (n + length out)%nat Hr E2 E3) as [I1 I2]. split; [exact I1|]. rewrite I2.
        replace (S i + k)%nat with (i + 1 + k)%nat by lia. split.
        -- intros M. apply (me_letter max t i n x (lookup_any x) out k Hx Room NC); [now apply rule_any_of_iff|now apply gives_any_iff|exact M].
        -- intros M. inversion M as [j q c Ec R Nc Lk|j q c Ec R Nc Hh Mm|j q c rr out' k' Ec R Nc Ro Gi Mm]; subst.
           ++ assert (c = x) by congruence. subst c. apply looksb_iff in Lk. congruence.
           ++ assert (c = x) by congruence. subst c. destruct NC as [NC|NC]; contradiction.
           ++ assert (c = x) by congruence. subst c. apply rule_any_of_iff in Ro. subst rr. apply gives_any_iff in Gi.
              rewrite <- Q in Gi. injection Gi as -> ->. exact Mm.
    + apply orb_false_iff in E as [E1 E2]. apply negb_false_iff in E2. cbn [bind]. apply N.eqb_neq in E1.
      assert (Af : holds t i (After [x])) by (apply holds_iff; now rewrite after_b, isin_opt1).
      destruct (TR [] ascii_str_nil) as (code' & F1 & F2 & F3). rewrite F1. cbn [bind]. cbn [length] in F3. rewrite Nat.add_0_r in F3.
      destruct (IH (S i) 0%nat code' n Hr F2 F3) as [I1 I2]. split; [exact I1|]. rewrite I2.
      replace (S i + 0)%nat with (i + 1)%nat by lia. split.
      * intros M. exact (me_repeated max t i n x Hx Room E1 Af M).
      * intros M. inversion M as [j q c Ec R Nc Lk|j q c Ec R Nc Hh Mm|j q c rr out' k' Ec R Nc Ro Gi Mm]; subst;
          assert (c = x) by congruence; subst c; try (destruct Nc; contradiction). exact Mm.
Qed.
