(** * Metaphone and doubled letters: proofs. *)
From Verif Require Import Base UnicodeM Lib Helper Metaphone BaseLemmas Spec_common Spec_rewrite Spec_contextual
  Spec_metaphone Spec_doubled Rewrite_proofs Contextual_proofs Soundex_proofs UnicodeLemmas Cologne_proofs Metaphone_proofs
  Metaphone_spec_proofs.
Local Open Scope N_scope.

(** What a letter gives, from what stands around it. *)
Definition sym (first long : bool) (p m1 m2 : option N) (c : N) : ustr * nat :=
  let last := match m1 with None => true | _ => false end in
  let out (s : ustr) := (s, 0%nat) in
  if isin c Vowel then (if first then out [c] else out [])
  else if c =? # "B" then (if isin_opt p $ "M" && last then out [] else out $ "B")
  else if c =? # "C" then
    if isin_opt p $ "S" && isin_opt m1 $ "EIY" then out []
    else if opt_is m1 (# "I") && opt_is m2 (# "A") then out $ "X"
    else if isin_opt m1 $ "EIY" then out $ "S"
    else if isin_opt p $ "S" && isin_opt m1 $ "H" then out $ "K"
    else if (first && long) && (isin_opt m1 $ "H" && isin_opt m2 Vowel) then out $ "K"
    else if isin_opt m1 $ "H" then out $ "X" else out $ "K"
  else if c =? # "D" then
    if (opt_is m1 (# "G") && opt_is m2 (# "E")) || ((opt_is m1 (# "G") && opt_is m2 (# "I")) || (opt_is m1 (# "G") && opt_is m2 (# "Y")))
    then ($ "J", 2%nat) else out $ "T"
  else if c =? # "G" then
    if isin_opt m1 $ "H" && negb (isin_opt m2 Vowel) then out []
    else if negb first && isin_opt m1 $ "N" then out []
    else if isin_opt m1 $ "EIY" then out $ "J" else out $ "K"
  else if c =? # "H" then
    if isin_opt p $ "CSPTG" then out [] else if isin_opt m1 Vowel then out $ "H" else out []
  else if isin c $ "FJLMNR" then out [c]
  else if c =? # "K" then (if isin_opt p $ "C" then out [] else out $ "K")
  else if c =? # "P" then (if isin_opt m1 $ "H" then out $ "F" else out $ "P")
  else if c =? # "Q" then out $ "K"
  else if c =? # "S" then
    if opt_is m1 (# "H") || ((opt_is m1 (# "I") && opt_is m2 (# "O")) || (opt_is m1 (# "I") && opt_is m2 (# "A")))
    then out $ "X" else out $ "S"
  else if c =? # "T" then
    if (opt_is m1 (# "I") && opt_is m2 (# "O")) || (opt_is m1 (# "I") && opt_is m2 (# "A")) then out $ "X"
    else if opt_is m1 (# "C") && opt_is m2 (# "H") then out []
    else if isin_opt m1 $ "H" then out $ "0" else out $ "T"
  else if c =? # "V" then out $ "F"
  else if isin c $ "WY" then (if isin_opt m1 Vowel then out [c] else out [])
  else if c =? # "X" then out $ "KS"
  else if c =? # "Z" then out $ "S"
  else out [].
Lemma run_sym : forall t i c, nth_error t i = Some c ->
  run t i (lookup metaphone_table silent c) = sym (Nat.eqb i 0) (Nat.leb 4 (length t)) (prev t i) (n1 t i) (n2 t i) c.
Proof.
  intros t i c Hc.
  assert (F : holdsb t i First = Nat.eqb i 0) by (cbn; now destruct i).
  assert (L : holdsb t i Last = match n1 t i with None => true | Some _ => false end).
  { rewrite <- (last_b t i c Hc). cbn. unfold mt_is_last_char. rewrite Nat.add_0_r. apply Nat.eqb_sym. }
  assert (LG : holdsb t i (Long 4) = Nat.leb 4 (length t)) by reflexivity.
  pose proof (after_b t i) as AB. pose proof (before_b t i) as BB. pose proof (at2_b t i) as A2.
  assert (S2 : forall ws, holdsb t i (Next ws) = existsb (fun w => stands_atb t w (Z.of_nat i + 1)) ws) by reflexivity.
  assert (S1 : forall x, stands_atb t [x] (Z.of_nat i + 1) = opt_is (n1 t i) x) by apply stands1.
  assert (SS : forall x y, stands_atb t [x; y] (Z.of_nat i + 1) = opt_is (n1 t i) x && opt_is (n2 t i) y)
    by (apply (stands2 t i c Hc)).
  assert (B : forall a b, holdsb t i (Both a b) = holdsb t i a && holdsb t i b) by reflexivity.
  assert (No : forall a, holdsb t i (Not a) = negb (holdsb t i a)) by reflexivity.
  destruct (isin c AZ) eqn:Z.
  2: { assert (Q : forall k, isin k AZ = true -> (c =? k) = false).
       { intros k Hk. destruct (N.eqb_spec c k) as [->|D]; [congruence|reflexivity]. }
       unfold sym, lookup, metaphone_table. cbv zeta. cbn [find fst Vowel].
       unfold isin, Vowel. cbn [existsb]. rewrite !Q by reflexivity. reflexivity. }
  apply isin_In in Z. cbn [In] in Z.
  repeat (destruct Z as [<-|Z]; [
    unfold lookup, metaphone_table; cbn [find fst snd]; unfold Vowel at 1;
    cbv [isin existsb N.eqb Pos.eqb orb]; cbn [run says silent];
    rewrite ?B, ?No, ?F, ?L, ?LG, ?AB, ?BB, ?A2, ?S2; cbn [existsb]; rewrite ?S1, ?SS, ?orb_false_r;
    unfold sym; cbv [isin existsb N.eqb Pos.eqb orb Vowel]; reflexivity|]). destruct Z.
Qed.

Section Doubled.
Variables (a b : ustr) (c : N).
Hypothesis Hc : In c $ "FJLMNQRVZ".
Let t1 := a ++ c :: b.
Let t2 := a ++ c :: c :: b.
Let k := length a.
Lemma nth_low : forall j, (j <= k)%nat -> nth_error t2 j = nth_error t1 j.
Proof.
  intros j H. unfold t1, t2, k in *. destruct (Nat.eq_dec j (length a)) as [->|D].
  - rewrite !nth_error_app2 by lia. now rewrite Nat.sub_diag.
  - now rewrite !nth_error_app1 by lia.
Qed.
Lemma nth_high : forall j, (k <= j)%nat -> nth_error t2 (j + 1) = nth_error t1 j.
Proof.
  intros j H. unfold t1, t2, k in *. rewrite !nth_error_app2 by lia.
  replace (j + 1 - length a)%nat with (S (j - length a)) by lia. reflexivity.
Qed.
Lemma nth_k : nth_error t1 k = Some c.
Proof. unfold t1, k. rewrite nth_error_app2, Nat.sub_diag by lia. reflexivity. Qed.
Lemma len2 : length t2 = S (length t1).
Proof. unfold t1, t2. rewrite !app_length. cbn. lia. Qed.
Lemma len1 : (k < length t1)%nat.
Proof. unfold t1, k. rewrite app_length. cbn. lia. Qed.
Lemma prev_low : forall i, (i <= k)%nat -> prev t2 i = prev t1 i.
Proof. intros i H. unfold prev. destruct (Nat.ltb 0 i); [|reflexivity]. apply nth_low. lia. Qed.
Lemma prev_high : forall i, (k < i)%nat -> prev t2 (i + 1) = prev t1 i.
Proof.
  intros i H. unfold prev. replace (Nat.ltb 0 (i + 1)) with true by (symmetry; apply Nat.ltb_lt; lia).
  replace (Nat.ltb 0 i) with true by (symmetry; apply Nat.ltb_lt; lia).
  replace (i + 1 - 1)%nat with (i - 1 + 1)%nat by lia. apply nth_high. lia.
Qed.
Ltac letters_c := cbn in Hc; repeat (destruct Hc as [<-|Hc]; [|]); try destruct Hc.
(** Before a letter of [Hc] nothing depends on what comes after it. *)
Lemma sym_before : forall f l l' p m2 m2' x, sym f l p (Some c) m2 x = sym f l' p (Some c) m2' x.
Proof.
  intros f l l' p m2 m2' x. cbn in Hc.
  repeat (destruct Hc as [<-|Hc']; [unfold sym; cbv [isin_opt opt_is isin existsb N.eqb Pos.eqb orb andb Vowel];
    repeat match goal with |- context[if ?x then _ else _] => destruct x end; reflexivity|clear Hc; rename Hc' into Hc]).
  destruct Hc.
Qed.
Lemma sym_long : forall f l l' p m1 m2 x, ~ (x = # "C" /\ f = true /\ m1 = Some (# "H") /\ isin_opt m2 Vowel = true) ->
  sym f l p m1 m2 x = sym f l' p m1 m2 x.
Proof.
  intros f l l' p m1 m2 x H. unfold sym. destruct (x =? # "C") eqn:E; [|reflexivity]. apply N.eqb_eq in E. subst x.
  destruct f; [|reflexivity]. destruct (isin_opt m2 Vowel); [|now rewrite !andb_false_r].
  destruct (isin_opt m1 $ "H") eqn:K; [|now rewrite !andb_false_r]. exfalso. apply H. repeat split.
  destruct m1 as [y|]; [|discriminate]. cbn in K. destruct (N.eqb_spec y 72) as [->|]; [reflexivity|discriminate].
Qed.
Lemma sym_skip : forall f l p m1 m2 x out j, sym f l p m1 m2 x = (out, j) ->
  j = 0%nat \/ (j = 2%nat /\ m1 = Some (# "G") /\ exists y, m2 = Some y /\ In y $ "EIY").
Proof.
  intros f l p m1 m2 x out j H. unfold sym in H. cbv zeta in H.
  repeat match type of H with (if ?e then _ else _) = _ => destruct e eqn:? end;
  try (injection H as _ <-; now left).
  right. injection H as _ <-. split; [reflexivity|].
  repeat match goal with K : (_ || _) = true |- _ => apply orb_true_iff in K as [K|K] end;
  match goal with K : opt_is m1 _ && opt_is m2 _ = true |- _ => apply andb_true_iff in K as [K1 K2];
     destruct m1 as [g|]; [|discriminate]; destruct m2 as [y|]; [|discriminate]; cbn in K1, K2;
     apply N.eqb_eq in K1; apply N.eqb_eq in K2; subst end;
  (split; [reflexivity|]; eexists; split; [reflexivity|]; cbn; tauto).
Qed.
Lemma sym_c : exists o, forall f l p m1 m2, sym f l p m1 m2 c = (o, 0%nat).
Proof. cbn in Hc. repeat (destruct Hc as [<-|Hc']; [eexists; reflexivity|clear Hc; rename Hc' into Hc]). destruct Hc. Qed.
Definition same_sym i i' x := sym (Nat.eqb i 0) (Nat.leb 4 (length t1)) (prev t1 i) (n1 t1 i) (n2 t1 i) x
  = sym (Nat.eqb i' 0) (Nat.leb 4 (length t2)) (prev t2 i') (n1 t2 i') (n2 t2 i') x.
Lemma sym_low : forall i x, (i < k)%nat -> nth_error t1 i = Some x -> same_sym i i x.
Proof.
  intros i x H X. unfold same_sym. rewrite (prev_low i) by lia.
  assert (E1 : n1 t2 i = n1 t1 i) by (apply nth_low; lia). rewrite E1.
  destruct (Nat.eq_dec (i + 1) k) as [D|D].
  - unfold n1. rewrite D, nth_k. apply sym_before.
  - assert (E2 : n2 t2 i = n2 t1 i) by (apply nth_low; lia). rewrite E2.
    destruct (Nat.leb_spec 4 (length t1)) as [G|G].
    + replace (Nat.leb 4 (length t2)) with true; [reflexivity|]. symmetry. apply Nat.leb_le. rewrite len2. lia.
    + apply sym_long. intros (-> & F & N1 & N2). apply Nat.eqb_eq in F. subst i. pose proof len1.
      assert (k = 2%nat) as K by lia. unfold n2 in N2. cbn [Nat.add] in N2. rewrite <- K, nth_k in N2. cbn [isin_opt] in N2.
      clear - N2 Hc. cbn in Hc. repeat (destruct Hc as [<-|Hc']; [discriminate N2|clear Hc; rename Hc' into Hc]). destruct Hc.
Qed.
Lemma sym_high : forall i x, (k < i)%nat -> same_sym i (i + 1) x.
Proof.
  intros i x H. unfold same_sym. rewrite prev_high by assumption.
  assert (E1 : n1 t2 (i + 1) = n1 t1 i) by (apply nth_high; lia).
  assert (E2 : n2 t2 (i + 1) = n2 t1 i). { unfold n2. replace (i + 1 + 2)%nat with (i + 2 + 1)%nat by lia. apply nth_high. lia. }
  rewrite E1, E2. replace (Nat.eqb i 0) with false by (symmetry; apply Nat.eqb_neq; lia).
  replace (Nat.eqb (i + 1) 0) with false by (symmetry; apply Nat.eqb_neq; lia). apply sym_long. intuition discriminate.
Qed.
Lemma after_iff : forall t i x, holds t i (After [x]) <-> prev t i = Some x.
Proof.
  intros t i x. rewrite <- holds_iff, after_b, isin_opt1. destruct (prev t i) as [y|]; cbn [opt_is]; [|split; discriminate].
  rewrite N.eqb_eq. split; [now intros ->|now intros [= ->]].
Qed.
Lemma letter_step : forall t i x out j code, nth_error t i = Some x -> (x = # "C" \/ prev t i <> Some x) ->
  sym (Nat.eqb i 0) (Nat.leb 4 (length t)) (prev t i) (n1 t i) (n2 t i) x = (out, j) ->
  reads t (i + 1 + j) code -> reads t i (out ++ code).
Proof.
  intros t i x out j code X P S R. apply (rd_letter t i x (lookup metaphone_table silent x) out j code X).
  - destruct P as [P|P]; [now left|right]. now rewrite after_iff.
  - now apply rule_of_iff; [apply metaphone_disjoint|].
  - apply gives_iff. now rewrite (run_sym t i x X), S.
  - exact R.
Qed.
Lemma letter_inv : forall t i x r out j, nth_error t i = Some x -> rule_of metaphone_table silent x r -> gives t i r (out, j) ->
  sym (Nat.eqb i 0) (Nat.leb 4 (length t)) (prev t i) (n1 t i) (n2 t i) x = (out, j).
Proof.
  intros t i x r out j X R G. apply (rule_of_iff _ _ _ _ _ metaphone_disjoint) in R. subst r. apply gives_iff in G.
  now rewrite (run_sym t i x X) in G.
Qed.
Lemma c_not_C : c <> # "C".
Proof. intros ->. cbn in Hc. intuition discriminate. Qed.
Lemma reads_doubled : forall i code, reads t1 i code ->
  ((i <= k)%nat -> reads t2 i code) /\ ((k < i)%nat -> reads t2 (i + 1) code).
Proof.
  intros i code R. induction R as [i H|i x code X C P R [IH1 IH2]|i x r out j code X C Ro G R [IH1 IH2]].
  - pose proof len1. split; [lia|]. intros _. apply rd_end. rewrite len2. lia.
  - apply after_iff in P. split; intros H.
    + destruct (Nat.eq_dec i k) as [->|D].
      * assert (Q : nth_error t2 (k + 1) = Some c) by (rewrite nth_high by lia; apply nth_k).
        rewrite nth_k in X. injection X as <-.
        apply (rd_repeated t2 k c code); [now rewrite nth_low, nth_k by lia|exact C|apply after_iff; now rewrite prev_low by lia|].
        apply (rd_repeated t2 (k + 1) c code Q C); [|apply IH2; lia].
        apply after_iff. unfold prev. replace (Nat.ltb 0 (k + 1)) with true by (symmetry; apply Nat.ltb_lt; lia).
        replace (k + 1 - 1)%nat with k by lia. now rewrite nth_low, nth_k by lia.
      * apply (rd_repeated t2 i x code); [now rewrite nth_low by lia|exact C|apply after_iff; now rewrite prev_low by lia|].
        apply IH1. lia.
    + apply (rd_repeated t2 (i + 1) x code); [now rewrite nth_high by lia|exact C|apply after_iff; now rewrite prev_high by lia|].
      apply IH2. lia.
  - pose proof (letter_inv _ _ _ _ _ _ X Ro G) as S. rewrite after_iff in C. split; intros H.
    + destruct (Nat.eq_dec i k) as [->|D].
      * rewrite nth_k in X. injection X as <-. destruct sym_c as [o SC]. rewrite SC in S. injection S as <- <-.
        apply (letter_step t2 k c o 0 code); [now rewrite nth_low, nth_k by lia|now rewrite prev_low by lia|apply SC|].
        rewrite Nat.add_0_r in *.
        apply (rd_repeated t2 (k + 1) c code); [rewrite nth_high by lia; apply nth_k|apply c_not_C| |apply IH2; lia].
        apply after_iff. unfold prev. replace (Nat.ltb 0 (k + 1)) with true by (symmetry; apply Nat.ltb_lt; lia).
        replace (k + 1 - 1)%nat with k by lia. now rewrite nth_low, nth_k by lia.
      * assert (L : (i < k)%nat) by lia. pose proof (sym_low i x L X) as E. unfold same_sym in E. rewrite S in E. symmetry in E.
        apply (letter_step t2 i x out j code); [now rewrite nth_low by lia|now rewrite prev_low by lia|exact E|].
        apply IH1. destruct (sym_skip _ _ _ _ _ _ _ _ S) as [->|(-> & N1 & y & N2 & Y)]; [lia|].
        assert (i + 1 <> k)%nat. { intros K. unfold n1 in N1. rewrite K, nth_k in N1. injection N1 as ->. cbn in Hc. intuition discriminate. }
        assert (i + 2 <> k)%nat.
        { intros K. unfold n2 in N2. rewrite K, nth_k in N2. injection N2 as ->. clear - Y Hc. cbn in Hc, Y.
          repeat (destruct Hc as [<-|Hc']; [intuition discriminate|clear Hc; rename Hc' into Hc]). destruct Hc. }
        lia.
    + pose proof (sym_high i x H) as E. unfold same_sym in E. rewrite S in E. symmetry in E.
      apply (letter_step t2 (i + 1) x out j code); [now rewrite nth_high by lia|now rewrite prev_high by lia|exact E|].
      replace (i + 1 + 1 + j)%nat with (i + 1 + j + 1)%nat by lia. apply IH2. lia.
Qed.
End Doubled.
Lemma local_doubled : forall a c b, In c $ "FJLMNQRVZ" -> exists a', mt_local (a ++ c :: b) = a' ++ c :: b /\ mt_local (a ++ c :: c :: b) = a' ++ c :: c :: b.
Proof.
  intros a c b H. destruct a as [|x a].
  - exists []. cbn [app]. cbn in H. repeat (destruct H as [<-|H]; [split; reflexivity|]). destruct H.
  - assert (HH : c =? # "H" = false). { clear - H. cbn in H. repeat (destruct H as [<-|H]; [reflexivity|]). destruct H. }
    cbn [app]. unfold mt_local. destruct a as [|y a]; cbn [app hd_error opt_is tl].
    + destruct (isin x _); [destruct (c =? # "N"); [now exists []|now exists [x]]|].
      destruct (x =? # "A"); [destruct (c =? # "E"); [now exists []|now exists [x]]|].
      destruct (x =? # "W"); [destruct (c =? # "R"); [now exists []|rewrite HH; now exists [x]]|].
      destruct (x =? # "X"); [now exists [# "S"]|now exists [x]].
    + destruct (isin x _); [destruct (y =? # "N"); [now exists (y :: a)|now exists (x :: y :: a)]|].
      destruct (x =? # "A"); [destruct (y =? # "E"); [now exists (y :: a)|now exists (x :: y :: a)]|].
      destruct (x =? # "W"); [destruct (y =? # "R"); [now exists (y :: a)|destruct (y =? # "H"); [now exists (# "W" :: a)|now exists (x :: y :: a)]]|].
      destruct (x =? # "X"); [now exists (# "S" :: y :: a)|now exists (x :: y :: a)].
Qed.
