(** * NYSIIS and doubled letters: proofs. *)
From Verif Require Import Base UnicodeM Lib Helper Nysiis BaseLemmas Spec_common Spec_doubled
  UnicodeLemmas Soundex_proofs Exchange_caverphone_proofs Exchange_nysiis_proofs.
Local Open Scope N_scope.

Definition ny_class : ustr := $ "BFGJLSWXY".
Section Doubled.
Variable c : N.
Hypothesis Cl : In c ny_class.
Lemma not_in : forall l, forallb (fun x => negb (isin x l)) ny_class = true -> ~ In c l.
Proof. intros l H. rewrite forallb_forall in H. specialize (H c Cl). now apply negb_true_iff, isin_false in H. Qed.
Lemma neq : forall x, isin x ny_class = false -> (c =? x) = false /\ (x =? c) = false.
Proof. intros x H. apply isin_false in H. split; apply N.eqb_neq; intros E; apply H; congruence. Qed.
(** Such a letter, before itself or at the end or before anything, gives itself first, or the vowel before it. *)
Lemma twice : forall p n nn, ny_transcode p c (Some c) nn = (if (c =? # "W") && ny_vowel p then [p] else [c])
  /\ (exists t, ny_transcode p c n nn = (if (c =? # "W") && ny_vowel p then [p] else c :: t) /\ ((c =? # "W") && ny_vowel p = false -> ny_transcode c c n nn = c :: t)
      /\ ((c =? # "S") && opt_is n (# "C") && opt_is nn (# "H") = false -> t = [])).
Proof.
  intros p n nn. unfold ny_class in Cl. cbn in Cl.
  destruct Cl as [<-|[<-|[<-|[<-|[<-|[<-|[<-|[<-|[<-|[]]]]]]]]]]; (split; [reflexivity|]);
    try (exists []; split; [reflexivity|split; reflexivity]).
  - unfold ny_transcode. cbn [N.eqb Pos.eqb andb ny_vowel]. change (ny_vowel 83) with false. cbn [N.eqb Pos.eqb andb].
    destruct (opt_is n 67 && opt_is nn 72) eqn:K.
    + exists $ "SS". split; [reflexivity|]. split; [reflexivity|]. intros J. discriminate J.
    + exists []. split; [reflexivity|split; reflexivity].
Qed.
Lemma here : forall x m B, ny_loop (S (S m)) x (c :: c :: B) = ny_loop (S m) x (c :: B).
Proof.
  intros x m B. cbn [ny_loop hd_error tl]. destruct (twice x (hd_error B) (hd_error B)) as [-> _].
  destruct (twice x (hd_error B) (hd_error (tl B))) as (_ & t & E1 & E2 & _). rewrite E1.
  destruct ((c =? # "W") && ny_vowel x) eqn:V.
  - cbn [length Nat.ltb Nat.leb app skipn]. rewrite N.eqb_refl. cbn [ny_loop hd_error tl]. rewrite E1; try rewrite V.
    cbn [length Nat.ltb Nat.leb app skipn]. rewrite N.eqb_refl. destruct (ny_loop m x B); reflexivity.
  - cbn [length Nat.ltb Nat.leb app skipn]. cbn [ny_loop hd_error tl]. rewrite (E2 ltac:(first [exact V|reflexivity])). cbn [length app skipn].
    match goal with |- context [if ?b then Panic else _] => destruct b end; [reflexivity|]. rewrite N.eqb_refl.
    destruct (ny_loop m c (t ++ skipn (length t) B)); reflexivity.
Qed.
Lemma loop_doubled : forall m P p B, (length P <= m)%nat -> ny_loop (S (S m)) p (P ++ c :: c :: B) = ny_loop (S m) p (P ++ c :: B).
Proof.
  induction m as [|m IH]; intros P p B L; destruct P as [|d P]; cbn [length] in L; try lia; try apply here.
  cbn [app]. 
  destruct (neq (# "V") eq_refl) as [NV _]. destruct (neq (# "N") eq_refl) as [NN _]. destruct (neq (# "C") eq_refl) as [NC _]. destruct (neq (# "H") eq_refl) as [NH _].
  assert (T : exists t, ny_transcode p d (hd_error (P ++ c :: c :: B)) (hd_error (tl (P ++ c :: c :: B))) = t /\
    ny_transcode p d (hd_error (P ++ c :: B)) (hd_error (tl (P ++ c :: B))) = t /\ (1 <= length t)%nat /\ (length t <= S (length P))%nat).
  { destruct P as [|e [|f P]]; cbn [app hd_error tl length]; unfold ny_transcode, opt_is.
    - rewrite NV, NN, NC, NH, !andb_false_r. cbn [andb].
      repeat match goal with |- context [if ?b then _ else _] => destruct b end; eexists; (split; [reflexivity|]); (split; [reflexivity|]); cbn; lia.
    - rewrite NH, !andb_false_r.
      repeat match goal with |- context [if ?b then _ else _] => destruct b end; eexists; (split; [reflexivity|]); (split; [reflexivity|]); cbn; lia.
    - repeat match goal with |- context [if ?b then _ else _] => destruct b end; eexists; (split; [reflexivity|]); (split; [reflexivity|]); cbn; lia. }
  destruct T as (t & T1 & T2 & L1 & L2). change (ny_loop (S (S (S m))) p (d :: P ++ c :: c :: B)) with
    (let t := ny_transcode p d (hd_error (P ++ c :: c :: B)) (hd_error (tl (P ++ c :: c :: B))) in
     if Nat.ltb (length (d :: P ++ c :: c :: B)) (length t) then Panic else
     match t ++ skipn (length t) (d :: P ++ c :: c :: B) with [] => Panic | x :: r => pushed <- ny_loop (S (S m)) x r ;; Ok (if p =? x then pushed else x :: pushed) end).
  change (ny_loop (S (S m)) p (d :: P ++ c :: B)) with
    (let t := ny_transcode p d (hd_error (P ++ c :: B)) (hd_error (tl (P ++ c :: B))) in
     if Nat.ltb (length (d :: P ++ c :: B)) (length t) then Panic else
     match t ++ skipn (length t) (d :: P ++ c :: B) with [] => Panic | x :: r => pushed <- ny_loop (S m) x r ;; Ok (if p =? x then pushed else x :: pushed) end).
  rewrite T1, T2. cbv zeta. clear T1 T2.
  replace (Nat.ltb (length (d :: P ++ c :: c :: B)) (length t)) with false by (symmetry; apply Nat.ltb_ge; cbn [length]; rewrite app_length; lia).
  replace (Nat.ltb (length (d :: P ++ c :: B)) (length t)) with false by (symmetry; apply Nat.ltb_ge; cbn [length]; rewrite app_length; lia).
  destruct t as [|x t]; [cbn in L1; lia|]. cbn [length app skipn] in *. rewrite !skipn_app. replace (length t - length P)%nat with 0%nat by lia. cbn [skipn].
  rewrite !app_assoc. rewrite IH; [reflexivity|]. rewrite app_length, skipn_length. lia.
Qed.

(** ** The beginning and the end *)
Lemma end_keeps : forall A B e, ~ In e $ "EIDTRN" -> ny_end (A ++ e :: B) = A ++ e :: ny_end B.
Proof.
  intros A B e H.
  assert (K : forall p, In p [$ "EE"; $ "IE"; $ "DT"; $ "RT"; $ "RD"; $ "NT"; $ "ND"] -> forall A B, ends_with (A ++ e :: B) p = ends_with B p).
  { intros p Ip A' B'. apply ends_around. intros I. apply H. cbn in Ip. repeat (destruct Ip as [<-|Ip]; [vm_compute in I |- *; tauto|]). destruct Ip. }
  unfold ny_end. rewrite (K $ "EE"), (K $ "IE") by (cbn; tauto).
  assert (M : (if ends_with B $ "EE" || ends_with B $ "IE" then ny_replace_last2 $ "Y" (A ++ e :: B) else A ++ e :: B)
    = A ++ e :: (if ends_with B $ "EE" || ends_with B $ "IE" then ny_replace_last2 $ "Y" B else B)).
  { destruct (ends_with B $ "EE" || ends_with B $ "IE") eqn:E; [|reflexivity]. apply last2_around. apply orb_true_iff in E as [E|E]; apply ends_two in E; exact E. }
  rewrite M. set (B' := if ends_with B $ "EE" || _ then _ else _). rewrite !K by (cbn; tauto).
  destruct (ends_with B' $ "DT" || ends_with B' $ "RT" || ends_with B' $ "RD" || ends_with B' $ "NT" || ends_with B' $ "ND") eqn:E; [|reflexivity].
  apply last2_around. rewrite !orb_true_iff in E. destruct E as [[[[E|E]|E]|E]|E]; apply ends_two in E; exact E.
Qed.
Lemma last2_starts : forall y s a b r, b <> y -> ny_replace_last2 [y] s = a :: b :: r -> exists r', s = a :: b :: r'.
Proof.
  intros y s a b r H E. unfold ny_replace_last2 in E. rewrite <- (firstn_skipn (length s - 2) s). destruct (firstn (length s - 2) s) as [|x [|z f]]; cbn [app] in *.
  - discriminate E.
  - injection E as _ E _. congruence.
  - injection E as -> -> _. now eexists.
Qed.
Lemma end_starts : forall s a b r, b <> # "Y" -> b <> # "D" -> ny_end s = a :: b :: r -> exists r', s = a :: b :: r'.
Proof.
  intros s a b r H1 H2 E. unfold ny_end in E.
  set (s1 := if ends_with s $ "EE" || ends_with s $ "IE" then ny_replace_last2 $ "Y" s else s) in *.
  assert (K : exists r1, s1 = a :: b :: r1).
  { destruct (ends_with s1 $ "DT" || ends_with s1 $ "RT" || ends_with s1 $ "RD" || ends_with s1 $ "NT" || ends_with s1 $ "ND"); [|now exists r].
    exact (last2_starts _ _ _ _ _ H2 E). }
  destruct K as [r1 K]. unfold s1 in K. destruct (_ || _); [|now exists r1]. exact (last2_starts _ _ _ _ _ H1 K).
Qed.
Lemma ny_replace_split : forall p to A B, ~ In c p -> ny_replace_start p to (A ++ c :: B) = ny_replace_start p to A ++ c :: B.
Proof.
  intros p to A B H. unfold ny_replace_start. rewrite strip_prefix_short by exact H. destruct (strip_prefix p A); [now rewrite <- app_assoc|reflexivity].
Qed.
(** What the first rules make of the text, the doubled letter being in it or not. *)
Lemma start_doubled : forall A B, (exists A' B', ny_start (A ++ c :: c :: B) = A' ++ c :: c :: B' /\ ny_start (A ++ c :: B) = A' ++ c :: B'
    /\ (A' = [] -> c = # "S" -> forall r, B' <> # "C" :: # "H" :: r))
  \/ (exists r, c = # "S" /\ ny_start (A ++ c :: c :: B) = $ "SSCH" ++ r /\ ny_start (A ++ c :: B) = $ "SSS" ++ r).
Proof.
  intros A B. unfold ny_start. rewrite !(ny_replace_split $ "MAC"), !(ny_replace_split $ "KN"), !(ny_replace_split $ "K") by now apply not_in.
  set (A1 := ny_replace_start $ "K" $ "C" _). clearbody A1. clear A.
  assert (E : exists A2, (if starts_with (A1 ++ c :: c :: B) $ "PH" || starts_with (A1 ++ c :: c :: B) $ "PF" then $ "FF" ++ skipn 2 (A1 ++ c :: c :: B) else A1 ++ c :: c :: B) = A2 ++ c :: c :: B
    /\ (if starts_with (A1 ++ c :: B) $ "PH" || starts_with (A1 ++ c :: B) $ "PF" then $ "FF" ++ skipn 2 (A1 ++ c :: B) else A1 ++ c :: B) = A2 ++ c :: B).
  { destruct (neq (# "P") eq_refl) as [_ NP]. destruct (neq (# "H") eq_refl) as [_ NH].
    destruct A1 as [|a [|b A1]]; cbn [app].
    - exists []. change ($ "PH") with [# "P"; # "H"]. change ($ "PF") with [# "P"; # "F"]. unfold starts_with. cbn [strip_prefix]. rewrite NP. now split.
    - change ($ "PH") with [# "P"; # "H"]. change ($ "PF") with [# "P"; # "F"]. unfold starts_with. cbn [strip_prefix]. rewrite NH.
      destruct (N.eqb_spec (# "P") a) as [<-|]; [|exists [a]; now split]. destruct (N.eqb_spec (# "F") c) as [<-|]; [|exists [# "P"]; now split].
      exists [# "F"]. split; reflexivity.
    - assert (Q : forall x y X, starts_with (a :: b :: A1 ++ X) [x; y] = starts_with (a :: b :: A1) [x; y]).
      { intros x y X. unfold starts_with. cbn [strip_prefix]. destruct (x =? a); [|reflexivity]. now destruct (y =? b). }
      rewrite !(Q (# "P") (# "H")), !(Q (# "P") (# "F")). destruct (_ || _).
      + exists ($ "FF" ++ A1). split; reflexivity.
      + exists (a :: b :: A1). split; reflexivity. }
  destruct E as (A2 & -> & ->). unfold ny_replace_start. change ($ "SCH") with [# "S"; # "C"; # "H"].
  destruct (neq (# "C") eq_refl) as [_ NC]. destruct (neq (# "H") eq_refl) as [_ NH].
  destruct A2 as [|a [|b [|d A2]]]; cbn [app strip_prefix].
  - rewrite NC. destruct (N.eqb_spec (# "S") c) as [<-|Ns].
    + destruct B as [|x [|y B]].
      * left. exists [], []. split; [reflexivity|]. split; [reflexivity|discriminate].
      * left. exists [], [x]. split; [reflexivity|]. split; [now destruct (# "C" =? x)|discriminate].
      * destruct (N.eqb_spec (# "C") x) as [<-|Nx]; [destruct (N.eqb_spec (# "H") y) as [<-|Ny]|].
        -- right. exists B. split; [reflexivity|]. split; reflexivity.
        -- left. exists [], (# "C" :: y :: B). split; [reflexivity|]. split; [reflexivity|]. intros _ _ r K. injection K as K1 _. congruence.
        -- left. exists [], (x :: y :: B). split; [reflexivity|]. split; [reflexivity|]. intros _ _ r K. injection K as K1 _. congruence.
    + left. exists [], B. split; [reflexivity|]. split; [reflexivity|]. intros _ K. congruence.
  - left. exists [a], B. rewrite NC. destruct (_ =? a); (split; [reflexivity|]); (split; [reflexivity|discriminate]).
  - left. exists [a; b], B. rewrite NH. destruct (_ =? a); [destruct (_ =? b)|]; (split; [reflexivity|]); (split; [reflexivity|discriminate]).
  - left. destruct (_ =? a); [destruct (_ =? b); [destruct (_ =? d)|]|].
    + exists ($ "SSS" ++ A2), B. split; [reflexivity|]. split; [reflexivity|discriminate].
    + exists (a :: b :: d :: A2), B. split; [reflexivity|]. split; [reflexivity|discriminate].
    + exists (a :: b :: d :: A2), B. split; [reflexivity|]. split; [reflexivity|discriminate].
    + exists (a :: b :: d :: A2), B. split; [reflexivity|]. split; [reflexivity|discriminate].
Qed.
Lemma finish_same : forall (strict : bool) A B,
  match ny_end (ny_start (A ++ c :: c :: B)) with
  | [] => Panic
  | x :: rest => pushed <- ny_loop (length rest) x rest ;; let result := ny_finish (x :: pushed) in
      if strict then slice_to (Nat.min (blen result) TRUE_LENGTH) result else Ok result
  end = match ny_end (ny_start (A ++ c :: B)) with
  | [] => Panic
  | x :: rest => pushed <- ny_loop (length rest) x rest ;; let result := ny_finish (x :: pushed) in
      if strict then slice_to (Nat.min (blen result) TRUE_LENGTH) result else Ok result
  end.
Proof.
  intros strict A B. assert (Ne : ~ In c $ "EIDTRN") by now apply not_in.
  destruct (start_doubled A B) as [(A' & B' & -> & -> & NS)|(r & _ & -> & ->)].
  - replace (A' ++ c :: c :: B') with ((A' ++ [c]) ++ c :: B') by now rewrite <- app_assoc. rewrite !end_keeps by exact Ne. rewrite <- app_assoc. cbn [app].
    set (B2 := ny_end B'). destruct A' as [|x A'].
    + cbn [app length].
      assert (L : ny_loop (S (length B2)) c (c :: B2) = ny_loop (length B2) c B2); [|now rewrite L].
      cbn [ny_loop]. destruct (twice c (hd_error B2) (hd_error (tl B2))) as (_ & t & E1 & E2 & E3).
      assert (T : ny_transcode c c (hd_error B2) (hd_error (tl B2)) = [c]).
      { assert (Vc : (c =? # "W") && ny_vowel c = false).
        { destruct (N.eqb_spec c (# "W")) as [->|]; reflexivity. }
        rewrite (E2 Vc). f_equal. apply E3. destruct (N.eqb_spec c (# "S")) as [Ec|]; [|reflexivity]. cbn [andb].
        destruct (opt_is (hd_error B2) (# "C") && opt_is (hd_error (tl B2)) (# "H")) eqn:K; [|reflexivity]. exfalso.
        apply andb_true_iff in K as [K1 K2]. destruct B2 as [|y [|z B3]] eqn:E; cbn in K1, K2; try discriminate. apply N.eqb_eq in K1, K2. subst y z.
        assert (D1 : # "H" <> # "Y") by discriminate. assert (D2 : # "H" <> # "D") by discriminate. destruct (end_starts B' _ _ _ D1 D2 E) as [r' ->]. now apply (NS eq_refl Ec r'). }
      rewrite T. cbn [length Nat.ltb Nat.leb app skipn]. rewrite N.eqb_refl. destruct (ny_loop _ _ _); reflexivity.
    + cbn [app]. rewrite !app_length. cbn [length]. rewrite !Nat.add_succ_r. rewrite loop_doubled by lia. reflexivity.
  - change ($ "SSCH" ++ r) with ([# "S"; # "S"; # "C"] ++ # "H" :: r). change ($ "SSS" ++ r) with ([# "S"; # "S"] ++ # "S" :: r).
    rewrite !end_keeps by (vm_compute; intuition discriminate). cbn [app length]. set (R := ny_end r).
    assert (L : ny_loop (S (S (S (length R)))) 83 (83 :: 67 :: 72 :: R) = ny_loop (S (S (length R))) 83 (83 :: 83 :: R)); [|now rewrite L].
    set (k := S (S (length R))). clearbody k. change (ny_loop (S k) 83 (83 :: 67 :: 72 :: R)) with (pushed <- ny_loop k 83 (83 :: 83 :: R) ;; Ok pushed).
    destruct (ny_loop k 83 (83 :: 83 :: R)); reflexivity.
Qed.
End Doubled.
