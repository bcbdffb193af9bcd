(** * C95: the code of a code, NYSIIS. *)
From Verif Require Import Base UnicodeM Lib Helper Soundex Nysiis BaseLemmas Spec_common Spec_soundex Spec_rewrite Spec_nysiis Spec_codes UnicodeReal Soundex_proofs Caverphone_proofs Nysiis_proofs Codes_proofs Rewrite_proofs Nysiis_spec_proofs Props_nysiis Props_codes Upper_ok
  Props_nysiis_spec Props_size Props_again.
Local Open Scope N_scope.

(** ** NYSIIS (not strict): no number of times is enough *)
Lemma DN_same : forall p c r, c = # "N" \/ c = # "D" -> nysiis_rewritten p (c :: r) (c :: r).
Proof.
  intros p c r H. apply nr_other.
  - intros x y z I E. cbn in I. repeat (destruct I as [I|I]; [injection I as <- <-; cbn in E; injection E as E _; destruct H as [->| ->]; discriminate E|]). destruct I.
  - intros [E _]. destruct H as [->| ->]; discriminate E.
  - intros [E _]. destruct H as [->| ->]; discriminate E.
Qed.
Lemma letters_DN : forall w p, made_of $ "ND" w -> nysiis_translated p w w.
Proof.
  induction w as [|c w IH]; intros p H; [constructor|]. apply (nt_step p _ c w); [apply DN_same; destruct (H c (or_introl eq_refl)) as [<-|[<-|[]]]; auto| |].
  - destruct (H c (or_introl eq_refl)) as [<-|[<-|[]]]; discriminate.
  - apply IH. intros x Hx. apply H. now right.
Qed.
Lemma times_last : forall n w, times (S n) w = times n w ++ w.
Proof. induction n as [|n IH]; intros w; [cbn; now rewrite app_nil_r|]. rewrite (times_S (S n)). rewrite IH at 1. rewrite (times_S n). now rewrite app_assoc. Qed.
Lemma ND_in : forall n c, In c (times n $ "ND") -> In c $ "ND".
Proof. intros n c H. now apply times_In in H. Qed.
Lemma collapse_ND : forall n, collapse (times (S n) $ "ND" ++ $ "D") = times (S n) $ "ND".
Proof.
  induction n as [|n E]; [reflexivity|]. rewrite times_S, <- app_assoc. cbn [app] in *. rewrite (times_S n) in *. cbn [app collapse] in *.
  change (78 =? 68) with false in *. change (68 =? 78) with false. cbv iota in *. now rewrite E.
Qed.
Lemma ends_D : forall n w c, times (S n) $ "ND" = w ++ [c] -> c = # "D".
Proof. intros n w c E. rewrite times_last in E. change $ "ND" with ($ "N" ++ $ "D") in E. rewrite app_assoc in E. now apply app_inj_tail in E as [_ <-]. Qed.
Lemma nysiis_ND : forall u n, nysiis_encode u false (times (S n) $ "ND") = Ok (if Nat.eqb n 0 then $ "D" else times n $ "ND").
Proof.
  intros u n. set (w := times (S n) $ "ND").
  assert (A : forall c, In c w -> c = 78 \/ c = 68) by (intros c I; apply times_In in I; cbn in I; intuition).
  assert (AA : letters_are_ascii (is_alphabetic u) w) by (intros c I _; destruct (A c I) as [->| ->]; reflexivity).
  destruct n as [|n]; [reflexivity|]. cbn [Nat.eqb].
  apply (C65_nysiis_is_its_definition u w AA).
  assert (W : ascii_letters w = w).
  { unfold w. clear. induction (S (S n)) as [|m IH]; [reflexivity|]. rewrite !times_S. cbn [app]. rewrite <- IH at 2. reflexivity. }
  rewrite W. unfold w in *. clear W AA A w. rewrite <- (collapse_ND n). 
  apply (nk_name _ (times (S (S n)) $ "ND") 78 (68 :: times n $ "ND" ++ $ "D") (68 :: times n $ "ND" ++ $ "D")); [discriminate| | | |].
  - right. split; [|reflexivity]. intros p q r I E. rewrite times_S in E. cbn [app] in E. cbn in I.
    repeat (destruct I as [I|I]; [injection I as <- <-; discriminate E|]). destruct I.
  - left. exists $ "ND", $ "D", (times (S n) $ "ND"), (firstn 6 nysiis_end), []. split; [reflexivity|]. split; [apply times_last|]. split; [reflexivity|].
    intros p q r I E. change (S (S n)) with (S (S n)) in E. rewrite times_last in E. change $ "ND" with ($ "N" ++ $ "D") in E at 2. rewrite app_assoc in E.
    cbn in I. repeat (destruct I as [I|I]; [injection I as <- <-; match type of E with _ = r ++ [?x; ?y] => change [x; y] with ([x] ++ [y]) in E end;
      rewrite app_assoc in E; apply app_inj_tail in E as [E1 E2]; try discriminate E2; apply app_inj_tail in E1 as [_ E1]; discriminate E1|]). destruct I.
  - apply letters_DN. intros c [<-|Hc]; [cbn; tauto|]. apply in_app_or in Hc as [Hc|Hc]; [now apply ND_in in Hc|]. destruct Hc as [<-|[]]. cbn. tauto.
  - right. change (78 :: 68 :: times n $ "ND" ++ $ "D") with (times (S n) $ "ND" ++ $ "D").
    pose proof (ends_D n) as L. rewrite collapse_ND in *. split; [rewrite times_length; cbn [length]; lia|].
    exists (times (S n) $ "ND"), (times (S n) $ "ND").
    split; [right; split; [reflexivity|]|split; [right; split; [reflexivity|]|right; split; [reflexivity|]]].
    + intros a E. apply L in E. discriminate E.
    + intros a E. change $ "AY" with ($ "A" ++ $ "Y") in E. rewrite app_assoc in E. apply L in E. discriminate E.
    + intros a E. apply L in E. discriminate E.
Qed.
Theorem C95_nysiis_refuted : forall u n, exists s, ascii_str s
  /\ exists code next, encoded (nysiis_encode u false) n s = Ok code /\ nysiis_encode u false code = Ok next /\ next <> code.
Proof.
  intros u n. exists (times (S (S n)) $ "ND"). split; [apply times_ascii; intros c I; cbn in I; repeat (destruct I as [<-|I]; [reflexivity|]); destruct I|].
  exists (times 2 $ "ND"), (times 1 $ "ND"). split; [|split; [exact (nysiis_ND u 1)|discriminate]].
  induction n as [|n IH]; [reflexivity|]. cbn [encoded]. rewrite nysiis_ND. cbn [Nat.eqb bind]. exact IH.
Qed.

(** It either stays as it is or gets shorter. *)
Definition tail_set : ustr := $ "ABCDFGHJLNPRSTVWXY".
Definition calm (w : ustr) : Prop := made_of tail_set w /\ forall a x b, w = a ++ x :: # "H" :: b -> ~ In x $ "CP".
Lemma calm_tl : forall c w, calm (c :: w) -> calm w.
Proof.
  intros c w [M H]. split; [intros x Hx; apply M; now right|]. intros a x b E. apply (H (c :: a) x b). now rewrite E.
Qed.
Lemma calm_step : forall p c r, calm (c :: r) -> ny_transcode p c (hd_error r) (hd_error (tl r)) = [c]
  \/ ny_transcode p c (hd_error r) (hd_error (tl r)) = [p].
Proof.
  intros p c r [M H]. assert (Hc := M c (or_introl eq_refl)).
  assert (P : c = # "P" -> opt_is (hd_error r) (# "H") = false).
  { intros ->. destruct r as [|y r]; [reflexivity|]. cbn [hd_error opt_is]. destruct (N.eqb_spec y 72) as [->|N]; [|reflexivity].
    exfalso. apply (H [] (# "P") r eq_refl). cbn. tauto. }
  assert (C : opt_is (hd_error r) (# "C") && opt_is (hd_error (tl r)) (# "H") = false).
  { destruct r as [|y r]; [reflexivity|]. cbn [hd_error opt_is tl]. destruct (N.eqb_spec y 67) as [->|N]; [|reflexivity].
    destruct r as [|z r]; [reflexivity|]. cbn [hd_error opt_is tl andb]. destruct (N.eqb_spec z 72) as [->|N]; [|reflexivity].
    exfalso. apply (H [c] 67 r eq_refl). cbn. tauto. }
  unfold ny_transcode. rewrite <- (andb_assoc (c =? # "S")), C.
  assert (Q : (c =? # "P") && opt_is (hd_error r) (# "H") = false).
  { destruct (N.eqb_spec c (# "P")) as [E|N]; [now rewrite (P E)|reflexivity]. }
  rewrite Q. clear -Hc. cbn in Hc.
  repeat (destruct Hc as [<-|Hc]; [cbn [andb N.eqb Pos.eqb]; repeat match goal with |- context [if ?b then _ else _] => let v := eval vm_compute in b in
     first [constr_eq v true; change b with true; cbv iota | constr_eq v false; change b with false; cbv iota | destruct b]  end; tauto|]). destruct Hc.
Qed.
Lemma calm_loop : forall w n p r, calm w -> ny_loop n p w = Ok r -> r = w \/ (length r < length w)%nat.
Proof.
  induction w as [|c w IH]; intros n p r C H; [destruct n; left; now injection H|].
  destruct n as [|n]; [discriminate H|]. cbn [ny_loop] in H.
  assert (D := calm_step p c w C). destruct D as [D|D]; rewrite D in H; cbn [length Nat.ltb Nat.leb skipn app] in H.
  - destruct (ny_loop n c w) as [q| |] eqn:E; try discriminate H. cbn [bind] in H. injection H as H.
    apply (IH n c q (calm_tl c w C)) in E. destruct (p =? c); subst r; cbn [length]; destruct E as [->|E]; try (right; lia). now left.
  - destruct (ny_loop n p w) as [q| |] eqn:E; try discriminate H. cbn [bind] in H. injection H as H. rewrite N.eqb_refl in H. subst r.
    apply (IH n p q (calm_tl c w C)) in E. right. cbn [length]. destruct E as [->|E]; lia.
Qed.
Lemma loop_bound : forall n p w r, ny_loop n p w = Ok r -> (length r <= length w)%nat.
Proof.
  intros n p w r H. destruct (ny_loop_spec w n p r H) as (l & -> & L & _). pose proof (collapse_length (p :: l)) as K.
  cbn [length] in K. destruct (collapse (p :: l)); cbn [length tl] in *; lia.
Qed.
Lemma finish_shorter : forall key, ny_finish key = key \/ (length (ny_finish key) < length key)%nat.
Proof.
  intros key. destruct (proj1 (finish_finished key)) as [|a b ->|a b -> _]; [now left| |].
  - destruct b as [|x b]; [left; now rewrite app_nil_r|right]. rewrite app_length. cbn [length]. lia.
  - right. rewrite !app_length. cbn [length]. lia.
Qed.
Lemma last2_shorter : forall p to w, ends_with w p = true -> length p = 2%nat -> length to = 1%nat -> (length (ny_replace_last2 to w) < length w)%nat.
Proof.
  intros p to w E P T. apply ends_with_len in E. unfold ny_replace_last2. rewrite app_length, firstn_length. lia.
Qed.
Definition end_d (v : ustr) : ustr :=
  if ends_with v $ "DT" || ends_with v $ "RT" || ends_with v $ "RD" || ends_with v $ "NT" || ends_with v $ "ND" then ny_replace_last2 $ "D" v else v.
Lemma end_d_shorter : forall v, end_d v = v \/ (length (end_d v) < length v)%nat.
Proof.
  intros v. unfold end_d. destruct (ends_with v $ "DT") eqn:E1; [right; now apply (last2_shorter $ "DT")|].
  destruct (ends_with v $ "RT") eqn:E2; [right; now apply (last2_shorter $ "RT")|].
  destruct (ends_with v $ "RD") eqn:E3; [right; now apply (last2_shorter $ "RD")|].
  destruct (ends_with v $ "NT") eqn:E4; [right; now apply (last2_shorter $ "NT")|].
  destruct (ends_with v $ "ND") eqn:E5; [right; now apply (last2_shorter $ "ND")|]. now left.
Qed.
Lemma end_shorter : forall w, ny_end w = w \/ (length (ny_end w) < length w)%nat.
Proof.
  intros w. change (ny_end w) with (end_d (if ends_with w $ "EE" || ends_with w $ "IE" then ny_replace_last2 $ "Y" w else w)).
  destruct (ends_with w $ "EE" || ends_with w $ "IE") eqn:E; [|apply end_d_shorter]. right.
  assert (B : (length (ny_replace_last2 $ "Y" w) < length w)%nat).
  { apply orb_true_iff in E as [E|E]; [now apply (last2_shorter $ "EE")|now apply (last2_shorter $ "IE")]. }
  destruct (end_d_shorter (ny_replace_last2 $ "Y" w)) as [K|K]; [rewrite K|]; lia.
Qed.
Definition repeats (w : ustr) : Prop := ~ no_adjacent_equal w.
(** What a code looks like: not a K in front, and a calm tail. *)
Lemma stem_calm : forall f r, nysiis_stem (f :: r) -> f <> # "K" /\ calm r /\ (f = # "P" \/ f = # "S" -> hd_error r <> Some (# "H")).
Proof.
  intros f r ((f' & r' & E & Hf & Hr) & N & _). injection E as <- <-. split; [|split; [split|]].
  - intros ->. cbn in Hf. repeat (destruct Hf as [Hf|Hf]; [discriminate Hf|]). destruct Hf.
  - exact Hr.
  - intros a x b E Hx. destruct (N (f :: a) x (# "H") b) as (_ & V & _); [now rewrite E|]. destruct (V eq_refl) as [V1 _].
    cbn in V1, Hx. lia.
  - intros Hf2 E. destruct r as [|y r]; [discriminate E|]. injection E as ->. destruct (N [] f (# "H") r eq_refl) as (_ & V & _).
    destruct (V eq_refl) as [V1 _]. cbn in V1. lia.
Qed.
(** What a code looks like: not a K in front, and a calm tail. *)
Lemma code_calm : forall f r, nysiis_form (f :: r) -> f <> # "K" /\ calm r /\ (f = # "P" \/ f = # "S" -> hd_error r <> Some (# "H")).
Proof.
  intros f r [E|[E|[F|(p & x & St & Hx & E)]]]; [discriminate E| |now apply stem_calm|].
  - injection E as -> ->. split; [discriminate|]. split; [|intros _; discriminate]. split; [intros c []|]. intros a x b E. destruct a; discriminate E.
  - rewrite app_assoc in E. destruct (p ++ [x]) as [|g q] eqn:G; [destruct p; discriminate G|]. injection E as -> ->.
    apply stem_calm in St as (K & [M H] & P). split; [exact K|]. split; [split|].
    + intros c Hc. apply in_app_or in Hc as [Hc|[<-|[]]]; [now apply M|cbn; tauto].
    + intros a y b E. destruct (snoc_cases b) as [->|(b' & z & ->)].
      * change (a ++ [y; # "H"]) with (a ++ [y] ++ [# "H"]) in E. rewrite app_assoc in E. apply app_inj_tail in E as [_ E]. discriminate E.
      * change (a ++ y :: # "H" :: b' ++ [z]) with (a ++ (y :: # "H" :: b') ++ [z]) in E. rewrite app_assoc in E. apply app_inj_tail in E as [E _]. now apply (H a y b').
    + intros Hf E. apply P; [exact Hf|]. destruct q as [|y q]; [discriminate E|exact E].
Qed.
Lemma start_again : forall f r, f <> # "K" -> calm r -> (f = # "P" -> hd_error r <> Some (# "H")) ->
  exists g q, ny_start (f :: r) = g :: q /\ calm q /\ length q = length r /\ (g :: q = f :: r \/ repeats (g :: q)).
Proof.
  intros f r K C P. assert (St : start_rewritten nysiis_start (f :: r) (ny_start (f :: r))) by (apply start_rewritten_iff; apply ny_start_spec).
  destruct St as [(p & q & t & (t1 & t2 & E & Er & _) & ->)|[_ ->]]; [|exists f, r; split; [reflexivity|]; split; [exact C|]; split; [reflexivity|now left]].
  assert (I : In (p, q) nysiis_start) by (rewrite E; apply in_or_app; right; now left). clear E. cbn in I.
  destruct I as [I|[I|[I|[I|[I|[I|[]]]]]]]; injection I as <- <-; cbn [app] in Er; injection Er as -> ->; try (exfalso; congruence).
  - (* MAC *) exists (# "M"), ($ "CC" ++ t). split; [reflexivity|]. destruct C as [M H]. split; [split|split].
    + intros c [<-|Hc]; [cbn; tauto|]. apply M. right. exact Hc.
    + intros a x b Eb. destruct a as [|y a]; [discriminate Eb|]. injection Eb as <- Eb. apply (H (# "A" :: a) x b). cbn [app]. now rewrite <- Eb.
    + reflexivity.
    + right. intros N. cbn in N. tauto.
  - (* PH *) exfalso. now apply P.
  - (* PF *) exists (# "F"), ($ "F" ++ t). split; [reflexivity|]. split; [exact C|]. split; [reflexivity|]. right. intros N. cbn in N. destruct t; cbn in N; tauto.
  - (* SCH *) exfalso. destruct C as [_ H]. apply (H [] (# "C") t eq_refl). cbn. tauto.
Qed.
Definition code_like (w : ustr) : Prop :=
  uppers w /\ match w with [] => True | f :: r => f <> # "K" /\ calm r /\ (f = # "P" \/ f = # "S" -> hd_error r <> Some (# "H")) end.
Lemma again_like : forall u code next, code_like code -> nysiis_encode u false code = Ok next -> next = code \/ (length next < length code)%nat.
Proof.
  intros u code next [U F] H2. destruct (letters_AZ code U) as [E1 E2]. unfold nysiis_encode in H2.
  rewrite (clean_ascii u code) in H2 by (intros c Hc _; now apply E2). rewrite E1 in H2.
  destruct code as [|f r]; [injection H2 as <-; now left|]. destruct F as (K & C & P).
  destruct (start_again f r K C (fun E => P (or_introl E))) as (g & q & S1 & C2 & L & S2). rewrite S1 in H2.
  pose proof (end_shorter (g :: q)) as En. destruct (ny_end (g :: q)) as [|c rest]; [discriminate H2|].
  destruct (ny_loop (length rest) c rest) as [pushed| |] eqn:Lp; try discriminate H2. cbn [bind] in H2. injection H2 as <-.
  pose proof (finish_shorter (c :: pushed)) as Fi. pose proof (loop_bound _ _ _ _ Lp) as B. cbn [length] in *.
  destruct En as [En|En].
  - injection En as -> ->. destruct (calm_loop _ _ _ _ C2 Lp) as [->|B2]; [|right; destruct Fi as [->|Fi]; cbn [length]; lia].
    assert (N : no_adjacent_equal (g :: q)).
    { destruct (ny_loop_spec _ _ _ _ Lp) as (l & El & _). rewrite El, <- collapse_cons. apply collapse_nae. }
    destruct S2 as [S2|S2]; [|contradiction]. destruct Fi as [->|Fi]; [left; exact S2|right; lia].
  - right. destruct Fi as [->|Fi]; cbn [length]; lia.
Qed.
Lemma calm_prefix : forall a b, calm (a ++ b) -> calm a.
Proof.
  intros a b [M H]. split; [intros c Hc; apply M; apply in_or_app; now left|]. intros x y z E. apply (H x y (z ++ b)). rewrite E. now rewrite <- app_assoc.
Qed.
Lemma like_prefix : forall a b, code_like (a ++ b) -> code_like a.
Proof.
  intros a b [U F]. split; [now apply uppers_app in U|]. destruct a as [|f a]; [exact I|]. cbn [app] in F. destruct F as (K & C & P).
  split; [exact K|]. split; [now apply calm_prefix in C|]. intros Hf E. apply P; [exact Hf|]. destruct a as [|x a]; [discriminate E|exact E].
Qed.
Lemma code_of_name : forall u s code, letters_are_ascii (is_alphabetic u) s -> nysiis_encode u false s = Ok code -> code_like code.
Proof.
  intros u s code A H. assert (F : nysiis_form code) by (apply (C81_nysiis u); now exists s). split.
  - intros c Hc. pose proof (C19_key_uppercase u s code A H c Hc) as R. unfold is_ascii_upper. apply andb_true_iff. now rewrite !N.leb_le.
  - destruct code as [|f r]; [exact I|]. now apply code_calm.
Qed.
(** Encoding a code again leaves it or shortens it. *)
Theorem C95_nysiis : forall u strict s code next, letters_are_ascii (is_alphabetic u) s ->
  nysiis_encode u strict s = Ok code -> nysiis_encode u strict code = Ok next -> next = code \/ (length next < length code)%nat.
Proof.
  intros u [|] s code next A H H2; [|apply (again_like u code next); [now apply (code_of_name u s)|exact H2]].
  destruct (C18_strict_is_truncation u s A) as (full & E & E1). assert (Q : code = firstn 6 full) by congruence; subst code; clear H.
  assert (C : code_like (firstn 6 full)).
  { apply (like_prefix _ (skipn 6 full)). rewrite firstn_skipn. now apply (code_of_name u s). }
  assert (A2 : letters_are_ascii (is_alphabetic u) (firstn 6 full)).
  { intros c Hc _. apply (proj2 (letters_AZ _ (proj1 C))). exact Hc. }
  destruct (C18_strict_is_truncation u _ A2) as (full2 & E2 & E3). assert (Q : next = firstn 6 full2) by congruence; subst next; clear H2.
  destruct (again_like u _ _ C E2) as [->|L]; [left; rewrite firstn_firstn; reflexivity|right]. rewrite firstn_length at 1. lia.
Qed.
(** So it settles, at the latest after as many times as the code has letters. *)
Theorem C95_nysiis_settles : forall u strict s code, letters_are_ascii (is_alphabetic u) s -> nysiis_encode u strict s = Ok code ->
  exists n final, (n <= length code)%nat /\ encoded (nysiis_encode u strict) n code = Ok final /\ nysiis_encode u strict final = Ok final.
Proof.
  intros u strict s code A H. remember (length code) as k eqn:L. revert s code A H L. induction k as [k IH] using lt_wf_ind. intros s code A H L. subst k.
  assert (A2 : letters_are_ascii (is_alphabetic u) code).
  { destruct strict.
    - destruct (C18_strict_is_truncation u s A) as (full & E & E1). assert (Q : code = firstn 6 full) by congruence; subst code; clear H. intros c Hc _. apply In_firstn in Hc.
      pose proof (C19_key_uppercase u s full A E c Hc) as R. cbn in R. lia.
    - intros c Hc _. pose proof (C19_key_uppercase u s code A H c Hc) as R. cbn in R. lia. }
  assert (T : exists next, nysiis_encode u strict code = Ok next).
  { destruct strict; [now apply C20_strict_total_on_ascii_letters|apply C20_nonstrict_total]. }
  destruct T as [next H2]. destruct (C95_nysiis u strict s code next A H H2) as [->|S1].
  - exists 0%nat, code. split; [lia|]. split; [reflexivity|exact H2].
  - destruct (IH _ S1 code next A2 H2 eq_refl) as (n & final & Ln & E & F). exists (S n), final. split; [lia|]. split; [|exact F].
    cbn [encoded]. rewrite H2. exact E.
Qed.
Example C95_nysiis_nonvacuous : let f := nysiis_encode latin1_only false in
  f $ "ndntschaz" = Ok $ "NDNTS" /\ encoded f 2 $ "ndntschaz" = Ok $ "NDNT" /\ encoded f 3 $ "ndntschaz" = Ok $ "ND" /\ encoded f 4 $ "ndntschaz" = Ok $ "D"
  /\ f $ "D" = Ok $ "D" /\ f $ "WRIGHT" = Ok $ "WRAGT" /\ f $ "WRAGT" = Ok $ "WRAGT".
Proof. vm_compute. repeat split. Qed.
