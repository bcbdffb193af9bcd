(** * C95: the code of a code. *)
From Verif Require Import Base UnicodeM Lib Helper Soundex Cologne Phonex MatchRating Metaphone Nysiis Caverphone DoubleMetaphone DaitchMokotoff DmRules
  BaseLemmas Spec_common Spec_soundex Spec_mra Spec_codes UnicodeLemmas UnicodeReal Soundex_proofs Codes_proofs Codes_daitch_proofs Props_soundex Props_cologne Props_mra
  Props_phonex Props_phonex_spec Props_codes Props_blank.
Local Open Scope N_scope.

Definition digits_only (w : ustr) : Prop := made_of $ "0123456789" w.
Lemma digits_letters : forall w, digits_only w -> ascii_letters w = [] /\ ascii_str w.
Proof.
  intros w H. assert (D : forall d, In d w -> is_ascii_alpha d = false /\ d < 128).
  { intros d Hd. apply H in Hd. cbn in Hd. repeat (destruct Hd as [<-|Hd]; [split; reflexivity|]). destruct Hd. }
  split; [|intros c Hc; now apply D]. unfold ascii_letters. clear H.
  induction w as [|d w IH]; [reflexivity|]. cbn [filter]. rewrite (proj1 (D d (or_introl eq_refl))). apply IH.
  intros x Hx. apply D. now right.
Qed.
Lemma coded_letters : forall f w, In f AZ -> digits_only w -> ascii_letters (f :: w) = [f] /\ ascii_str (f :: w).
Proof.
  intros f w Hf H. apply AZ_upper in Hf. destruct (AZ_alpha f Hf) as (K1 & K2 & K3).
  destruct (digits_letters w H) as [E A]. split.
  - unfold ascii_letters in *. cbn [filter]. rewrite K1. cbn [map]. now rewrite K2, E.
  - intros c [<-|Hc]; [exact K3|now apply A].
Qed.
Lemma filled_digits : forall n w code, digits_only w -> filled n (# "0") w code -> digits_only code.
Proof.
  intros n w code H [_ ->] c Hc. apply in_app_or in Hc as [Hc|Hc]; [now apply H|]. apply repeat_spec in Hc. subst c. cbn. tauto.
Qed.
Lemma wider : forall set w, made_of set w -> forallb (fun c => isin c $ "0123456789") set = true -> digits_only w.
Proof. intros set w H F c Hc. apply H in Hc. rewrite forallb_forall in F. apply F in Hc. now apply isin_In. Qed.

(** ** Soundex: the first letter is all that is left *)
Theorem C95_soundex : forall u s code, soundex_encode u soundex_default s = Ok code ->
  soundex_encode u soundex_default code = Ok match code with [] => [] | first :: _ => first :: $ "000" end.
Proof.
  intros u s code H. assert (F : soundex_form code) by (apply (C81_soundex u); now exists s).
  destruct F as [->|(f & ds & Hf & Hd & L & E)]; [reflexivity|]. cbn [app] in E. subst code.
  assert (D : digits_only (ds ++ repeat (# "0") (4 - length (f :: ds)))).
  { apply (filled_digits (length ds + (4 - length (f :: ds))) ds); [now apply (wider $ "123456")|]. split; [lia|]. f_equal. f_equal. lia. }
  destruct (coded_letters f _ Hf D) as [E A]. rewrite C06_soundex_is_american_soundex by (now apply ascii_letters_ascii). rewrite E. reflexivity.
Qed.
(** ** Refined Soundex: the first letter and its digit *)
Theorem C95_refined : forall u s code, refined_encode u ENGLISH_MAPPING s = Ok code ->
  refined_encode u ENGLISH_MAPPING code = Ok (firstn 2 code).
Proof.
  intros u s code H. assert (F : refined_form code) by (apply (C81_refined u); now exists s).
  destruct F as [->|(f & ds & Hf & Hd & N & ->)]; [reflexivity|].
  assert (D : digits_only (refined_digit f :: ds)).
  { intros c [<-|Hc]; [|now apply Hd]. clear -Hf. cbn [In AZ] in Hf. repeat (destruct Hf as [<-|Hf]; [cbn; tauto|]). destruct Hf. }
  destruct (coded_letters f _ Hf D) as [E A]. rewrite C10_refined_is_its_definition by (now apply ascii_letters_ascii). rewrite E. reflexivity.
Qed.
(** ** Cologne: nothing *)
Theorem C95_cologne : forall u s code, cologne_encode u s = Ok code -> cologne_encode u code = Ok [].
Proof.
  intros u s code H. assert (F : cologne_form code) by (apply (C81_cologne u); now exists s).
  assert (D : digits_only code).
  { destruct F as (ds & Hd & [->| ->]); [now apply (wider $ "12345678")|]. intros c [<-|Hc]; [cbn; tauto|]. now apply (wider $ "12345678" ds). }
  destruct (digits_letters code D) as [E A]. apply C88_cologne_ascii; [exact A|]. rewrite E. intros c [].
Qed.
(** ** Daitch-Mokotoff: nothing *)
Lemma daitch_digits : forall u code, digits_only code ->
  dms_soundex u dms_default code = Ok $ "000000" /\ dms_encode u dms_default code = Ok $ "000000".
Proof.
  intros u code D. assert (K : forall br, inner_soundex u dms_default code br = Ok [$ "000000"]).
  { intros br. unfold inner_soundex, dms_source. assert (L : forall w last bs, digits_only w ->
      dms_loop dms_default br 0 last bs (map (dms_char u dms_default) (filter (fun c => negb (is_whitespace u c)) w)) = Ok bs).
    { induction w as [|d w IH]; intros last bs H; [reflexivity|]. cbn [filter]. destruct (is_whitespace u d); cbn [negb].
      - apply IH. intros x Hx. apply H. now right.
      - cbn [map dms_loop]. replace (assoc (dms_char u dms_default d) (dms_rules dms_default)) with (@None (list Rule)).
        + apply IH. intros x Hx. apply H. now right.
        + assert (Hd := H d (or_introl eq_refl)). unfold dms_char. cbn in Hd.
          repeat (destruct Hd as [<-|Hd]; [rewrite to_lower_ascii by reflexivity; vm_compute; reflexivity|]). destruct Hd. }
    rewrite L by exact D. reflexivity. }
  unfold dms_soundex, dms_encode. now rewrite !K.
Qed.
Theorem C95_daitch_mokotoff : forall u s out code, dms_soundex u dms_default s = Ok out -> In code (split_on (# "|") out) ->
  dms_soundex u dms_default code = Ok $ "000000" /\ dms_encode u dms_default code = Ok $ "000000".
Proof.
  intros u s out code H I. assert (F : daitch_form code) by (apply (C81_daitch_mokotoff u); now exists s, out).
  apply daitch_digits. destruct F as (front & ds & Hf & Hd & Fi). refine (filled_digits _ _ _ _ Fi).
  intros c Hc. apply in_app_or in Hc as [Hc|Hc]; [|now apply (wider $ "13456789" ds)].
  cbn in Hf. destruct Hf as [<-|[<-|[<-|[]]]]; cbn in Hc |- *; tauto.
Qed.
(** ** Phonex: the first letter, and not even that when it is S or H *)
Theorem C95_phonex : forall u n s code, (2 <= n)%nat -> letters_are_ascii (is_alphabetic u) s -> phonex_encode u n s = Ok code ->
  phonex_encode u n code = Ok match code with
                              | first :: _ => if isin first $ "SH0" then repeat (# "0") n else first :: repeat (# "0") (n - 1)
                              | [] => []
                              end.
Proof.
  intros u n s code Hn A H. assert (F : phonex_form n code) by (apply (C81_phonex u n code Hn); now exists s).
  destruct n as [|[|n]]; [lia|lia|]. destruct F as [->|(f & ds & Hf & Hd & N & L & E)].
  - apply C88_phonex; [exact Hn| |].
    + apply ascii_letters_ascii. intros c Hc. apply repeat_spec in Hc. now subst c.
    + exists 0%nat. left. apply digits_letters. intros c Hc. apply repeat_spec in Hc. subst c. cbn. tauto.
  - cbn [app] in E. subst code.
    assert (D : digits_only (ds ++ repeat (# "0") (S (S n) - length (f :: ds)))).
    { apply (filled_digits (length ds + (S (S n) - length (f :: ds))) ds); [now apply (wider $ "123456")|]. split; [lia|]. f_equal. f_equal. lia. }
    assert (Hf' : In f AZ) by (apply AZ_upper; now apply (on_set is_ascii_upper $ "ABCDFGHLMNRSTWX")).
    destruct (coded_letters f _ Hf' D) as [E A2]. unfold phonex_encode, px_preprocess.
    rewrite (clean_ascii u) by (now apply ascii_letters_ascii). rewrite E. clear -Hf.
    cbn in Hf. repeat (destruct Hf as [<-|Hf]; [reflexivity|]). destruct Hf.
Qed.

(** ** Match rating: only doubled consonants go *)
Definition consonant_doubled (w : ustr) : Prop := exists a x b, w = a ++ x :: x :: b /\ upper_consonant x = true.
Lemma halve_runs_id : forall w, ~ consonant_doubled w -> halve_runs upper_consonant w = w.
Proof.
  induction w as [|x w IH]; intros H; [reflexivity|]. cbn [halve_runs]. destruct w as [|y w]; [reflexivity|].
  destruct (N.eqb_spec x y) as [<-|N].
  - destruct (upper_consonant x) eqn:E; [exfalso; apply H; now exists [], x, w|]. cbn [andb]. f_equal. apply IH.
    intros (a & z & b & Q & R). apply H. exists (x :: a), z, b. now rewrite Q.
  - cbn [andb]. f_equal. apply IH. intros (a & z & b & Q & R). apply H. exists (x :: a), z, b. now rewrite Q.
Qed.
Lemma halve_shorter : forall P n w, (length w <= n)%nat -> (length (halve_runs P w) <= length w)%nat.
Proof.
  intros P. induction n as [|n IH]; intros w L; [destruct w; [cbn; lia|cbn in L; lia]|].
  destruct w as [|x [|y w]]; cbn [halve_runs length] in *; try lia. destruct ((x =? y) && P x); cbn [length].
  - specialize (IH w). lia.
  - specialize (IH (y :: w)). cbn [length] in IH. cbn [halve_runs] in IH. lia.
Qed.
Lemma halve_equation : forall P x y r, halve_runs P (x :: y :: r) = if (x =? y) && P x then x :: halve_runs P r else x :: halve_runs P (y :: r).
Proof. reflexivity. Qed.
Ltac halve_run := repeat (cbn [halve_runs andb]; repeat match goal with
  | |- context [N.eqb ?x ?x] => rewrite (N.eqb_refl x)
  | H : N.eqb ?x ?y = false |- context [N.eqb ?x ?y] => rewrite H
  | H : ?P ?x = true |- context [?P ?x] => rewrite H
  | H : ?P ?x = false |- context [?P ?x] => rewrite H
  end).
Lemma halve_six : forall P w, (length w <= 6)%nat ->
  halve_runs P (halve_runs P (halve_runs P (halve_runs P w))) = halve_runs P (halve_runs P (halve_runs P w)).
Proof.
  intros P w L.
  assert (D : forall x y : N, x = y \/ (x =? y) = false) by (intros x y; destruct (N.eqb_spec x y); auto).
  destruct w as [|a [|b [|c [|d [|e [|f [|g w]]]]]]]; try (cbn in L; lia); clear L;
  try (destruct (D a b); [subst a|]); try (destruct (D b c); [subst b|]); try (destruct (D c d); [subst c|]);
  try (destruct (D d e); [subst d|]); try (destruct (D e f); [subst e|]);
  try match goal with
  | |- halve_runs _ (halve_runs _ (halve_runs _ (halve_runs _ ?l))) = _ =>
     repeat match l with context [?x :: ?x :: _] => first [match goal with H : P x = _ |- _ => fail 2 end | destruct (P x) eqn:?] end
  end; clear D; halve_run; reflexivity.
Qed.
Lemma match_rating_plain : forall u code, match_rating_form code -> ascii_str code
  /\ mra_encode u code = Ok (if Nat.leb (length code) 1 then [] else halve_runs upper_consonant code).
Proof.
  intros u code (L & F & V). assert (A : ascii_str code) by (intros c Hc; now apply F). split; [exact A|].
  rewrite (C29_code u code A). assert (T : trim u code = code).
  { apply trim_no_ws. intros c Hc. rewrite is_whitespace_ascii by (now apply A). destruct (F c Hc) as (_ & _ & W & Q).
    destruct (((9 <=? c) && (c <=? 13)) || (c =? 32)) eqn:E; [|reflexivity]. exfalso. apply orb_true_iff in E as [E|E].
    - apply andb_true_iff in E as [E1 E2]. apply N.leb_le in E1. apply N.leb_le in E2. apply W. now split.
    - apply N.eqb_eq in E. apply Q. subst c. now left. }
  rewrite T. destruct (Nat.leb_spec (length code) 1) as [_|M]; [reflexivity|]. f_equal. unfold mra_code.
  assert (U : map ascii_up code = code).
  { clear -F. induction code as [|c w IH]; [reflexivity|]. cbn [map]. rewrite IH by (intros x Hx; apply F; now right). f_equal.
    destruct (F c (or_introl eq_refl)) as (_ & N & _). unfold ascii_up, is_ascii_lower. cbn. 
    destruct (N.leb_spec 97 c); destruct (N.leb_spec c 122); cbn; try reflexivity. exfalso. apply N. lia. }
  rewrite U. assert (X : filter (fun c => negb (mra_noise c)) code = code).
  { apply filter_id. intros c Hc. destruct (F c Hc) as (_ & _ & W & Q). unfold mra_noise.
    destruct (isin c _) eqn:E; [|reflexivity]. exfalso. apply isin_In in E. cbn in E. cbn in Q. lia. }
  rewrite X. assert (D : drop_inner_vowels code = code).
  { destruct code as [|c r]; [reflexivity|]. cbn [drop_inner_vowels]. f_equal. apply filter_id. intros x Hx.
    unfold upper_vowel. destruct (isin x _) eqn:E; [|reflexivity]. exfalso. apply isin_In in E. now apply (V x). }
  rewrite D. unfold first3_last3. pose proof (halve_shorter upper_consonant _ code (le_n _)) as HL.
  destruct (Nat.ltb_spec 6 (length (halve_runs upper_consonant code))); [lia|reflexivity].
Qed.

(** A code of at least two characters without a doubled consonant is its own code. *)
Theorem C95_match_rating : forall u s code, ascii_str s -> mra_encode u s = Ok code -> (2 <= length code)%nat ->
  (mra_encode u code = Ok code <-> ~ consonant_doubled code).
Proof.
  intros u s code A H L. assert (F : match_rating_form code) by (apply (C81_match_rating u); now exists s).
  destruct (match_rating_plain u code F) as [_ ->]. destruct (Nat.leb_spec (length code) 1); [lia|]. split.
  - intros E (a & x & b & -> & P). injection E as E. assert (X : (length (halve_runs upper_consonant (a ++ x :: x :: b)) < length (a ++ x :: x :: b))%nat).
    { clear -P. remember (length a) as n. assert (Hn : (length a <= n)%nat) by lia. clear Heqn. revert a Hn.
      induction n as [n IH] using lt_wf_ind. intros a Hn. destruct a as [|y a].
      - cbn [app]. rewrite halve_equation, N.eqb_refl, P. cbn [andb length]. pose proof (halve_shorter upper_consonant _ b (le_n _)). lia.
      - destruct n as [|n]; [cbn in Hn; lia|]. cbn [length] in Hn. destruct a as [|z a].
        + cbn [app]. rewrite halve_equation. destruct ((y =? x) && upper_consonant y).
          * pose proof (halve_shorter upper_consonant _ (x :: b) (le_n _)) as K. cbn [length] in *. lia.
          * rewrite halve_equation, N.eqb_refl, P. cbn [andb length]. pose proof (halve_shorter upper_consonant _ b (le_n _)). lia.
        + change ((y :: z :: a) ++ x :: x :: b) with (y :: z :: (a ++ x :: x :: b)). rewrite halve_equation. destruct ((y =? z) && upper_consonant y).
          * assert (K := IH (length a) ltac:(cbn [length] in Hn; lia) a (le_n _)). cbn [length] in *. lia.
          * assert (K := IH n ltac:(lia) (z :: a) ltac:(lia)). cbn [length app] in *. lia. }
    rewrite E in X. lia.
  - intros N. f_equal. now apply halve_runs_id.
Qed.
Theorem C95_match_rating_short : forall u s code, ascii_str s -> mra_encode u s = Ok code -> (length code <= 1)%nat -> mra_encode u code = Ok [].
Proof.
  intros u s code A H L. assert (F : match_rating_form code) by (apply (C81_match_rating u); now exists s).
  destruct (match_rating_plain u code F) as [_ ->]. destruct (Nat.leb_spec (length code) 1); [reflexivity|lia].
Qed.

(** The text encoded [n] times, each time the code of the time before. *)
Fixpoint encoded (encode : ustr -> res ustr) (n : nat) (s : ustr) : res ustr :=
  match n with O => Ok s | S n => code <- encode s ;; encoded encode n code end.

(** Five times is enough: another time changes nothing. *)
Lemma form_again : forall u code, match_rating_form code -> exists next, mra_encode u code = Ok next /\ match_rating_form next
  /\ next = if Nat.leb (length code) 1 then [] else halve_runs upper_consonant code.
Proof.
  intros u code F. destruct (match_rating_plain u code F) as [A E]. eexists. split; [exact E|]. split; [|reflexivity].
  apply (C81_match_rating u). now exists code.
Qed.
Theorem C95_match_rating_settles : forall u s, ascii_str s -> exists final,
  encoded (mra_encode u) 5 s = Ok final /\ mra_encode u final = Ok final.
Proof.
  intros u s A. destruct (C31_encode_total_ascii u s A) as [c1 E1].
  assert (F1 : match_rating_form c1) by (apply (C81_match_rating u); now exists s).
  destruct (form_again u c1 F1) as (c2 & E2 & F2 & Q2). destruct (form_again u c2 F2) as (c3 & E3 & F3 & Q3).
  destruct (form_again u c3 F3) as (c4 & E4 & F4 & Q4). destruct (form_again u c4 F4) as (c5 & E5 & F5 & Q5).
  destruct (form_again u c5 F5) as (c6 & E6 & F6 & Q6).
  exists c5. cbn [encoded bind]. rewrite E1. cbn [bind]. rewrite E2. cbn [bind]. rewrite E3. cbn [bind]. rewrite E4. cbn [bind]. rewrite E5.
  split; [reflexivity|]. rewrite E6. f_equal.
  assert (Sh : forall w, (length (halve_runs upper_consonant w) <= length w)%nat) by (intros w; now apply (halve_shorter _ (length w))).
  destruct (Nat.leb_spec (length c4) 1) as [L|L].
  - subst c5. rewrite Q6. reflexivity.
  - destruct (Nat.leb_spec (length c3) 1); [subst c4; cbn in L; lia|]. destruct (Nat.leb_spec (length c2) 1); [subst c3; cbn in *; lia|].
    destruct (Nat.leb_spec (length c1) 1); [subst c2; cbn in *; lia|].
    pose proof (halve_six upper_consonant c1 (proj1 F1)) as K. rewrite <- Q2, <- Q3, <- Q4, <- Q5 in K. rewrite Q6. rewrite K.
    destruct (Nat.leb_spec (length c4) 1); [lia|]. now rewrite <- Q5.
Qed.
Theorem C95_match_rating_five : forall u, encoded (mra_encode u) 4 $ "XXXXXXXXXXXX" = Ok $ "X" /\ encoded (mra_encode u) 5 $ "XXXXXXXXXXXX" = Ok [].
Proof. intros u. split; reflexivity. Qed.

(** ** Metaphone, Double Metaphone and Caverphone: a code may change again *)
Theorem C95_metaphone_refuted : forall u, metaphone_encode u None $ "Ashby" = Ok $ "AXB" /\ metaphone_encode u None $ "AXB" = Ok $ "AKSB"
  /\ metaphone_encode u None $ "AKSB" = Ok $ "AKSB" /\ metaphone_encode u None $ "Smith" = Ok $ "SM0" /\ metaphone_encode u None $ "SM0" = Ok $ "SM".
Proof. intros u. repeat (match goal with |- _ /\ _ => split end); vm_compute; reflexivity. Qed.
Theorem C95_double_metaphone_refuted : forall u,
  dm_encode u (Some 4%nat) $ "Smith" = Ok $ "SM0" /\ dm_encode u (Some 4%nat) $ "SM0" = Ok $ "SM" /\ dm_encode u (Some 4%nat) $ "SM" = Ok $ "SM".
Proof. intros u. repeat (match goal with |- _ /\ _ => split end); vm_compute; reflexivity. Qed.
Theorem C95_caverphone_refuted : forall u,
  (caverphone1_encode u $ "wright" = Ok $ "RT1111" /\ caverphone1_encode u $ "RT1111" = Ok $ "T11111" /\ caverphone1_encode u $ "T11111" = Ok $ "T11111")
  /\ (caverphone2_encode u $ "wright" = Ok $ "RT11111111" /\ caverphone2_encode u $ "RT11111111" = Ok $ "T111111111"
      /\ caverphone2_encode u $ "T111111111" = Ok $ "T111111111").
Proof. intros u. repeat (match goal with |- _ /\ _ => split end); vm_compute; reflexivity. Qed.

Example C95_nonvacuous : let u := latin1_only in
  soundex_encode u soundex_default $ "Robert" = Ok $ "R163" /\ soundex_encode u soundex_default $ "R163" = Ok $ "R000"
  /\ refined_encode u ENGLISH_MAPPING $ "Robert" = Ok $ "R901096" /\ refined_encode u ENGLISH_MAPPING $ "R901096" = Ok $ "R9"
  /\ cologne_encode u $ "Müller" = Ok $ "657" /\ cologne_encode u $ "657" = Ok []
  /\ phonex_encode u 4 $ "Zachary" = Ok $ "S260" /\ phonex_encode u 4 $ "S260" = Ok $ "0000" /\ phonex_encode u 4 $ "R163" = Ok $ "R000"
  /\ dms_soundex u dms_default $ "Peters" = Ok $ "734000|739400" /\ dms_soundex u dms_default $ "739400" = Ok $ "000000"
  /\ mra_encode u $ "Byrne" = Ok $ "BYRN" /\ mra_encode u $ "BYRN" = Ok $ "BYRN"
  /\ mra_encode u $ "bbbb" = Ok $ "BB" /\ consonant_doubled $ "BB" /\ mra_encode u $ "BB" = Ok $ "B" /\ mra_encode u $ "B" = Ok [].
Proof. intros u. repeat (match goal with |- _ /\ _ => split end); try (exists [], 66, []; split; reflexivity); vm_compute; reflexivity. Qed.
