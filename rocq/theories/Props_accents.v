(** * C98: letters with accents written without them. *)
From Verif Require Import Base UnicodeM Lib Helper Soundex Cologne MatchRating Caverphone Nysiis Phonex Metaphone DoubleMetaphone RulesParser DaitchMokotoff DmRules
  BaseLemmas UnicodeLemmas Spec_common Spec_doubled Spec_exchange Spec_accents Soundex_proofs Cologne_proofs Dm_proofs Props_cologne Props_doubled Exchange_proofs Exchange_dm_proofs Props_exchange Props_doubled_more.
Local Open Scope N_scope.

Definition ACC : ustr := filter (fun c => negb (c =? # "×") && negb (c =? # "÷")) (map N.of_nat (seq 192 64)).
Lemma ACC_iff : forall c, accented c <-> In c ACC.
Proof.
  intros c. unfold ACC. rewrite filter_In, in_map_iff, andb_true_iff, !negb_true_iff, !N.eqb_neq. unfold accented. split.
  - intros (R & N1 & N2). split; [|auto]. exists (N.to_nat c). split; [lia|]. apply in_seq. lia.
  - intros ((k & <- & I) & N1 & N2). apply in_seq in I. split; [lia|auto].
Qed.
Definition writtenb (pairs : list (ustr * ustr)) (x y : N) : bool := existsb (fun p => isin x (fst p) && isin y (snd p)) pairs.
Lemma writtenb_iff : forall pairs x y, writtenb pairs x y = true <-> written_as pairs x y.
Proof.
  intros pairs x y. unfold writtenb, written_as. rewrite existsb_exists. split.
  - intros ((ls, cs) & I & H). cbn [fst snd] in H. apply andb_true_iff in H as [H1 H2]. exists ls, cs. apply isin_In in H1, H2. auto.
  - intros (ls & cs & I & H1 & H2). exists (ls, cs). split; [exact I|]. cbn [fst snd]. apply andb_true_iff. apply isin_In in H1, H2. now rewrite H1, H2.
Qed.
Lemma tells_accents : forall A (outcome : ustr -> A) (same : A -> A -> bool) before after pairs odd contexts,
  (forall a, same a a = true) ->
  (forall a b, In (a, b) contexts -> before a /\ after b) ->
  forallb (fun x => isin x odd || forallb (fun y => if writtenb pairs x y then true
    else existsb (fun ab => negb (same (outcome (fst ab ++ x :: snd ab)) (outcome (fst ab ++ y :: snd ab)))) contexts) AZ) ACC = true ->
  forall x y, accented x -> ~ In x odd -> # "A" <= y <= # "Z" -> exchangeable outcome before after x y -> written_as pairs x y.
Proof.
  intros A outcome same before after pairs odd contexts Sm K C x y Rx Nx Ry H. apply AZ_iff in Ry. apply ACC_iff in Rx.
  rewrite forallb_forall in C. specialize (C x Rx). destruct (isin x odd) eqn:O; [apply isin_In in O; contradiction|]. cbn [orb] in C. rewrite forallb_forall in C. specialize (C y Ry).
  apply writtenb_iff. destruct (writtenb pairs x y); [reflexivity|]. exfalso.
  apply existsb_exists in C as ((a, b) & I & C). cbn [fst snd] in C. destruct (K a b I) as [Ba Bb].
  rewrite (H a b Ba Bb), Sm in C. discriminate C.
Qed.
(** Enough to check every pair of a table. *)
Lemma every_written : forall pairs (P : N -> N -> Prop), Forall (fun p => Forall (fun x => Forall (P x) (snd p)) (fst p)) pairs ->
  forall x y, written_as pairs x y -> P x y.
Proof.
  intros pairs P F x y (ls & cs & I & Ix & Iy). rewrite Forall_forall in F. specialize (F _ I). cbn in F.
  rewrite Forall_forall in F. specialize (F x Ix). rewrite Forall_forall in F. now apply F.
Qed.
Ltac some_kind := first [exact I|apply capitals_ascii; vm_compute; reflexivity|apply capitals_latin1; vm_compute; reflexivity|exists (# "I"); split; [vm_compute; tauto|reflexivity]|exists (# "-"); split; [vm_compute; tauto|reflexivity]|exists (# "S"); split; [vm_compute; tauto|reflexivity]].
Ltac apart_accents cs := apply (tells_accents _ _ text_eqb _ _ _ _ cs); [exact text_eqb_refl|contexts some_kind|vm_compute; reflexivity].

(** ** Match rating *)
Definition mra_accents : list (ustr * ustr) := [
  ($ "ÀÁÂÃÄÅàáâãäå", $ "A"); ($ "Çç", $ "C"); ($ "ÈÉÊËèéêë", $ "E"); ($ "ÌÍÎÏìíîï", $ "I"); ($ "Ññ", $ "N");
  ($ "ÒÓÔÕÖòóôõö", $ "O"); ($ "ÙÚÛÜùúûü", $ "U"); ($ "Ýý", $ "Y") ].
Lemma clean_app3 : forall u a x b, clean_name u (a ++ x :: b) = clean_name u a ++ clean_name u [x] ++ clean_name u b.
Proof.
  intros u a x b. unfold clean_name. change (a ++ x :: b) with (a ++ [x] ++ b). unfold str_upper. rewrite !flat_map_app, !filter_app, !map_app. reflexivity.
Qed.
Lemma mra_same : forall u a b x y, clean_name u [x] = clean_name u [y] -> is_whitespace u x = false -> is_whitespace u y = false ->
  not_blank (is_whitespace u) (a ++ b) -> mra_encode u (a ++ x :: b) = mra_encode u (a ++ y :: b).
Proof.
  intros u a b x y E Wx Wy (c & Ic & Wc).
  assert (T : forall z, is_whitespace u z = false -> (2 <= length (trim u (a ++ z :: b)))%nat).
  { intros z Wz. apply several_trim. unfold several. rewrite filter_app. cbn [filter]. rewrite Wz. cbn [negb].
    assert (F : In c (filter (fun c => negb (is_whitespace u c)) a ++ filter (fun c => negb (is_whitespace u c)) b)).
    { rewrite <- filter_app. apply filter_In. split; [exact Ic|]. now rewrite Wc. }
    assert (L : forall l : ustr, In c l -> (1 <= length l)%nat) by (intros [|? ?]; [intros []|cbn [length]; lia]).
    apply L in F. rewrite app_length in *. cbn [length]. lia. }
  assert (B : forall s, (2 <= length s)%nat -> Nat.eqb (length s) 0 || Nat.eqb (blen s) 1 = false).
  { intros s Ls. pose proof (length_le_blen s). apply orb_false_iff. split; apply Nat.eqb_neq; lia. }
  unfold mra_encode. rewrite !B by (now apply T). rewrite !clean_app3, E. reflexivity.
Qed.
Lemma mra_checked : forall u x y, written_as mra_accents x y ->
  clean_name u [x] = clean_name u [y] /\ is_whitespace u x = false /\ is_whitespace u y = false.
Proof.
  intros u. apply every_written. unfold mra_accents. repeat (apply Forall_cons || apply Forall_nil); cbn [fst snd];
    repeat (apply Forall_cons || apply Forall_nil); repeat (match goal with |- _ /\ _ => split end); vm_compute; reflexivity.
Qed.
Theorem C98_match_rating : forall u x y, accented x -> ~ In x [ # "ÿ" ] -> # "A" <= y <= # "Z" ->
  (exchangeable (mra_encode u) (not_blank (is_whitespace u)) any_text x y <-> written_as mra_accents x y).
Proof.
  intros u x y Hx Nx Hy. split.
  - revert x y Hx Nx Hy. apart_accents [($ "I", $ ""); ($ "S", $ ""); ($ "-", $ "I")].
  - intros W a b (c & Ic & Wc) _. destruct (mra_checked u x y W) as (E & W1 & W2). apply mra_same; try assumption.
    exists c. split; [apply in_or_app; now left|exact Wc].
Qed.
(** ÿ too, once we know that Ÿ is not white space. *)
Theorem C98_match_rating_front : forall u x y, written_as mra_accents x y ->
  exchangeable (mra_encode u) any_text (not_blank (is_whitespace u)) x y.
Proof.
  intros u x y W a b _ (c & Ic & Wc). destruct (mra_checked u x y W) as (E & W1 & W2). apply mra_same; try assumption.
  exists c. split; [apply in_or_app; now right|exact Wc].
Qed.
Theorem C98_match_rating_y : forall u, is_whitespace u (# "Ÿ") = false -> exchangeable (mra_encode u) (not_blank (is_whitespace u)) any_text (# "ÿ") (# "Y").
Proof.
  intros u W a b (c & Ic & Wc) _. apply mra_same; [|reflexivity|reflexivity|exists c; split; [apply in_or_app; now left|exact Wc]].
  transitivity (map plain (filter (fun c => negb (is_whitespace u c)) [ # "Ÿ" ])); [reflexivity|]. cbn [filter]. rewrite W. reflexivity.
Qed.

(** ** Daitch-Mokotoff *)
Definition dms_accents : list (ustr * ustr) := [
  ($ "ÀÁÂÃÄÅÆàáâãäåæ", $ "A"); ($ "Çç", $ "C"); ($ "ÈÉÊËèéêë", $ "E"); ($ "ÌÍÎÏìíîï", $ "I"); ($ "Ðð", $ "D"); ($ "Ññ", $ "N");
  ($ "ÒÓÔÕÖØòóôõöø", $ "O"); ($ "ÙÚÛùúû", $ "U"); ($ "Ýýÿ", $ "Y"); ($ "ß", $ "S"); ($ "Þþ", $ "BFVW") ].
Definition dms_unaccented : list (ustr * ustr) := [
  ($ "ÀÁÂÃÄÅÆàáâãäåæ", $ "A"); ($ "Çç", $ "C"); ($ "ÈÉÊËèéêë", $ "E"); ($ "ÌÍÎÏìíîï", $ "I"); ($ "Ðð", $ "D"); ($ "Ññ", $ "N");
  ($ "ÒÓÔÕÖØòóôõöø", $ "O"); ($ "ÙÚÛùúû", $ "U"); ($ "Ýýÿ", $ "Y"); ($ "ß", $ "S"); ($ "Þþ", $ "B") ].
Lemma dms_checked : forall u x y, written_as dms_unaccented x y -> dms_source u dms_default [x] = dms_source u dms_default [y].
Proof.
  intros u. apply every_written. unfold dms_unaccented. repeat (apply Forall_cons || apply Forall_nil); cbn [fst snd];
    repeat (apply Forall_cons || apply Forall_nil); vm_compute; reflexivity.
Qed.
Lemma dms_same : forall u br x y a b, written_as dms_accents x y -> latin1_text a ->
  inner_soundex u dms_default (a ++ x :: b) br = inner_soundex u dms_default (a ++ y :: b) br.
Proof.
  intros u br x y a b (ls & cs & I & Ix & Iy) La.
  assert (K : forall z, written_as dms_unaccented x z -> inner_soundex u dms_default (a ++ x :: b) br = inner_soundex u dms_default (a ++ z :: b) br).
  { intros z W. unfold inner_soundex. change (a ++ x :: b) with (a ++ [x] ++ b). change (a ++ z :: b) with (a ++ [z] ++ b).
    now rewrite !source_app, (dms_checked u x z W). }
  unfold dms_accents in I.
  repeat (destruct I as [E|I]; [injection E as <- <-; first
    [apply K; eexists _, _; split; [|split; [exact Ix|exact Iy]]; unfold dms_unaccented; cbn [In]; tauto
    |rewrite (K (# "B")) by (exists $ "Þþ", $ "B"; split; [unfold dms_unaccented; cbn [In]; tauto|split; [exact Ix|now left]]);
     apply dm_exchange; [vm_compute; split; discriminate|vm_compute in Iy; repeat destruct Iy as [<-|Iy]; try destruct Iy; vm_compute; split; discriminate
       |right; eexists; split; [now left|split; [now left|exact Iy]]|exact La]]|]). destruct I.
Qed.
Theorem C98_daitch_mokotoff : forall u x y, accented x -> # "A" <= y <= # "Z" ->
  (exchangeable (dms_soundex u dms_default) latin1_text any_text x y <-> written_as dms_accents x y).
Proof.
  intros u x y Hx Hy. split.
  - intros H. assert (Nx : ~ In x []) by intros []. revert x y Hx Nx Hy H. apart_accents [($ "IMAC", $ "J"); ($ "E", $ "HENOUGH"); ($ "M", $ "UO"); ($ "", $ "C")].
  - intros W a b La _. unfold dms_soundex. now rewrite (dms_same u true x y a b W La).
Qed.
Theorem C98_daitch_mokotoff_first : forall u x y, written_as dms_accents x y -> exchangeable (dms_encode u dms_default) latin1_text any_text x y.
Proof. intros u x y W a b La _. unfold dms_encode. now rewrite (dms_same u false x y a b W La). Qed.

(** ** Cologne *)
Definition cologne_accents : list (ustr * ustr) := [ ($ "Ää", $ "AOU"); ($ "Öö", $ "AOU"); ($ "Üü", $ "AOU"); ($ "ß", $ "SZ") ].
Lemma cologne_checked_accents : forall u x y, written_as [ ($ "Ää", $ "A"); ($ "Öö", $ "O"); ($ "Üü", $ "U") ] x y ->
  map fold_upper (str_upper u [x]) = map fold_upper (str_upper u [y]).
Proof.
  intros u. apply every_written. repeat (apply Forall_cons || apply Forall_nil); cbn [fst snd];
    repeat (apply Forall_cons || apply Forall_nil); vm_compute; reflexivity.
Qed.
Lemma cologne_same : forall u x y a b, written_as [ ($ "Ää", $ "A"); ($ "Öö", $ "O"); ($ "Üü", $ "U") ] x y ->
  cologne_encode u (a ++ x :: b) = cologne_encode u (a ++ y :: b).
Proof.
  intros u x y a b W. rewrite !encode_codes. change (a ++ x :: b) with (a ++ [x] ++ b). change (a ++ y :: b) with (a ++ [y] ++ b).
  now rewrite !str_upper_app, !map_app, (cologne_checked_accents u x y W).
Qed.
Lemma cologne_small_s : forall u a b, cologne_encode u (a ++ # "s" :: b) = cologne_encode u (a ++ # "S" :: b).
Proof.
  intros u a b. rewrite !encode_codes. change (a ++ # "s" :: b) with (a ++ [ # "s" ] ++ b). change (a ++ # "S" :: b) with (a ++ [ # "S" ] ++ b).
  now rewrite !str_upper_app, !map_app.
Qed.
Lemma cologne_written : forall u x y, written_as cologne_accents x y -> exchangeable (cologne_encode u) any_text any_text x y.
Proof.
  intros u x y (ls & cs & I & Ix & Iy) a b _ _.
  assert (G : forall z g, cologne_encode u (a ++ x :: b) = cologne_encode u (a ++ z :: b) -> # "A" <= z <= # "Z" -> # "A" <= y <= # "Z" ->
    In g [$ "AOU"; $ "SZ"] -> In z g -> In y g -> cologne_encode u (a ++ x :: b) = cologne_encode u (a ++ y :: b)).
  { intros z g E Rz Ry Ig Iz Iy'. rewrite E. apply cologne_exchange; try assumption; try exact Logic.I. right. exists g.
    split; [|now split]. destruct Ig as [<-|[<-|[]]]; vm_compute; tauto. }
  assert (Ry : # "A" <= y <= # "Z").
  { unfold cologne_accents in I. repeat (destruct I as [E|I]; [injection E as <- <-; vm_compute in Iy;
      repeat (destruct Iy as [<-|Iy]; [vm_compute; split; discriminate|]); destruct Iy|]). destruct I. }
  destruct I as [E|[E|[E|[E|[]]]]]; injection E as <- <-.
  - apply (G (# "A") $ "AOU"); [apply cologne_same; eexists _, _; split; [now left|split; [exact Ix|now left]]|vm_compute; split; discriminate|exact Ry|now left|now left|exact Iy].
  - apply (G (# "O") $ "AOU"); [apply cologne_same; eexists _, _; split; [now (right; left)|split; [exact Ix|now left]]|vm_compute; split; discriminate|exact Ry|now left|now (right; left)|exact Iy].
  - apply (G (# "U") $ "AOU"); [apply cologne_same; eexists _, _; split; [now (right; right; left)|split; [exact Ix|now left]]|vm_compute; split; discriminate|exact Ry|now left|now (right; right; left)|exact Iy].
  - apply (G (# "S") $ "SZ"); [destruct Ix as [<-|[]]; rewrite encode_sharp_s; apply cologne_small_s|vm_compute; split; discriminate|exact Ry|now (right; left)|now left|exact Iy].
Qed.
Theorem C98_cologne : forall u x y, accented x -> ~ In x [ # "ÿ" ] -> # "A" <= y <= # "Z" ->
  (exchangeable (cologne_encode u) any_text any_text x y <-> written_as cologne_accents x y).
Proof.
  intros u x y Hx Nx Hy. split; [|now apply cologne_written].
  revert x y Hx Nx Hy. apart_accents [($ "", $ ""); ($ "C", $ "H"); ($ "B", $ "B")].
Qed.

(** ** Soundex, Refined Soundex and NYSIIS: only ß, for S *)
Lemma sharp_only : forall x y, written_as [($ "ß", $ "S")] x y -> x = # "ß" /\ y = # "S".
Proof. intros x y (ls & cs & [E|[]] & Ix & Iy). injection E as <- <-. destruct Ix as [<-|[]], Iy as [<-|[]]. auto. Qed.
Lemma clean_sharp : forall u a b, soundex_clean u (a ++ # "ß" :: b) = soundex_clean u (a ++ # "S" :: # "S" :: b).
Proof.
  intros u a b. change (a ++ # "ß" :: b) with (a ++ [ # "ß" ] ++ b). change (a ++ # "S" :: # "S" :: b) with (a ++ [ # "S" ] ++ [ # "S" ] ++ b).
  rewrite !clean_app. reflexivity.
Qed.
Theorem C98_soundex_sharp : forall u sx, exchangeable (soundex_encode u sx) any_text any_text (# "ß") (# "S").
Proof.
  intros u sx a b _ _. rewrite <- (C85_soundex u sx (# "S") ltac:(cbn; lia) a b Logic.I). unfold soundex_encode. now rewrite clean_sharp.
Qed.
Theorem C98_refined_sharp : forall u table, exchangeable (refined_encode u table) any_text any_text (# "ß") (# "S").
Proof.
  intros u m a b _ _. rewrite <- (C85_refined u m (# "S") ltac:(cbn; lia) a b Logic.I). unfold refined_encode. now rewrite clean_sharp.
Qed.
Lemma nysiis_sharp : forall u strict, exchangeable (nysiis_encode u strict) any_text any_text (# "ß") (# "S").
Proof.
  intros u strict a b _ _. rewrite <- (C85_nysiis u strict (# "S") ltac:(vm_compute; tauto) a b Logic.I). unfold nysiis_encode. now rewrite clean_sharp.
Qed.
Ltac no_odd x y Hx Hy := let H := fresh "H" in let Nx := fresh "Nx" in intros H; assert (Nx : ~ In x []) by intros []; revert x y Hx Nx Hy H.
Theorem C98_soundex : forall u x y, accented x -> # "A" <= y <= # "Z" ->
  (exchangeable (soundex_encode u soundex_default) any_text any_text x y <-> written_as [($ "ß", $ "S")] x y).
Proof.
  intros u x y Hx Hy. split; [|intros W; destruct (sharp_only x y W) as [-> ->]; apply C98_soundex_sharp].
  no_odd x y Hx Hy. apart_accents [($ "R", $ ""); ($ "", $ "R"); ($ "BB", $ "B"); ($ "B", $ "B")].
Qed.
Theorem C98_refined : forall u x y, accented x -> # "A" <= y <= # "Z" ->
  (exchangeable (refined_encode u ENGLISH_MAPPING) any_text any_text x y <-> written_as [($ "ß", $ "S")] x y).
Proof.
  intros u x y Hx Hy. split; [|intros W; destruct (sharp_only x y W) as [-> ->]; apply C98_refined_sharp].
  no_odd x y Hx Hy. apart_accents [($ "R", $ ""); ($ "", $ "R")].
Qed.
Theorem C98_nysiis : forall u strict x y, accented x -> # "A" <= y <= # "Z" ->
  (exchangeable (nysiis_encode u strict) any_text any_text x y <-> written_as [($ "ß", $ "S")] x y).
Proof.
  intros u strict x y Hx Hy. split; [|intros W; destruct (sharp_only x y W) as [-> ->]; apply nysiis_sharp].
  no_odd x y Hx Hy. destruct strict; apart_accents [($ "R", $ ""); ($ "", $ "R"); ($ "BB", $ "B"); ($ "B", $ "B")].
Qed.

(** ** The others: none *)
Lemma written_none : forall x y, ~ written_as [] x y.
Proof. intros x y (ls & cs & [] & _). Qed.
Theorem C98_others : forall u x y, accented x -> # "A" <= y <= # "Z" ->
  ~ exchangeable (phonex_encode u 4) ascii_text ascii_text x y
  /\ ~ exchangeable (caverphone1_encode u) ascii_text ascii_text x y
  /\ ~ exchangeable (caverphone2_encode u) ascii_text ascii_text x y
  /\ (forall max, max = None \/ max = Some 4%nat -> ~ exchangeable (metaphone_encode u max) ascii_text ascii_text x y
    /\ ~ exchangeable (double_metaphone u max) ascii_text ascii_text x y).
Proof.
  intros u x y Hx Hy. repeat match goal with |- _ /\ _ => split end; [..|intros max [->| ->]; split]; intros H; apply (written_none x y); revert H; no_odd x y Hx Hy.
  - apart_accents [($ "R", $ ""); ($ "", $ "R"); ($ "BB", $ "B"); ($ "", $ "C"); ($ "", $ "A")].
  - apart_accents [($ "ZJ", $ "Y"); ($ "QDGC", $ "A"); ($ "", $ "H"); ($ "CO", $ "GH"); ($ "T", $ "A"); ($ "C", $ "UGH")].
  - apart_accents [($ "J", $ "I"); ($ "KC", $ "Q"); ($ "D", $ ""); ($ "RTI", $ "GN"); ($ "", $ "H"); ($ "C", $ "UGH")].
  - apart_accents [($ "RDG", $ "HO"); ($ "AAAC", $ "AY"); ($ "CCI", $ "V"); ($ "AAASI", $ "S"); ($ "", $ ""); ($ "", $ "A"); ($ "R", $ ""); ($ "", $ "R"); ($ "BB", $ "B"); ($ "B", $ "B"); ($ "", $ "CH"); ($ "SS", $ "CH")].
  - apply (tells_accents _ _ dm_eqb _ _ _ _ [($ "AAAWCI", $ "E"); ($ "AAAZG", $ ""); ($ "OEV", $ "H"); ($ "JSCH", $ "O"); ($ "", $ "A"); ($ "G", $ ""); ($ "B", $ "B"); ($ "C", $ "C"); ($ "K", $ ""); ($ "", $ "CH")]);
      [exact dm_eqb_refl|contexts some_kind|vm_compute; reflexivity].
  - apart_accents [($ "RDG", $ "HO"); ($ "AAAC", $ "AY"); ($ "CCI", $ "V"); ($ "AAASI", $ "S"); ($ "", $ ""); ($ "", $ "A"); ($ "R", $ ""); ($ "", $ "R"); ($ "BB", $ "B"); ($ "B", $ "B"); ($ "", $ "CH"); ($ "SS", $ "CH")].
  - apply (tells_accents _ _ dm_eqb _ _ _ _ [($ "AAAWCI", $ "E"); ($ "AAAZG", $ ""); ($ "OEV", $ "H"); ($ "JSCH", $ "O"); ($ "", $ "A"); ($ "G", $ ""); ($ "B", $ "B"); ($ "C", $ "C"); ($ "K", $ ""); ($ "", $ "CH")]);
      [exact dm_eqb_refl|contexts some_kind|vm_compute; reflexivity].
Qed.

(** ** The hypotheses are met, and the letters matter *)
Theorem C98_nonvacuous :
  let u := with_ligature in
  accented (# "é") /\ accented (# "ß") /\ ~ accented (# "×") /\ not_blank (is_whitespace u) $ " x"
  /\ written_as mra_accents (# "é") (# "E") /\ mra_encode u $ "Réné" = Ok $ "RN" /\ mra_encode u $ "Rene" = Ok $ "RN"
  /\ mra_encode u $ "É" = Ok $ "E" /\ mra_encode u $ "E" = Ok []
  /\ written_as dms_accents (# "ø") (# "O") /\ dms_soundex u dms_default $ "Sørensen" = dms_soundex u dms_default $ "Sorensen"
  /\ ~ written_as dms_accents (# "ü") (# "U") /\ dms_soundex u dms_default $ "Übel" = Ok $ "780000" /\ dms_soundex u dms_default $ "Ubel" = Ok $ "078000"
  /\ cologne_encode u $ "Müßler" = cologne_encode u $ "MOSLER"
  /\ soundex_encode u soundex_default $ "Weiß" = soundex_encode u soundex_default $ "WEIS"
  /\ caverphone2_encode u $ "Weiß" = Ok $ "Wß1111111" /\ caverphone2_encode u $ "WEIS" = Ok $ "WS11111111".
Proof.
  cbv zeta. repeat match goal with |- _ /\ _ => split end; try (vm_compute; reflexivity).
  all: try (vm_compute; repeat split; discriminate).
  all: try (apply writtenb_iff; vm_compute; reflexivity).
  all: try (intros H; apply writtenb_iff in H; vm_compute in H; discriminate H).
  all: try (intros (_ & H & _); now apply H).
  all: try (exists (# "x"); split; [vm_compute; tauto|reflexivity]).
Qed.
