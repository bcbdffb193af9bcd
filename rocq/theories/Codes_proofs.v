(** * Which codes exist: Soundex, Refined Soundex, Cologne, match rating, Phonex. *)
From Verif Require Import Base UnicodeM Lib Soundex Cologne MatchRating BaseLemmas Spec_common Spec_soundex
  Spec_cologne Spec_mra Spec_phonex Spec_codes Spec_rewrite Phonex Lib_proofs Soundex_proofs UnicodeLemmas Cologne_proofs Mra_proofs Rewrite_proofs Props_soundex
  Props_cologne Props_mra Props_phonex Props_phonex_spec.
Local Open Scope N_scope.

Definition AZ : ustr := $ "ABCDEFGHIJKLMNOPQRSTUVWXYZ".
Lemma AZ_upper : forall c, In c AZ <-> is_ascii_upper c = true.
Proof.
  intros c. split.
  - intros H. cbn [In AZ] in H. repeat (destruct H as [<-|H]; [reflexivity|]). destruct H.
  - intros H. now apply is_ascii_upper_cases in H.
Qed.
Lemma on_AZ : forall (P : N -> bool) c, is_ascii_upper c = true -> forallb P AZ = true -> P c = true.
Proof. intros P c H F. rewrite forallb_forall in F. now apply F, AZ_upper. Qed.
Lemma on_set : forall (P : N -> bool) set c, In c set -> forallb P set = true -> P c = true.
Proof. intros P set c H F. rewrite forallb_forall in F. now apply F. Qed.
Lemma AZ_alpha : forall c, is_ascii_upper c = true -> is_ascii_alpha c = true /\ ascii_up c = c /\ c < 128.
Proof.
  intros c H. assert (K := on_AZ (fun c => is_ascii_alpha c && (ascii_up c =? c) && (c <? 128)) c H eq_refl).
  cbn beta in K. apply andb_true_iff in K as [K K3]. apply andb_true_iff in K as [K1 K2].
  apply N.eqb_eq in K2. apply N.ltb_lt in K3. auto.
Qed.
Lemma letters_AZ : forall s, uppers s -> ascii_letters s = s /\ ascii_str s.
Proof.
  induction s as [|c s IH]; intros H; [split; [reflexivity|intros x []]|].
  destruct (AZ_alpha c) as (K1 & K2 & K3); [apply H; now left|].
  destruct IH as [I1 I2]; [intros x Hx; apply H; now right|].
  split; [|now apply ascii_str_cons]. unfold ascii_letters. cbn [filter]. rewrite K1. cbn [map].
  rewrite K2. f_equal. exact I1.
Qed.
Lemma filled_pad : forall n x f ds, filled (S n) x (f :: firstn n ds) (f :: pad_to n x ds).
Proof.
  intros n x f ds. split.
  - cbn [length]. rewrite firstn_length. lia.
  - cbn [app]. f_equal. rewrite pad_to_alt. f_equal. f_equal. cbn [length]. rewrite firstn_length. lia.
Qed.
Lemma filled_is_pad : forall n x f ds code, filled (S n) x (f :: ds) code -> code = f :: pad_to n x ds.
Proof.
  intros n x f ds code [L ->]. cbn [length app] in *. f_equal.
  rewrite pad_to_alt, firstn_all2 by lia. f_equal.
Qed.
Lemma In_firstn : forall A n (l : list A) x, In x (firstn n l) -> In x l.
Proof. intros A n l x H. rewrite <- (firstn_skipn n l). apply in_or_app. now left. Qed.
Lemma nae_firstn : forall n l, no_adjacent_equal l -> no_adjacent_equal (firstn n l).
Proof.
  induction n as [|n IH]; intros l H; [exact I|]. destruct l as [|x l]; [exact I|]. cbn [firstn].
  destruct l as [|y l]; [now destruct n|]. destruct n as [|n]; [exact I|]. destruct H as [H1 H2].
  apply IH in H2. cbn [firstn] in *. split; assumption.
Qed.
Lemma collapse_nae_id : forall l, no_adjacent_equal l -> collapse l = l.
Proof.
  induction l as [|x l IH]; intros H; [reflexivity|]. cbn [collapse]. destruct l as [|y l]; [reflexivity|].
  destruct H as [H1 H2]. apply N.eqb_neq in H1. rewrite H1. f_equal. now apply IH.
Qed.

(** ** Soundex *)
Definition digit_letter (d : N) : N := nth (N.to_nat (d - # "1")) $ "BCDLMR" (# "R").
Lemma digits16 : forall d, In d $ "123456" ->
  is_ascii_upper (digit_letter d) = true /\ american_digit (digit_letter d) = d
  /\ american_transparent (digit_letter d) = false /\ d <> # "0"
  /\ isin (digit_letter d) $ "AEIOUYHW" = false /\ d <> # "-".
Proof.
  intros d H. cbn [In] in H. repeat (destruct H as [<-|H]; [vm_compute; repeat split; discriminate|]). destruct H.
Qed.
Lemma collapse_spaced : forall ds x, made_of $ "123456" ds ->
  filter (fun d => negb (d =? # "0")) (tl (collapse (x :: flat_map (fun d => [# "0"; d]) ds))) = ds.
Proof.
  induction ds as [|d ds IH]; intros x H; [reflexivity|]. cbn [flat_map app].
  assert (Hd : d <> # "0") by (apply digits16, H; now left).
  rewrite !tl_collapse. specialize (IH d (fun c Hc => H c (or_intror Hc))).
  rewrite (N.eqb_sym (# "0") d). apply N.eqb_neq in Hd. rewrite Hd.
  destruct (x =? # "0"); cbn [filter]; rewrite ?N.eqb_refl, Hd; cbn [negb]; now rewrite IH.
Qed.
Lemma uppers_cons : forall c l, uppers (c :: l) <-> is_ascii_upper c = true /\ uppers l.
Proof.
  intros c l. split.
  - intros H. split; [apply H; now left|intros x Hx; apply H; now right].
  - intros [H1 H2] x [<-|Hx]; auto.
Qed.
Lemma uppers_set : forall set l, made_of set l -> forallb is_ascii_upper set = true -> uppers l.
Proof. intros set l H F x Hx. now apply (on_set is_ascii_upper set x (H x Hx)). Qed.

Definition soundex_witness (f : N) (ds : ustr) : ustr := f :: flat_map (fun d => [# "A"; digit_letter d]) ds.
Lemma witness_uppers : forall f ds, is_ascii_upper f = true -> made_of $ "123456" ds ->
  uppers (soundex_witness f ds).
Proof.
  intros f ds Hf H. apply uppers_cons. split; [assumption|]. intros x Hx. apply in_flat_map in Hx as (d & Hd & Hx).
  destruct Hx as [<-|[<-|[]]]; [reflexivity|]. now apply digits16, H.
Qed.
Lemma witness_digits : forall f ds, made_of $ "123456" ds ->
  soundex_digits american_digit american_transparent f (flat_map (fun d => [# "A"; digit_letter d]) ds) = ds.
Proof.
  intros f ds H. unfold soundex_digits.
  assert (E : map american_digit (filter (fun c => negb (american_transparent c))
            (flat_map (fun d => [# "A"; digit_letter d]) ds)) = flat_map (fun d => [# "0"; d]) ds).
  { induction ds as [|d ds IH]; [reflexivity|]. cbn [flat_map app filter].
    destruct (digits16 d) as (_ & E2 & E3 & _); [apply H; now left|].
    change (american_transparent (# "A")) with false. cbn [negb filter]. rewrite E3. cbn [negb map].
    rewrite E2. do 2 f_equal. apply IH. intros x Hx. apply H. now right. }
  rewrite E. now apply collapse_spaced.
Qed.
Lemma american_digit_made : forall c, is_ascii_upper c = true -> In (american_digit c) $ "0123456".
Proof. intros c H. apply isin_In. now apply (on_AZ (fun c => isin (american_digit c) $ "0123456")). Qed.
Lemma nonzero_digit : forall d, In d $ "0123456" -> d <> # "0" -> In d $ "123456".
Proof. intros d [H|H] N; [now destruct N|exact H]. Qed.

Lemma soundex_codes : forall u code,
  (exists s, soundex_encode u soundex_default s = Ok code) <-> soundex_form code.
Proof.
  intros u code. split.
  - intros [s H]. apply encode_ok_prefix in H; [|reflexivity]. destruct H as (p & t & _ & Hp & _ & ->).
    change (sx_mapping soundex_default) with DEFAULT_US_ENGLISH_MAPPING_SOUNDEX.
    change (sx_special_case_h_w soundex_default) with true.
    rewrite (soundex_code_ext _ american_digit _ american_transparent p Hp american_table).
    destruct p as [|f q]; [now left|]. apply uppers_cons in Hp as [Hf Hq]. right.
    set (ds := soundex_digits american_digit american_transparent f q).
    exists f, (firstn 3 ds). split; [now apply AZ_upper|]. split; [|cbn [soundex_code]; apply filled_pad].
    intros d Hd. apply In_firstn in Hd. unfold ds, soundex_digits in Hd. apply filter_In in Hd as [H1 H2].
    apply nonzero_digit; [|intros ->; discriminate].
    assert (K : In d (collapse (american_digit f :: map american_digit (filter (fun c => negb (american_transparent c)) q)))).
    { destruct (collapse _); [destruct H1|now right]. }
    apply collapse_incl in K as [<-|K]; [now apply american_digit_made|].
    apply in_map_iff in K as (x & <- & Hx). apply filter_In in Hx as [Hx _]. apply american_digit_made. now apply Hq.
  - intros [->|(f & ds & Hf & Hd & Hp)].
    + exists []. reflexivity.
    + apply AZ_upper in Hf. exists (soundex_witness f ds).
      destruct (letters_AZ _ (witness_uppers f ds Hf Hd)) as [L A].
      rewrite encode_american by now apply ascii_str_letters. rewrite L. f_equal.
      apply filled_is_pad in Hp. rewrite Hp. unfold american_soundex, soundex_witness. cbn [soundex_code].
      now rewrite witness_digits.
Qed.

(** *** The genealogy table *)
Definition gen_digit (c : N) : N := if isin c $ "AEIOUYHW" then # "-" else american_digit c.
Definition gen_silent (c : N) : bool := isin c $ "AEIOUYHW".
Lemma gen_table : forall c, is_ascii_upper c = true ->
  table_digit DEFAULT_US_ENGLISH_GENEALOGY_MAPPING_SOUNDEX c = gen_digit c
  /\ table_transparent DEFAULT_US_ENGLISH_GENEALOGY_MAPPING_SOUNDEX false c = gen_silent c.
Proof.
  intros c Hc. apply is_ascii_upper_cases in Hc. cbn [In] in Hc.
  repeat (destruct Hc as [<-|Hc]; [split; reflexivity|]). destruct Hc.
Qed.
Lemma gen_digit_sounding : forall c, is_ascii_upper c = true -> gen_silent c = false ->
  In (gen_digit c) $ "123456".
Proof.
  intros c H S. assert (K := on_AZ (fun c => gen_silent c || isin (gen_digit c) $ "123456") c H eq_refl).
  cbn beta in K. rewrite S in K. now apply isin_In.
Qed.
Lemma american_gen : forall f ds, is_ascii_upper f = true -> made_of $ "123456" ds ->
  (no_adjacent_equal (american_digit f :: ds) <-> no_adjacent_equal (gen_digit f :: ds)).
Proof.
  intros f ds Hf Hd. destruct ds as [|d ds]; [reflexivity|]. cbn [no_adjacent_equal].
  assert (Hd' : In d $ "123456") by (apply Hd; now left).
  destruct (gen_silent f) eqn:S.
  - unfold gen_digit. unfold gen_silent in S. rewrite S.
    assert (E : american_digit f = # "0").
    { assert (K := on_AZ (fun c => negb (gen_silent c) || (american_digit c =? # "0")) f Hf eq_refl).
      cbn beta in K. unfold gen_silent in K. rewrite S in K. now apply N.eqb_eq in K. }
    rewrite E. destruct (digits16 d Hd') as (_ & _ & _ & N0 & _ & N1). split; intros [_ K]; split; auto.
  - unfold gen_digit. unfold gen_silent in S. now rewrite S.
Qed.
Lemma tl_collapse_nae : forall d ds, no_adjacent_equal (d :: tl (collapse (d :: ds))).
Proof. intros d ds. rewrite <- collapse_cons. apply collapse_nae. Qed.
Lemma filter_id : forall A (p : A -> bool) l, (forall x, In x l -> p x = true) -> filter p l = l.
Proof.
  induction l as [|x l IH]; intros H; [reflexivity|]. cbn [filter]. rewrite H by now left. f_equal.
  apply IH. intros y Hy. apply H. now right.
Qed.
Lemma In_tl : forall A (l : list A) x, In x (tl l) -> In x l.
Proof. intros A [|y l] x H; [destruct H|now right]. Qed.
Lemma tl_collapse_set : forall set d ds, made_of set ds -> (forall x, In x (tl (collapse (d :: ds))) -> In x set).
Proof.
  intros set d ds. revert d. induction ds as [|e ds IH]; intros d H x Hx; [destruct Hx|].
  rewrite tl_collapse in Hx. assert (H' : made_of set ds) by (intros y Hy; apply H; now right).
  destruct (d =? e); [now apply (IH e)|]. destruct Hx as [<-|Hx]; [apply H; now left|now apply (IH e)].
Qed.
Lemma genealogy_codes : forall u code,
  (exists s, soundex_encode u (soundex_from DEFAULT_US_ENGLISH_GENEALOGY_MAPPING_SOUNDEX) s = Ok code)
  <-> genealogy_form code.
Proof.
  intros u code. split.
  - intros [s H]. apply encode_ok_prefix in H; [|reflexivity]. destruct H as (p & t & _ & Hp & _ & ->).
    change (sx_mapping (soundex_from DEFAULT_US_ENGLISH_GENEALOGY_MAPPING_SOUNDEX))
      with DEFAULT_US_ENGLISH_GENEALOGY_MAPPING_SOUNDEX.
    change (sx_special_case_h_w (soundex_from DEFAULT_US_ENGLISH_GENEALOGY_MAPPING_SOUNDEX)) with false.
    rewrite (soundex_code_ext _ gen_digit _ gen_silent p Hp gen_table).
    destruct p as [|f q]; [now left|]. apply uppers_cons in Hp as [Hf Hq]. right.
    set (q' := map gen_digit (filter (fun c => negb (gen_silent c)) q)).
    assert (Q : made_of $ "123456" q').
    { intros x Hx. apply in_map_iff in Hx as (y & <- & Hy). apply filter_In in Hy as [Hy Hs].
      apply gen_digit_sounding; [now apply Hq|]. now apply negb_true_iff. }
    set (ds := tl (collapse (gen_digit f :: q'))).
    assert (D : made_of $ "123456" ds) by (intros x Hx; now apply (tl_collapse_set $ "123456" (gen_digit f) q')).
    assert (E : soundex_digits gen_digit gen_silent f q = ds).
    { unfold soundex_digits. fold q' ds. apply filter_id. intros x Hx. apply D, digits16 in Hx.
      apply negb_true_iff, N.eqb_neq. apply Hx. }
    exists f, (firstn 3 ds). split; [now apply AZ_upper|].
    assert (D3 : made_of $ "123456" (firstn 3 ds)) by (intros x Hx; apply D; now apply In_firstn in Hx).
    split; [exact D3|]. split.
    + apply american_gen; [assumption|assumption|]. apply (nae_firstn 4 (gen_digit f :: ds)).
      unfold ds. apply tl_collapse_nae.
    + cbn [soundex_code]. rewrite E. apply filled_pad.
  - intros [->|(f & ds & Hf & Hd & Hn & Hp)].
    + exists []. reflexivity.
    + apply AZ_upper in Hf. exists (f :: map digit_letter ds).
      assert (U : uppers (f :: map digit_letter ds)).
      { apply uppers_cons. split; [assumption|]. intros x Hx. apply in_map_iff in Hx as (d & <- & Hx).
        now apply digits16, Hd. }
      destruct (letters_AZ _ U) as [L A].
      rewrite C06_soundex_genealogy by now apply ascii_str_letters. rewrite L. f_equal.
      apply filled_is_pad in Hp. rewrite Hp. fold gen_digit gen_silent. cbn [soundex_code]. f_equal. f_equal.
      unfold soundex_digits.
      assert (E : map gen_digit (filter (fun c => negb (gen_silent c)) (map digit_letter ds)) = ds).
      { clear Hn Hp U L A. induction ds as [|d ds IH]; [reflexivity|].
        destruct (digits16 d) as (_ & E2 & _ & _ & E5 & _); [apply Hd; now left|].
        cbn [map filter]. unfold gen_silent at 1. rewrite E5. cbn [negb map]. unfold gen_digit at 1.
        rewrite E5, E2. f_equal. apply IH. intros x Hx. apply Hd. now right. }
      rewrite E. apply american_gen in Hn; [|assumption|assumption]. rewrite collapse_nae_id by exact Hn.
      cbn [tl]. apply filter_id. intros x Hx. apply Hd, digits16 in Hx. apply negb_true_iff, N.eqb_neq. apply Hx.
Qed.

(** ** Refined Soundex *)
Definition refined_letter (d : N) : N := nth (N.to_nat (d - # "0")) $ "ABFCGQDLMR" (# "R").
Lemma refined_letters09 : forall d, In d $ "0123456789" ->
  is_ascii_upper (refined_letter d) = true /\ refined_digit (refined_letter d) = d.
Proof. intros d H. cbn [In] in H. repeat (destruct H as [<-|H]; [split; reflexivity|]). destruct H. Qed.
Lemma refined_codes : forall u code,
  (exists s, refined_encode u ENGLISH_MAPPING s = Ok code) <-> refined_form code.
Proof.
  intros u code. split.
  - intros [s H]. rewrite C10_refined_every_text in H by reflexivity. unfold refined_outcome in H.
    set (w := upper_letters (is_alphabetic u) (to_upper u) s) in *. clearbody w.
    destruct (upper_split w) as [HU|(p & c & r & -> & Hp & Hc)].
    + rewrite leading_uppers, Nat.eqb_refl in H by assumption. cbn [opt_res] in H. injection H as <-.
      destruct w as [|f q]; [now left|]. right. cbn [refined_code].
      assert (E : map (table_digit ENGLISH_MAPPING) (f :: q) = map refined_digit (f :: q)).
      { apply map_ext_in. intros x Hx. apply refined_table. now apply HU. }
      rewrite E. cbn [map]. exists f, (tl (collapse (refined_digit f :: map refined_digit q))).
      split; [apply AZ_upper, HU; now left|]. split; [|split].
      * intros x Hx. apply (tl_collapse_set $ "0123456789") in Hx; [exact Hx|].
        intros y Hy. apply in_map_iff in Hy as (z & <- & Hz). apply isin_In.
        apply (on_AZ (fun c => isin (refined_digit c) $ "0123456789")); [|reflexivity]. apply HU. now right.
      * apply tl_collapse_nae.
      * now rewrite collapse_cons at 1.
    + rewrite leading_split in H by assumption.
      replace (Nat.eqb (length p) (length (p ++ c :: r))) with false in H
        by (symmetry; apply Nat.eqb_neq; rewrite app_length; cbn; lia).
      discriminate.
  - intros [->|(f & ds & Hf & Hd & Hn & ->)].
    + exists []. reflexivity.
    + apply AZ_upper in Hf. exists (f :: map refined_letter ds).
      assert (U : uppers (f :: map refined_letter ds)).
      { apply uppers_cons. split; [assumption|]. intros x Hx. apply in_map_iff in Hx as (d & <- & Hx).
        now apply refined_letters09, Hd. }
      destruct (letters_AZ _ U) as [L A].
      rewrite refined_english by now apply ascii_str_letters. rewrite L. cbn [refined_code map].
      assert (E : map refined_digit (map refined_letter ds) = ds).
      { rewrite map_map. rewrite <- (map_id ds) at 2. apply map_ext_in. intros x Hx. now apply refined_letters09, Hd. }
      rewrite E, collapse_nae_id by exact Hn. reflexivity.
Qed.

(** ** Cologne *)
Definition cologne_letter (d : N) : N := nth (N.to_nat (d - # "1")) $ "BDFKLMRS" (# "S").
Definition cologne_witness (ds : ustr) : ustr := flat_map (fun d => [cologne_letter d; # "A"]) ds.
Lemma cologne_digit18 : forall d, In d $ "12345678" ->
  d <> # "0" /\ d <> # "-" /\ is_ascii_upper (cologne_letter d) = true /\ umlaut_base (cologne_letter d) = cologne_letter d
  /\ forall o p, cologne_table o p (Some (# "A")) (cologne_letter d) = [d].
Proof.
  intros d H. cbn [In] in H.
  repeat (destruct H as [<-|H]; [split; [discriminate|split; [discriminate|split; [reflexivity|split; [reflexivity|]]]];
    intros o p; reflexivity|]). destruct H.
Qed.
Lemma cologne_witness_codes : forall ds before, made_of $ "12345678" ds ->
  cologne_codes before (map umlaut_base (cologne_witness ds)) = flat_map (fun d => [d; # "0"]) ds.
Proof.
  induction ds as [|d ds IH]; intros before H; [reflexivity|].
  destruct (cologne_digit18 d) as (_ & _ & U & E1 & E2); [apply H; now left|].
  cbn [cologne_witness flat_map app map]. rewrite E1. change (umlaut_base (# "A")) with (# "A").
  cbn [cologne_codes]. change (isin (cologne_letter d) $ "ABCDEFGHIJKLMNOPQRSTUVWXYZ") with (isin (cologne_letter d) AZ).
  rewrite (proj2 (isin_In (cologne_letter d) AZ)) by now apply AZ_upper. cbn [hd_error]. rewrite E2.
  change (isin (# "A") $ "ABCDEFGHIJKLMNOPQRSTUVWXYZ") with true. cbn [app]. f_equal.
  change (cologne_table ?o ?p ?n (# "A")) with $ "0". cbn [app]. f_equal. apply IH.
  intros x Hx. apply H. now right.
Qed.
Lemma spaced_collapse : forall ds, made_of $ "12345678" ds ->
  collapse (flat_map (fun d => [d; # "0"]) ds) = flat_map (fun d => [d; # "0"]) ds
  /\ collapse (# "0" :: flat_map (fun d => [d; # "0"]) ds) = # "0" :: flat_map (fun d => [d; # "0"]) ds.
Proof.
  induction ds as [|d ds IH]; intros H; [split; reflexivity|].
  destruct (cologne_digit18 d) as (N0 & _); [apply H; now left|].
  destruct IH as [_ IH]; [intros x Hx; apply H; now right|].
  assert (E : collapse (flat_map (fun d => [d; # "0"]) (d :: ds)) = flat_map (fun d => [d; # "0"]) (d :: ds)).
  { cbn [flat_map app]. change (collapse (d :: # "0" :: flat_map (fun d => [d; # "0"]) ds))
      with (if d =? # "0" then collapse (# "0" :: flat_map (fun d => [d; # "0"]) ds)
            else d :: collapse (# "0" :: flat_map (fun d => [d; # "0"]) ds)).
    apply N.eqb_neq in N0. rewrite N0. now f_equal. }
  split; [exact E|]. cbn [flat_map app] in *.
  change (collapse (# "0" :: d :: # "0" :: flat_map (fun d => [d; # "0"]) ds))
      with (if # "0" =? d then collapse (d :: # "0" :: flat_map (fun d => [d; # "0"]) ds)
            else # "0" :: collapse (d :: # "0" :: flat_map (fun d => [d; # "0"]) ds)).
  rewrite E. apply not_eq_sym, N.eqb_neq in N0. now rewrite N0.
Qed.
Lemma spaced_filter : forall (p q : N -> bool) z ds,
  (forall d, In d ds -> p d = true /\ q d = true) -> p z = true -> q z = false ->
  filter q (filter p (flat_map (fun d => [d; z]) ds)) = ds.
Proof.
  intros p q z ds H P Q. induction ds as [|d ds IH]; [reflexivity|]. cbn [flat_map app filter].
  destruct (H d) as [H1 H2]; [now left|]. rewrite H1, P. cbn [filter]. rewrite H2, Q. f_equal.
  apply IH. intros x Hx. apply H. now right.
Qed.
Lemma cologne_codes_exist : forall u code, (exists s, cologne_encode u s = Ok code) <-> cologne_form code.
Proof.
  intros u code. split.
  - intros [s H]. apply C12_cologne_digits in H as [H1 H2].
    assert (K : forall c, # "0" <= c <= # "8" -> c <> # "0" -> In c $ "12345678").
    { intros c R N. apply isin_In. cbn. repeat rewrite orb_true_iff. rewrite !N.eqb_eq. lia. }
    destruct code as [|c r].
    + exists []. split; [intros x []|now left].
    + cbn [tl] in H2. assert (R : made_of $ "12345678" r).
      { intros x Hx. apply K; [apply H1; now right|now apply H2]. }
      destruct (N.eq_dec c (# "0")) as [->|N0].
      * exists r. split; [exact R|now right].
      * exists (c :: r). split; [|now left]. intros x [<-|Hx]; [|now apply R]. apply K; [apply H1; now left|exact N0].
  - intros (ds & H & HC).
    assert (F : forall d, In d ds -> (negb (d =? # "-") = true /\ negb (d =? # "0") = true)).
    { intros d Hd. apply H, cologne_digit18 in Hd as (N0 & N1 & _). split; now apply negb_true_iff, N.eqb_neq. }
    assert (U : uppers (cologne_witness ds)).
    { intros x Hx. apply in_flat_map in Hx as (d & Hd & [<-|[<-|[]]]); [|reflexivity]. now apply cologne_digit18, H. }
    assert (Up : forall l, uppers l -> str_upper u l = l).
    { intros l Hl. destruct (letters_AZ l Hl) as [_ A]. rewrite str_upper_ascii by assumption.
      rewrite <- (map_id l) at 2. apply map_ext_in. intros x Hx. now apply AZ_alpha, Hl. }
    destruct (spaced_collapse ds H) as [C1 C2]. destruct HC as [->| ->].
    + exists (cologne_witness ds). rewrite C13_cologne_is_its_table, Up by assumption. f_equal.
      unfold cologne_code. rewrite cologne_witness_codes by assumption. unfold cologne_reduce. rewrite C1.
      destruct ds as [|d ds]; [reflexivity|]. destruct (F d) as [F1 F2]; [now left|]. cbn [flat_map app filter]. rewrite F1.
      f_equal. change (negb (# "0" =? # "-")) with true. cbn [filter]. change (negb (# "0" =? # "0")) with false. cbn [filter].
      apply spaced_filter; [|reflexivity|reflexivity]. intros x Hx. apply F. now right.
    + exists (# "A" :: cologne_witness ds). rewrite C13_cologne_is_its_table, Up.
      2: { apply uppers_cons. split; [reflexivity|exact U]. }
      f_equal. unfold cologne_code. cbn [map cologne_codes]. change (umlaut_base (# "A")) with (# "A").
      change (isin (# "A") $ "ABCDEFGHIJKLMNOPQRSTUVWXYZ") with true. cbv iota.
      change (cologne_table ?o ?p ?n (# "A")) with $ "0". rewrite cologne_witness_codes by assumption. cbn [app].
      unfold cologne_reduce. rewrite C2. cbn [filter]. change (negb (# "0" =? # "-")) with true. cbv iota. f_equal.
      apply spaced_filter; [exact F|reflexivity|reflexivity].
Qed.

(** ** Match rating *)
Definition mra_witness (code : ustr) : ustr :=
  flat_map (fun c => if upper_consonant c then [c; c] else [c]) code.
Lemma halve_witness : forall code, halve_runs upper_consonant (mra_witness code) = code.
Proof.
  induction code as [|c r IH]; [reflexivity|]. unfold mra_witness in *. cbn [flat_map].
  destruct (upper_consonant c) eqn:E; cbn [app halve_runs].
  - rewrite N.eqb_refl, E. cbn [andb]. now f_equal.
  - destruct (flat_map _ r) as [|y l] eqn:F.
    + f_equal. rewrite <- IH. reflexivity.
    + rewrite E, andb_false_r. f_equal. exact IH.
Qed.
Lemma trim_no_ws : forall u s, (forall c, In c s -> is_whitespace u c = false) -> trim u s = s.
Proof.
  assert (K : forall u s, (forall c, In c s -> is_whitespace u c = false) -> trim_start u s = s).
  { intros u [|c s] H; [reflexivity|]. cbn [trim_start]. now rewrite H by now left. }
  intros u s H. unfold trim. rewrite (K u s H), K; [apply rev_involutive|].
  intros c Hc. apply H. now apply in_rev.
Qed.
Lemma match_rating_codes : forall u code,
  (exists s, ascii_str s /\ mra_encode u s = Ok code) <-> match_rating_form code.
Proof.
  intros u code. split.
  - intros (s & A & H). rewrite C29_code in H by assumption. injection H as <-.
    destruct (Nat.leb (length (trim u s)) 1).
    + split; [cbn; lia|]. split; intros c [].
    + split; [apply first3_length|]. split.
      * intros c Hc. apply mra_code_clean in Hc as (H1 & H2 & H3); [|assumption]. split; [assumption|].
        apply isin_false in H2. split; [|split].
        -- intros R. destruct (ascii_up_cases c) as [[_ E]|[? _]]; [lia|contradiction].
        -- intros R. apply H2. cbn [In]. lia.
        -- intros K. apply H2. do 5 right. exact K.
      * intros c Hc. apply mra_code_vowels in Hc. now apply isin_false in Hc.
  - intros (L & H & HV). destruct code as [|f r].
    { exists []. split; [intros x []|]. reflexivity. }
    set (s := mra_witness (f :: r) ++ $ "A"). exists s.
    assert (I : forall c, In c s -> c < 128 /\ ~ (97 <= c <= 122) /\ ~ (9 <= c <= 13) /\ ~ In c $ " -&'.,").
    { intros c Hc. unfold s in Hc. apply in_app_or in Hc as [Hc|[<-|[]]].
      - apply H. apply in_flat_map in Hc as (x & Hx & Hc). destruct (upper_consonant x);
          [destruct Hc as [<-|[<-|[]]]|destruct Hc as [<-|[]]]; exact Hx.
      - split; [reflexivity|]. split; [lia|]. split; [lia|]. intros K. apply isin_In in K. discriminate. }
    assert (A : ascii_str s) by (intros c Hc; now apply I). split; [exact A|].
    assert (Nz : forall c, In c s -> mra_noise c = false).
    { intros c Hc. apply I in Hc as (_ & _ & H3 & H4). unfold mra_noise. apply isin_false. intros K.
      do 5 (destruct K as [<-|K]; [lia|]). now apply H4. }
    assert (W : forall c, In c s -> is_whitespace u c = false).
    { intros c Hc. pose proof (Nz c Hc) as Nc. apply isin_false in Nc. pose proof (A c Hc) as Ac. cbn [In] in Nc.
      destruct (is_whitespace u c) eqn:E; [|reflexivity]. exfalso. apply Nc.
      unfold is_whitespace in E. replace (c <? 256) with true in E by (symmetry; apply N.ltb_lt; lia).
      rewrite !orb_true_iff, andb_true_iff, !N.leb_le, !N.eqb_eq in E. cbn. lia. }
    assert (Up : map ascii_up s = s).
    { rewrite <- (map_id s) at 2. apply map_ext_in. intros c Hc. apply I in Hc as (_ & H2 & _).
      destruct (ascii_up_cases c) as [[R _]|[_ E]]; [contradiction|exact E]. }
    rewrite C29_code, trim_no_ws by assumption.
    assert (Ls : (2 <= length s)%nat).
    { unfold s. rewrite app_length. cbn [mra_witness flat_map]. rewrite app_length.
      destruct (upper_consonant f); cbn [length]; lia. }
    replace (Nat.leb (length s) 1) with false by (symmetry; apply Nat.leb_gt; lia). f_equal.
    unfold mra_code. rewrite Up. rewrite filter_id by (intros x Hx; now rewrite Nz).
    assert (D : drop_inner_vowels s = mra_witness (f :: r)).
    { unfold s. cbn [mra_witness flat_map].
      assert (E : filter (fun c => negb (Spec_mra.upper_vowel c)) ((flat_map (fun c => if upper_consonant c then [c; c] else [c]) r) ++ $ "A")
                  = flat_map (fun c => if upper_consonant c then [c; c] else [c]) r).
      { rewrite filter_app. change (filter _ $ "A") with (@nil N). rewrite app_nil_r.
        apply filter_id. intros x Hx. apply in_flat_map in Hx as (y & Hy & Hx).
        assert (Ey : x = y) by (destruct (upper_consonant y); [destruct Hx as [<-|[<-|[]]]|destruct Hx as [<-|[]]]; reflexivity).
        subst y. apply negb_true_iff. unfold Spec_mra.upper_vowel. apply isin_false. now apply HV. }
      destruct (upper_consonant f) eqn:F; cbn [app drop_inner_vowels filter].
      - assert (Vf : Spec_mra.upper_vowel f = false).
        { unfold upper_consonant in F. apply isin_In in F. unfold Spec_mra.upper_vowel.
          pose proof (on_set (fun c => negb (isin c $ "AEIOU")) _ f F eq_refl) as K. now apply negb_true_iff. }
        rewrite Vf. cbn [negb]. now rewrite E.
      - now rewrite E. }
    rewrite D, halve_witness. unfold first3_last3. replace (Nat.ltb 6 (length (f :: r))) with false; [reflexivity|].
    symmetry. apply Nat.ltb_ge. exact L.
Qed.

(** ** Phonex *)
Definition phonex_syllables (ds : ustr) : ustr := flat_map (fun d => [# "A"; digit_letter d]) ds ++ $ "A".
Definition phonex_witness (f : N) (ds : ustr) : ustr :=
  (if f =? # "H" then $ "HH" else [f]) ++ phonex_syllables ds.
Lemma phonex_digit_syllable : forall d r before, In d $ "123456" ->
  phonex_digit before (digit_letter d) (# "A" :: r) = d /\ phonex_swallows (digit_letter d) (# "A" :: r) = false.
Proof. intros d r before H. cbn [In] in H. repeat (destruct H as [<-|H]; [split; reflexivity|]). destruct H. Qed.
Lemma phonex_digits_witness : forall ds before last written, made_of $ "123456" ds -> no_adjacent_equal ds ->
  (match written, ds with Some w, d :: _ => w <> d | _, _ => True end) ->
  phonex_digits before last written (phonex_syllables ds) ds.
Proof.
  induction ds as [|d ds IH]; intros before lst written H Hn Hw.
  - cbn [phonex_syllables flat_map app]. eapply pd_silent; [reflexivity|now left|cbn; reflexivity|]. constructor.
  - unfold phonex_syllables. cbn [flat_map app].
    assert (Hd : In d $ "123456") by (apply H; now left).
    assert (E : exists r, flat_map (fun d => [# "A"; digit_letter d]) ds ++ $ "A" = # "A" :: r).
    { destruct ds; cbn; eauto. }
    assert (Hn' : no_adjacent_equal ds) by (destruct ds; [exact I|apply Hn]).
    assert (Hw' : match Some d, ds with Some w, d :: _ => w <> d | _, _ => True end) by (destruct ds; [exact I|apply Hn]).
    specialize (IH d (Some d) (Some d) (fun c Hc => H c (or_intror Hc)) Hn' Hw').
    unfold phonex_syllables in IH. destruct E as [r E]. rewrite E in *.
    apply (pd_silent _ _ _ _ (digit_letter d :: # "A" :: r) (digit_letter d :: # "A" :: r) (# "0"));
      [reflexivity|now left|reflexivity|].
    destruct (phonex_digit_syllable d r (# "0") Hd) as [E1 E2].
    eapply (pd_write _ _ _ _ _ _ d).
    + symmetry. exact E1.
    + now apply digits16.
    + destruct written; [|discriminate]. congruence.
    + rewrite E2. reflexivity.
    + exact IH.
Qed.
Lemma phonex_syllables_A : forall ds, exists r, phonex_syllables ds = # "A" :: r.
Proof. intros [|d ds]; cbn; eauto. Qed.
Lemma phonex_witness_prepared : forall f ds, In f $ "ABCDFGHLMNRSTWX" ->
  phonex_prepared (phonex_witness f ds) (f :: phonex_syllables ds)
  /\ phonex_swallows f (phonex_syllables ds) = false.
Proof.
  intros f ds Hf. destruct (phonex_syllables_A ds) as [r E].
  assert (K : phonex_prepared (phonex_witness f ds) (f :: phonex_syllables ds) <->
    start_rw phonex_initials (start_rw phonex_silent_h (start_rw phonex_pairs (phonex_witness f ds))) = f :: phonex_syllables ds).
  { unfold phonex_prepared. split.
    - intros (a & b & c & (k & Ea & Na) & Hb & Hc & Ht).
      apply start_rewritten_iff in Hb, Hc, Ht. subst b c. rewrite Ht. do 3 f_equal.
      rewrite Ea. destruct k as [|k]; [now rewrite app_nil_r|exfalso].
      assert (X : exists z, phonex_witness f ds = z ++ $ "A").
      { unfold phonex_witness, phonex_syllables. rewrite app_assoc. eauto. }
      destruct X as [z X]. rewrite X in Ea.
      replace (repeat (# "S") (S k)) with (repeat (# "S") k ++ $ "S") in Ea
        by (change $ "S" with (repeat (# "S") 1); rewrite <- repeat_app; f_equal; lia).
      rewrite app_assoc in Ea. apply app_inj_tail in Ea as [_ Ea]. discriminate.
    - intros H. exists (phonex_witness f ds), (start_rw phonex_pairs (phonex_witness f ds)),
        (start_rw phonex_silent_h (start_rw phonex_pairs (phonex_witness f ds))).
      split; [|rewrite !start_rewritten_iff; auto]. exists 0%nat. cbn [repeat]. rewrite app_nil_r. split; [reflexivity|].
      intros b Eb. unfold phonex_witness, phonex_syllables in Eb. rewrite app_assoc in Eb.
      apply app_inj_tail in Eb as [_ Eb]. discriminate. }
  rewrite K. unfold phonex_witness. rewrite E. cbn [In] in Hf.
  repeat (destruct Hf as [<-|Hf]; [split; reflexivity|]). destruct Hf.
Qed.
Lemma phonex_codes : forall u n code, (2 <= n)%nat ->
  (exists s, letters_are_ascii (is_alphabetic u) s /\ phonex_encode u n s = Ok code) <-> phonex_form n code.
Proof.
  intros u n code Hn. split.
  - intros (s & A & H). apply C21_phonex_format in H as [L H]; [|assumption|assumption].
    destruct H as [H|(f & ds & k & -> & Hf & Hd & Hs)]; [now left|right]. exists f, ds.
    split; [exact Hf|]. split; [|split; [exact Hs|]].
    + intros d Hdd. apply Hd in Hdd. apply isin_In. cbn. repeat rewrite orb_true_iff. rewrite !N.eqb_eq. lia.
    + cbn [length] in L. rewrite app_length, repeat_length in L. split; [cbn [length]; lia|].
      cbn [app length]. do 3 f_equal. lia.
  - intros [->|(f & ds & Hf & Hd & Hs & Hp)].
    + exists []. split; [intros c []|]. rewrite Phonex_proofs.encode_px. cbn. now rewrite Nat.sub_0_r.
    + destruct n as [|n]; [lia|]. apply filled_is_pad in Hp. subst code.
      exists (phonex_witness f ds).
      assert (U : uppers (phonex_witness f ds)).
      { intros x Hx. unfold phonex_witness, phonex_syllables in Hx. apply in_app_or in Hx as [Hx|Hx].
        - assert (Uf : is_ascii_upper f = true) by now apply (on_set is_ascii_upper _ f Hf).
          destruct (f =? # "H"); [destruct Hx as [<-|[<-|[]]]; reflexivity|destruct Hx as [<-|[]]; exact Uf].
        - apply in_app_or in Hx as [Hx|[<-|[]]]; [|reflexivity]. apply in_flat_map in Hx as (d & Hdd & Hx).
          destruct Hx as [<-|[<-|[]]]; [reflexivity|]. now apply digits16, Hd. }
      destruct (letters_AZ _ U) as [L A]. assert (A' := ascii_str_letters u _ A). split; [exact A'|].
      apply C66_phonex_is_its_definition; [assumption|assumption|]. rewrite L.
      destruct (phonex_witness_prepared f ds Hf) as [P S].
      exists (f :: phonex_syllables ds), (f :: ds). split; [exact P|]. split; [|now rewrite !pad_to_alt].
      apply pc_name; [exact S|]. now apply phonex_digits_witness.
Qed.
