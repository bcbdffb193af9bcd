(** * C73-C76 (and C03 accessors): the public values. *)
From Coq Require Import Decimal DecimalN.
From Verif Require Import Base UnicodeM Lib Helper Soundex Cologne Caverphone Nysiis Phonex Metaphone DoubleMetaphone
  MatchRating RulesParser DaitchMokotoff DmRules BmLanguages Api BaseLemmas UnicodeLemmas Spec_common Spec_soundex Soundex_proofs Dm_proofs
  Spec_dm Spec_dm_file Dm_build_proofs Props_lib Props_soundex Props_cologne Props_caverphone Props_nysiis Props_phonex Props_metaphone
  Props_double_metaphone Props_mra Props_dm.
Local Open Scope N_scope.

(** ** C03: accessors of CharSequence *)
Theorem C03_accessors : forall s,
  cs_length (cs_from s) = N.of_nat (length s) /\
  (cs_is_empty (cs_from s) = true <-> s = []) /\
  cs_as_str (cs_from s) = s /\ cs_into_str (cs_from s) = s /\ cs_display (cs_from s) = s.
Proof.
  intros s. do 2 (split; [try reflexivity|]); [|now repeat split].
  unfold cs_is_empty, cs_from. cbn [cs_len]. destruct s as [|c s]; [now split|]. split; [|discriminate].
  cbn [length]. destruct (N.eqb_spec (N.of_nat (S (length s))) 0); [lia|discriminate].
Qed.

(** ** C73: the default encoders *)
Lemma ascii_letters_ascii : forall u s, ascii_str s -> letters_are_ascii (is_alphabetic u) s.
Proof. intros u s H c Hc _. now apply H. Qed.
Lemma small_capacity : forall A (n : nat) (k : res A), (n <= 1000)%nat -> with_capacity n k = k.
Proof.
  intros A n k H. unfold with_capacity. destruct (N.leb_spec (N.of_nat n) isize_max) as [L|L]; [reflexivity|].
  unfold isize_max in L. lia.
Qed.

Theorem C73_nysiis : forall u s, letters_are_ascii (is_alphabetic u) s ->
  exists full, nysiis_enc u (nysiis_new false) s = Ok full /\ nysiis_enc u nysiis_default s = Ok (firstn 6 full).
Proof. exact C18_strict_is_truncation. Qed.

Theorem C73_phonex : forall u s, exists code, phonex_enc u phonex_default s = Ok code /\ blen code = 4%nat.
Proof.
  intros u s. unfold phonex_enc. rewrite small_capacity by (cbn; lia). destruct (C22_phonex_total u 4 s) as [r E].
  exists r. split; [exact E|]. exact (C21_phonex_byte_length u 4 s r (le_n _) E).
Qed.
(** A default code of k bytes is the code of the encoder of length k. *)
Theorem C73_phonex_is_new : forall u s, phonex_enc u phonex_default s = phonex_enc u (phonex_new 4) s.
Proof. reflexivity. Qed.

Theorem C73_metaphone : forall u s, ascii_str s -> length s <> 1%nat ->
  exists full, metaphone_enc u (metaphone_new None) s = Ok full /\ metaphone_enc u metaphone_default s = Ok (firstn 4 full).
Proof. intros u s A L. destruct (C23_max_length_ascii u s 4 A L) as (c & E1 & E2 & _). exists c. now split. Qed.

Theorem C73_double_metaphone : forall u s, ascii_str s ->
  exists p a, dmetaphone u (dmetaphone_new None) s = Ok {| dmr_primary := p; dmr_alternate := a; dmr_max_length := None |} /\
    dmetaphone u dmetaphone_default s = Ok {| dmr_primary := firstn 4 p; dmr_alternate := firstn 4 a; dmr_max_length := Some 4%nat |} /\
    dmetaphone_enc u dmetaphone_default s = Ok (firstn 4 p) /\ dmetaphone_alt u dmetaphone_default s = Ok (firstn 4 a).
Proof.
  intros u s A. destruct (C27_total_ascii u None s A) as [[p a] E]. exists p, a.
  pose proof (C26_truncation u 4 s p a E) as E4.
  assert (D : dmetaphone u dmetaphone_default s
     = Ok {| dmr_primary := firstn 4 p; dmr_alternate := firstn 4 a; dmr_max_length := Some 4%nat |}).
  { unfold dmetaphone, dmetaphone_default, dm_default_max. cbn [dm_max_code_length].
    rewrite small_capacity by lia. rewrite E4. reflexivity. }
  split.
  - unfold dmetaphone, dmetaphone_new. cbn [dm_max_code_length]. rewrite small_capacity by lia. rewrite E. reflexivity.
  - split; [exact D|]. unfold dmetaphone_enc, dmetaphone_alt. rewrite D. now split.
Qed.

Theorem C73_soundex : forall u s, letters_are_ascii (is_alphabetic u) s ->
  soundex_encode u soundex_default s = Ok (american_soundex (ascii_letters s)) /\
  refined_encode u ENGLISH_MAPPING s = Ok (refined_code refined_digit (ascii_letters s)).
Proof. intros u s H. split; [now apply C06_soundex_is_american_soundex|now apply C10_refined_is_its_definition]. Qed.

Theorem C73_daitch_mokotoff : exists d, daitch_default = Ok d /\ forall u s, exists code, dms_encode u d s = Ok code /\
  length code = 6%nat /\ forall c, In c code -> # "0" <= c <= # "9".
Proof.
  exists dms_default. split.
  - unfold daitch_default, dmb_build, dmb_default. cbn [dmb_rules dmb_ascii_folding]. rewrite dms_default_built. reflexivity.
  - intros u s. destruct C35_default as (items & B & D).
    destruct (C36_encode_soundex u _ _ _ _ s B) as (out & E1 & E2).
    destruct (C35_codes u _ _ _ _ s B) as (codes & G1 & G2 & G3 & G4).
    rewrite E1 in G1. injection G1 as ->. rewrite G3 in E2.
    destruct codes as [|code q]; [now destruct G2|]. cbn [hd] in E2. exists code. split; [exact E2|].
    destruct (G4 code (or_introl eq_refl)) as [L K]. split; [exact L|]. intros c Ic.
    destruct (K c Ic) as [->|R]; [split; vm_compute; discriminate|]. apply D in R as [->|R]; [|assumption].
    exfalso. assert (Hc : In code (split_on (# "|") (join $ "|" (code :: q)))) by (rewrite G3; now left).
    now apply split_on_no_sep_inside in Hc.
Qed.

(** The encoders one gets without choosing anything. *)
Definition default_encoders (u : Unicode) (d : DMS) : list encoder :=
  [caverphone1_encode u; caverphone2_encode u; cologne_encode u; dms_encode u d; dmetaphone_enc u dmetaphone_default;
   mra_encode u; metaphone_enc u metaphone_default; nysiis_enc u nysiis_default; phonex_enc u phonex_default;
   refined_encode u ENGLISH_MAPPING; soundex_encode u soundex_default].
Theorem C73_defaults_return : forall u d e s, daitch_default = Ok d -> In e (default_encoders u d) -> ascii_str s ->
  exists code, e s = Ok code.
Proof.
  intros u d e s D I A. pose proof (ascii_letters_ascii u s A) as AL. unfold default_encoders in I. cbn [In] in I.
  destruct C73_daitch_mokotoff as (d' & D' & T). rewrite D in D'. injection D' as <-.
  destruct (C15_caverphone_ascii u s A) as [(r1 & C1 & _) (r2 & C2 & _)].
  repeat destruct I as [<-|I]; [..|destruct I]; [eauto|eauto|apply C12_cologne_total| | |now apply C31_encode_total_ascii| | | | |].
  - destruct (T u s) as (c & E & _). eauto.
  - destruct (C73_double_metaphone u s A) as (p & a & _ & _ & E & _). eauto.
  - now apply C24_total_on_ascii.
  - now apply C20_strict_total_on_ascii_letters.
  - destruct (C73_phonex u s) as (c & E & _). eauto.
  - now apply C11_refined_total_on_ascii_letters.
  - now apply C07_total_on_ascii_letters.
Qed.
Example C73_nonvacuous :
  map (fun e => e $ "Thompson") (default_encoders latin1_only dms_default)
  = map (fun c => Ok c) [$ "TMPSN1"; $ "TMPSN11111"; $ "26186"; $ "367460"; $ "TMPS"; $ "THMPSN"; $ "0MPS"; $ "TANPSA"; $ "T512"; $ "T6081308"; $ "T512"].
Proof. vm_compute. reflexivity. Qed.

(** ** C74: the builder of Daitch-Mokotoff encoders *)

(** The last call of [ascii_folding] decides; without call folding is on. *)
Theorem C74_last_flag : forall text flags,
  dmb_build (fold_left dmb_folding flags (dmb_with_rules text)) = dms_build text (last flags true).
Proof.
  intros text flags. unfold dmb_build.
  assert (H : forall b, dmb_rules (fold_left dmb_folding flags b) = dmb_rules b
    /\ dmb_ascii_folding (fold_left dmb_folding flags b) = last flags (dmb_ascii_folding b)).
  { induction flags as [|f q IH]; intros b; [now split|]. cbn [fold_left]. destruct (IH (dmb_folding b f)) as [-> ->].
    split; [reflexivity|]. cbn [dmb_ascii_folding dmb_folding]. destruct q as [|g q]; [reflexivity|]. cbn [last].
    clear. revert g. induction q as [|h q IH]; intros g; [reflexivity|]. exact (IH h). }
  destruct (H (dmb_with_rules text)) as [-> ->]. reflexivity.
Qed.
(** The default builder is the one with the rules of the crate, and always succeeds. *)
Theorem C74_default : forall flags,
  fold_left dmb_folding flags dmb_default = fold_left dmb_folding flags (dmb_with_rules dmrules_text)
  /\ exists d, dmb_build (fold_left dmb_folding flags dmb_default) = Ok (inl d).
Proof.
  intros flags. split; [reflexivity|].
  change dmb_default with (dmb_with_rules dmrules_text). rewrite C74_last_flag.
  pose proof dms_default_built as B. unfold dms_build in *. apply bind_Ok in B as (r & B & E).
  rewrite B. cbn [bind]. destruct r as [[rules foldings]|]; [eauto|discriminate].
Qed.
(** Folding off and on: the same table, and the same codes as soon as each character of one text is
    the folded lowercase of the character of the other. *)
Definition folded_char (u : Unicode) (items : list dm_item) (c e : N) : Prop :=
  exists l q, to_lower u c = l :: q /\ e = match folding_of items l with Some y => y | None => l end
  /\ to_lower u e = [e] /\ is_whitespace u e = is_whitespace u c.
Theorem C74_folding : forall u text items on off s t, dm_file text items [] ->
  dms_build text true = Ok (inl on) -> dms_build text false = Ok (inl off) ->
  Forall2 (folded_char u items) s t ->
  dms_soundex u on s = dms_soundex u off t /\ dms_encode u on s = dms_encode u off t.
Proof.
  intros u text items on off s t F B1 B2 H.
  destruct (C41_accepts _ _ _ B1) as (i1 & F1 & _ & _ & Hf & Hg). destruct (dm_file_unique _ _ _ F _ _ F1) as [<- _].
  destruct (C41_accepts _ _ _ B2) as (i2 & F2 & _ & _ & _ & Hg2). clear i2 F2.
  assert (R : dms_rules on = dms_rules off).
  { unfold dms_build in *. apply bind_Ok in B1 as (r & B1 & E1). rewrite B1 in B2. cbn [bind] in B2.
    destruct r as [[rules foldings]|]; [|discriminate]. injection E1 as <-. injection B2 as <-. reflexivity. }
  assert (E : dms_source u on s = dms_source u off t).
  { unfold dms_source. induction H as [|c e s t (l & q & L & -> & L2 & W) H IH]; [reflexivity|]. cbn [filter]. rewrite W.
    destruct (is_whitespace u c); cbn [negb]; [exact IH|]. cbn [map]. rewrite IH. f_equal.
    unfold dms_char. rewrite L, L2, Hg, Hg2, Hf. reflexivity. }
  assert (L : forall br s k last bs, dms_loop on br k last bs s = dms_loop off br k last bs s).
  { clear - R. intros br. induction s as [|c s IH]; intros k last bs; [reflexivity|]. cbn [dms_loop]. rewrite R.
    destruct k; [|apply IH]. destruct (assoc c (dms_rules off)); [|apply IH]. destruct (find _ _); [|apply IH].
    destruct (apply_to_branches _ _ _ _ _); cbn [bind]; [apply IH|reflexivity|reflexivity]. }
  unfold dms_soundex, dms_encode, inner_soundex. now rewrite E, !L.
Qed.
Example C74_nonvacuous :
  let text := $ """s"" ""4"" ""5"" ""6""" ++ [10] ++ $ """t"" ""3"" ""3"" ""3""" ++ [10] ++ $ "é=t" in
  let out b v := match dmb_build b with Ok (inl d) => dms_soundex latin1_only d v | _ => Panic end in
  out (dmb_with_rules text) $ "sÉs" = Ok $ "436000"
  /\ out (dmb_folding (dmb_folding (dmb_with_rules text) true) false) $ "sÉs" = Ok $ "460000"
  /\ out (dmb_folding (dmb_with_rules text) false) $ "sts" = Ok $ "436000".
Proof. vm_compute. repeat split. Qed.

(** ** C75: limits no memory can hold *)
Theorem C75_phonex : forall u max s, phonex_enc u (phonex_new max) s = Panic <-> 9223372036854775807 < N.of_nat max.
Proof.
  intros u max s. unfold phonex_enc, with_capacity, phonex_new, isize_max. cbn [px_max_code_length].
  destruct (N.leb_spec (N.of_nat max) 9223372036854775807) as [L|L]; [|now split].
  destruct (C22_phonex_total u max s) as [r ->]. split; [discriminate|lia].
Qed.
Theorem C75_phonex_otherwise : forall u max s, N.of_nat max <= 9223372036854775807 ->
  phonex_enc u (phonex_new max) s = phonex_encode u max s.
Proof.
  intros u max s H. unfold phonex_enc, with_capacity, phonex_new, isize_max. cbn [px_max_code_length].
  destruct (N.leb_spec (N.of_nat max) 9223372036854775807) as [L|L]; [reflexivity|lia].
Qed.
(** Even for the empty text, and for both codes. *)
Theorem C75_double_metaphone : forall u max s, 9223372036854775807 < N.of_nat max ->
  dmetaphone u (dmetaphone_new (Some max)) s = Panic
  /\ dmetaphone_enc u (dmetaphone_new (Some max)) s = Panic
  /\ dmetaphone_alt u (dmetaphone_new (Some max)) s = Panic.
Proof.
  intros u max s H. assert (E : dmetaphone u (dmetaphone_new (Some max)) s = Panic).
  { unfold dmetaphone, with_capacity, dmetaphone_new, isize_max. cbn [dm_max_code_length].
    destruct (N.leb_spec (N.of_nat max) 9223372036854775807) as [L|L]; [lia|reflexivity]. }
  split; [exact E|]. unfold dmetaphone_enc, dmetaphone_alt. now rewrite E.
Qed.
Theorem C75_double_metaphone_otherwise : forall u max s,
  (forall n, max = Some n -> N.of_nat n <= 9223372036854775807) ->
  dmetaphone u (dmetaphone_new max) s
    = rmap (fun r => {| dmr_primary := dm_primary r; dmr_alternate := dm_alternate r; dmr_max_length := max |}) (double_metaphone u max s)
  /\ dmetaphone_enc u (dmetaphone_new max) s = rmap dm_primary (double_metaphone u max s)
  /\ dmetaphone_alt u (dmetaphone_new max) s = rmap dm_alternate (double_metaphone u max s).
Proof.
  intros u max s H. assert (E : dmetaphone u (dmetaphone_new max) s
    = rmap (fun r => {| dmr_primary := dm_primary r; dmr_alternate := dm_alternate r; dmr_max_length := max |}) (double_metaphone u max s)).
  { unfold dmetaphone, with_capacity, dmetaphone_new, isize_max. cbn [dm_max_code_length].
    destruct max as [n|]; [|reflexivity].
    destruct (N.leb_spec (N.of_nat n) 9223372036854775807) as [L|L]; [reflexivity|]. specialize (H n eq_refl). lia. }
  split; [exact E|]. unfold dmetaphone_enc, dmetaphone_alt. rewrite E. now destruct (double_metaphone u max s).
Qed.
Theorem C75_double_metaphone_equal : forall u max a b alternate x y,
  (forall n, max = Some n -> N.of_nat n <= 9223372036854775807) ->
  double_metaphone u max a = Ok x -> double_metaphone u max b = Ok y ->
  dmetaphone_equal u (dmetaphone_new max) a b alternate
    = Ok (if alternate then seq_eqb (dm_alternate x) (dm_alternate y) else seq_eqb (dm_primary x) (dm_primary y)).
Proof.
  intros u max a b alternate x y H Ea Eb. unfold dmetaphone_equal.
  rewrite !(proj1 (C75_double_metaphone_otherwise u max _ H)), Ea, Eb. reflexivity.
Qed.
(** Metaphone asks for no memory in advance: a limit above the length of the unlimited code is no limit. *)
Theorem C75_metaphone : forall u max s, ascii_str s -> length s <> 1%nat -> (2 * length s <= max)%nat ->
  metaphone_enc u (metaphone_new (Some max)) s = metaphone_enc u (metaphone_new None) s.
Proof.
  intros u max s A L M. destruct (C23_max_length_ascii u s max A L) as (c & E1 & E2 & _).
  unfold metaphone_enc, metaphone_new. cbn [mt_max_code_length]. rewrite E2. rewrite E1.
  rewrite firstn_all2; [reflexivity|].
  assert (U : str_upper u s = map ascii_up s) by now apply str_upper_ascii.
  assert (B : blen (str_upper u s) <> 1%nat).
  { rewrite U, ascii_blen; [now rewrite map_length|]. intros x Hx. apply in_map_iff in Hx as (y & <- & Hy).
    specialize (A y Hy). destruct (ascii_up_cases y) as [[? ->]|[? ->]]; lia. }
  pose proof (C24_length u s c B E1) as K. rewrite U, map_length in K. lia.
Qed.
Example C75_nonvacuous : forall max, max = N.to_nat 9223372036854775808 ->
  phonex_enc latin1_only (phonex_new max) $ "Dalvany" = Panic
  /\ dmetaphone latin1_only (dmetaphone_new (Some max)) [] = Panic
  /\ metaphone_enc latin1_only (metaphone_new (Some max)) $ "Dalvany" = Ok $ "TLFN".
Proof.
  intros max E. assert (H : 9223372036854775807 < N.of_nat max) by lia.
  split; [now apply C75_phonex|]. split; [now apply C75_double_metaphone|].
  rewrite C75_metaphone; [vm_compute; reflexivity| |discriminate|cbn [length]; lia].
  intros x Hx. cbn in Hx. repeat destruct Hx as [<-|Hx]; [..|destruct Hx]; reflexivity.
Qed.

(** ** C76: what the texts tell *)
Lemma sep_unique : forall (c : N) a a' x x', ~ In c a -> ~ In c a' -> a ++ c :: x = a' ++ c :: x' -> a = a' /\ x = x'.
Proof.
  intros c. induction a as [|y a IH]; intros a' x x' H H' E; destruct a' as [|y' a'].
  - injection E as ->. now split.
  - cbn in E. injection E as <- E. exfalso. apply H'. now left.
  - cbn in E. injection E as -> E. exfalso. apply H. now left.
  - cbn [app] in E. injection E as <- E. destruct (IH a' x x') as [<- <-]; [intros K; apply H; now right|intros K; apply H'; now right|exact E|].
    now split.
Qed.
Lemma dmr_display_inj : forall r r', ~ In (# ",") (dmr_primary r) -> ~ In (# ",") (dmr_primary r') ->
  dmr_display r = dmr_display r' -> dmr_primary r = dmr_primary r' /\ dmr_alternate r = dmr_alternate r'.
Proof.
  intros r r' H H' E. unfold dmr_display in E. apply app_inv_head in E.
  change $ ", alternate=" with (# "," :: $ " alternate=") in E. cbn [app] in E. apply sep_unique in E as [E1 E2]; [|assumption..].
  injection E2 as E2. apply app_inj_tail in E2 as [E2 _]. now split.
Qed.
Lemma dm_code_no_comma : forall u max s r, double_metaphone u max s = Ok r -> ~ In (# ",") (dm_primary r).
Proof.
  intros u max s r E I. apply (proj1 (C27_alphabet _ _ _ _ E)) in I. cbn in I.
  repeat destruct I as [I|I]; try discriminate. destruct I.
Qed.
(** Two results of Double Metaphone print the same text exactly when their codes agree, and are [==]
    exactly when, in addition, the limits agree. *)
Theorem C76_result : forall u u' max max' s t r r',
  dmetaphone u (dmetaphone_new max) s = Ok r -> dmetaphone u' (dmetaphone_new max') t = Ok r' ->
  (dmr_display r = dmr_display r' <-> dmr_primary r = dmr_primary r' /\ dmr_alternate r = dmr_alternate r')
  /\ (dmr_eqb r r' = true <-> dmr_primary r = dmr_primary r' /\ dmr_alternate r = dmr_alternate r' /\ max = max').
Proof.
  intros u u' max max' s t r r' E E'.
  assert (X : forall u max s r, dmetaphone u (dmetaphone_new max) s = Ok r -> ~ In (# ",") (dmr_primary r) /\ dmr_max_length r = max).
  { clear. intros u max s r E. unfold dmetaphone, with_capacity, dmetaphone_new in E. cbn [dm_max_code_length] in E.
    destruct (N.leb _ _); [|discriminate]. destruct (double_metaphone u max s) as [q| |] eqn:D; [|discriminate..].
    cbn [rmap bind] in E. injection E as <-. cbn [dmr_primary dmr_max_length]. split; [|reflexivity].
    now apply dm_code_no_comma in D. }
  destruct (X _ _ _ _ E) as [N1 M1]. destruct (X _ _ _ _ E') as [N2 M2]. split.
  - split; [now apply dmr_display_inj|]. intros [A B]. unfold dmr_display. now rewrite A, B.
  - unfold dmr_eqb. rewrite !andb_true_iff, !seq_eqb_eq, <- M1, <- M2.
    assert (O : forall a b, opt_nat_eqb a b = true <-> a = b).
    { intros [a|] [b|]; cbn; [rewrite Nat.eqb_eq; split; [now intros ->|now intros [= ->]]|now split..]. }
    rewrite O. tauto.
Qed.
(** The text of a result shows the two codes [encode] and [encode_alternate] give. *)
Theorem C76_result_text : forall u e s text,
  rmap dmr_display (dmetaphone u e s) = Ok text <-> exists primary alternate,
    dmetaphone_enc u e s = Ok primary /\ dmetaphone_alt u e s = Ok alternate
    /\ text = $ "[primary=" ++ primary ++ $ ", alternate=" ++ alternate ++ $ "]".
Proof.
  intros u e s text. unfold dmetaphone_enc, dmetaphone_alt. destruct (dmetaphone u e s) as [r| |]; cbn [rmap bind].
  - split; [intros [= <-]; now do 2 eexists|]. intros (p & a & [= <-] & [= <-] & ->). reflexivity.
  - split; [discriminate|]. intros (p & a & H & _). discriminate H.
  - split; [discriminate|]. intros (p & a & H & _). discriminate H.
Qed.
Example C76_result_nonvacuous :
  rmap dmr_display (dmetaphone latin1_only dmetaphone_default $ "Schmidt") = Ok $ "[primary=XMT, alternate=SMT]".
Proof. vm_compute. reflexivity. Qed.

(** Sets of languages: the text gives the set back when no name contains a comma or is one of the two
    special texts (and the list is not empty). *)
Definition printable_set (s : LanguageSet) : Prop :=
  forall l, s = SomeLanguages l -> l <> [] /\ l <> [$ "ANY_LANGUAGE"] /\ l <> [$ "NO_LANGUAGES"]
    /\ forall n, In n l -> ~ In (# ",") n.
Theorem C76_languages : forall s t, printable_set s -> printable_set t -> (ls_display s = ls_display t <-> s = t).
Proof.
  intros s t Hs Ht. split; [|now intros ->].
  assert (J : forall l n, printable_set (SomeLanguages l) -> ~ In (# ",") n -> join $ "," l = n -> l = [n]).
  { intros l n P Hn E. destruct (P l eq_refl) as (NE & _ & _ & NC).
    rewrite <- (split_join (# ",") l) by assumption. change [# ","] with $ ",". rewrite E. now apply split_on_nosep. }
  assert (NA : ~ In (# ",") $ "ANY_LANGUAGE") by (cbn; intuition discriminate).
  assert (NN : ~ In (# ",") $ "NO_LANGUAGES") by (cbn; intuition discriminate).
  assert (SP : forall l, SomeLanguages l = s \/ SomeLanguages l = t -> printable_set (SomeLanguages l)) by (intros l [->| ->]; assumption).
  destruct s as [| |l], t as [| |l']; cbn [ls_display]; intros E; try reflexivity; try discriminate E.
  1, 2: symmetry in E; apply J in E; [|now apply SP; auto|assumption]; now destruct (SP l' (or_intror eq_refl) l' eq_refl) as (_ & X & Y & _).
  1, 2: apply J in E; [|now apply SP; auto|assumption]; now destruct (SP l (or_introl eq_refl) l eq_refl) as (_ & X & Y & _).
  destruct (Hs l eq_refl) as (NE & _ & _ & NC). destruct (Ht l' eq_refl) as (NE' & _ & _ & NC'). f_equal.
  rewrite <- (split_join (# ",") l), <- (split_join (# ",") l') by assumption. change [# ","] with $ ",". now rewrite E.
Qed.
Theorem C76_languages_refuted : ~ (forall s t, ls_display s = ls_display t -> s = t).
Proof.
  intros H. specialize (H (SomeLanguages [$ "a,b"]) (SomeLanguages [$ "a"; $ "b"]) eq_refl). discriminate.
Qed.
Example C76_languages_nonvacuous :
  printable_set (SomeLanguages [$ "dutch"; $ "german"]) /\ ls_display (SomeLanguages [$ "dutch"; $ "german"]) = $ "dutch,german".
Proof.
  split; [|reflexivity]. intros l [= <-]. split; [discriminate|]. split; [discriminate|]. split; [discriminate|].
  intros n Hn. cbn in Hn. repeat destruct Hn as [<-|Hn]; [..|destruct Hn]; cbn; intuition discriminate.
Qed.

(** Parse errors. *)
Lemma uint_text_digits : forall d c, In c (uint_text d) -> # "0" <= c <= # "9".
Proof.
  induction d; intros c H; [destruct H|..]; cbn [uint_text] in H; (destruct H as [<-|H]; [vm_compute; split; discriminate|auto]).
Qed.
Lemma uint_text_inj : forall d d', uint_text d = uint_text d' -> d = d'.
Proof.
  induction d; destruct d'; cbn [uint_text]; intros H; try discriminate; try reflexivity; injection H as H; f_equal; auto.
Qed.
Lemma usize_text_inj : forall n m, usize_text n = usize_text m -> n = m.
Proof. intros n m H. apply uint_text_inj, DecimalN.Unsigned.to_uint_inj in H. lia. Qed.
(** The text gives every field back when the file name contains no colon and is not "Unknown", and
    the description contains no colon. *)
Definition printable_error (e : ParseError) : Prop :=
  (forall f, pe_filename e = Some f -> f <> $ "Unknown" /\ ~ In (# ":") f) /\ ~ In (# ":") (pe_description e).
Theorem C76_parse_error : forall e e', printable_error e -> printable_error e' -> (pe_display e = pe_display e' <-> e = e').
Proof.
  intros e e' [F D] [F' D']. split; [|now intros ->]. intros E. unfold pe_display in E.
  set (n := match pe_filename e with Some f => f | None => $ "Unknown" end) in E.
  set (n' := match pe_filename e' with Some f => f | None => $ "Unknown" end) in E.
  assert (Nn : ~ In (# ":") n).
  { unfold n. destruct (pe_filename e) as [f|]; [now apply (F f)|]. cbn. intuition discriminate. }
  assert (Nn' : ~ In (# ":") n').
  { unfold n'. destruct (pe_filename e') as [f|]; [now apply (F' f)|]. cbn. intuition discriminate. }
  cbn [app] in E. apply sep_unique in E as [E1 E]; [|assumption..].
  cbn [app] in E. apply sep_unique in E as [E2 E].
  2, 3: intros I; apply uint_text_digits in I; revert I; vm_compute; intros [I _]; now apply I.
  apply usize_text_inj in E2.
  assert (SS : forall d x, d ++ # " " :: # ":" :: # " " :: x = (d ++ [# " "]) ++ # ":" :: # " " :: x) by (intros; now rewrite <- app_assoc).
  rewrite !SS in E. apply sep_unique in E as [E3 E].
  2, 3: intros I; apply in_app_or in I as [I|[I|[]]]; [contradiction|discriminate].
  apply app_inj_tail in E3 as [E3 _]. injection E as E.
  assert (E4 : pe_filename e = pe_filename e').
  { unfold n, n' in E1. destruct (pe_filename e) as [f|], (pe_filename e') as [f'|]; [now f_equal|..|reflexivity].
    - now destruct (F f eq_refl).
    - symmetry in E1. now destruct (F' f' eq_refl). }
  destruct e, e'. cbn in *. now subst.
Qed.
(** The errors of the Daitch-Mokotoff builder all are of this kind. *)
Theorem C76_dm_error : forall text flag e, dms_build text flag = Ok (inr e) ->
  printable_error e /\ pe_display e = $ "Unknown:" ++ usize_text (pe_line_number e) ++ $ " Can't recognize line : " ++ pe_line_content e.
Proof.
  intros text flag e B. destruct (C41_reading text) as (items & rem & H & _).
  destruct (dms_build_spec text flag items rem H) as [[_ E]|[(H1 & H2 & d' & E & H3)|(_ & N & E)]]; try congruence.
  rewrite E in B. injection B as <-. split.
  - split; [discriminate|]. cbn. intuition discriminate.
  - unfold pe_display. cbn [pe_filename pe_line_number pe_description pe_line_content].
    change $ "Unknown:" with ($ "Unknown" ++ $ ":"). rewrite <- !app_assoc. repeat f_equal.
Qed.
Theorem C76_dm_error_text : forall text flag text' flag' e e', dms_build text flag = Ok (inr e) -> dms_build text' flag' = Ok (inr e') ->
  (pe_display e = pe_display e' <-> e = e').
Proof. intros text flag text' flag' e e' B B'. apply C76_parse_error; [now apply C76_dm_error in B|now apply C76_dm_error in B']. Qed.
Theorem C76_parse_error_refuted : ~ (forall e e', pe_display e = pe_display e' -> e = e').
Proof.
  intros H. specialize (H {| pe_line_number := 1; pe_filename := None; pe_line_content := []; pe_description := $ "x" |}
    {| pe_line_number := 1; pe_filename := Some $ "Unknown"; pe_line_content := []; pe_description := $ "x" |} eq_refl). discriminate.
Qed.
Example C76_parse_error_nonvacuous :
  match dms_build ($ "// ok" ++ [10] ++ $ "oops") true with
  | Ok (inr e) => pe_display e = $ "Unknown:2 Can't recognize line : oops"
  | _ => False
  end.
Proof. vm_compute. reflexivity. Qed.

(** The two families of errors never share a text, and within the errors of Beider-Morse only a
    regular-expression error and a boolean can be confused with another one. *)
Definition tagged (e : BMError) : Prop := match e with BadContextRegex _ | NotABoolean _ => False | _ => True end.
Theorem C76_families : forall p m, phonetic_error_display (ParseRuleError p) <> phonetic_error_display (BMErr m).
Proof. intros p m. cbn. discriminate. Qed.
(** The text of the crate's error tells everything the parse error's own text tells, in the same words. *)
Theorem C76_wrapped : forall e, phonetic_error_display (ParseRuleError e) = $ "Error parsing rule file " ++ pe_display e
  /\ forall e', printable_error e -> printable_error e' ->
       (phonetic_error_display (ParseRuleError e) = phonetic_error_display (ParseRuleError e') <-> e = e').
Proof.
  intros e. split; [reflexivity|]. intros e' H H'. rewrite <- (C76_parse_error e e' H H'). cbn [phonetic_error_display].
  split; [apply app_inv_head|now intros ->].
Qed.
Theorem C76_bm_errors : forall e e', tagged e -> tagged e' ->
  (phonetic_error_display (BMErr e) = phonetic_error_display (BMErr e') <-> e = e').
Proof.
  intros e e' T T'. split; [|now intros ->]. intros E. cbn [phonetic_error_display] in E. apply app_inv_head in E.
  destruct e, e'; try destruct T; try destruct T'; cbn in E; try discriminate E; injection E as E; now subst.
Qed.
Theorem C76_booleans : forall s t,
  (phonetic_error_display (BMErr (NotABoolean s)) = phonetic_error_display (BMErr (NotABoolean t)) <-> s = t).
Proof.
  intros s t. split; [|now intros ->]. intros E. cbn [phonetic_error_display bm_error_text] in E.
  apply app_inv_head, app_inv_tail in E. exact E.
Qed.
Theorem C76_untagged_refuted :
  phonetic_error_display (BMErr (NotABoolean $ "Wrong phoneme : x")) = phonetic_error_display (BMErr (WrongPhoneme $ "x is not a boolean"))
  /\ phonetic_error_display (BMErr (BadContextRegex $ "Wrong phoneme : x")) = phonetic_error_display (BMErr (WrongPhoneme $ "x")).
Proof. split; reflexivity. Qed.
(** Errors of the operating system and of regular expressions are carried with their texts. *)
Theorem C76_foreign_errors : forall text,
  phonetic_error_display (phonetic_error_of_io text) = $ "Error : Error reading files " ++ text
  /\ phonetic_error_display (phonetic_error_of_regex text) = $ "Error : " ++ text.
Proof. intros text. split; reflexivity. Qed.
