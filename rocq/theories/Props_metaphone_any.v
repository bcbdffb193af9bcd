(** * C68, C25 for texts that are not ASCII. *)
From Verif Require Import Base UnicodeM Lib Helper Metaphone BaseLemmas Spec_common Spec_rewrite Spec_contextual
  Spec_metaphone Rewrite_proofs Contextual_proofs Soundex_proofs UnicodeLemmas Cologne_proofs Metaphone_proofs
  Metaphone_spec_proofs Double_metaphone_any_proofs Metaphone_any_proofs Metaphone_panic_proofs Props_metaphone Props_metaphone_spec
  UnicodeReal Props_double_metaphone_any Upper_ok.
Local Open Scope N_scope.

Lemma upper_local : forall u s x, UpperOK u -> In x (mt_local (str_upper u s)) -> is_ascii_lower x = false.
Proof.
  intros u s x O H. apply mt_local_in in H as [H|[->| ->]]; [|reflexivity|reflexivity].
  apply in_flat_map in H as (c & _ & H). now apply (O c).
Qed.

(** For every text and every limit: when the program returns, its code is the one the rules give
    (characters looked at by characters, words and the length by bytes). *)
Theorem C68_any_text : forall u max s code, UpperOK u ->
  metaphone_encode u max s = Ok code -> metaphone_code_any max (str_upper u s) code.
Proof.
  intros u max s code O H. unfold metaphone_encode in H. unfold metaphone_code_any. rewrite in_places_len.
  destruct (Nat.eqb_spec (blen (str_upper u s)) 1) as [E|E].
  - injection H as <-. left. now split.
  - right. split; [exact E|]. cbv zeta in H. set (t := mt_local (str_upper u s)) in *.
    destruct (mt_loop_reads_any t max (fun x Hx => upper_local u s x O Hx) t 0%nat 0%nat [] code eq_refl ascii_str_nil)
      as (c2 & R & ->).
    + intros n _. cbn. lia.
    + exact H.
    + exists t, c2. split; [|now split]. apply start_rewritten_iff. apply mt_local_rw.
Qed.
(** Every text has exactly one code. *)
Theorem C68_any_unique : forall max word, exists code, metaphone_code_any max word code
  /\ forall code', metaphone_code_any max word code' -> code' = code.
Proof.
  intros max w. unfold metaphone_code_any. destruct (Nat.eq_dec (length (in_places w)) 1) as [E|E].
  - exists w. split; [left; now split|]. intros code' [[_ K]|[K _]]; [exact K|contradiction].
  - set (t := start_rw metaphone_beginnings w). destruct (reads_any_exists t (length t - 0) 0 (le_n _)) as [full R].
    exists (cut max full). split.
    + right. split; [exact E|]. exists t, full. split; [now apply start_rewritten_iff|]. now split.
    + intros code' [[K _]|(_ & t' & f & St & Rf & ->)]; [contradiction|]. apply start_rewritten_iff in St. fold t in St.
      subst t'. now rewrite (reads_any_unique _ _ _ R _ Rf).
Qed.
(** On ASCII words it is the published code. *)
Theorem C68_any_ascii : forall max s code, ascii_str s ->
  (metaphone_code_any max (map ascii_up s) code <-> metaphone_code max (map ascii_up s) code).
Proof.
  intros max s code A. destruct (C68_any_unique max (map ascii_up s)) as (c1 & H1 & U1).
  destruct (C24_total_on_ascii real_unicode max s A) as [c2 E].
  pose proof (proj1 (C68_metaphone_is_its_definition real_unicode max s c2 A) E) as H2.
  pose proof (C68_any_text real_unicode max s c2 real_upper_ok E) as H3. rewrite str_upper_ascii in H3 by exact A.
  apply U1 in H3. subst c2. split.
  - intros H. apply U1 in H. now subst.
  - intros H. apply (C68_metaphone_is_its_definition real_unicode max s code A) in H. rewrite E in H.
    injection H as <-. exact H1.
Qed.

(** The word has a code whenever only ASCII precedes every C, G, S and T of its uppercase. *)
Theorem C25_total : forall u max s,
  (forall a c b, str_upper u s = a ++ c :: b -> In c $ "CGST" -> ascii_str a) ->
  exists code, metaphone_encode u max s = Ok code.
Proof.
  intros u max s H. unfold metaphone_encode. destruct (Nat.eqb _ 1); [now eexists|]. cbv zeta.
  remember (str_upper u s) as w eqn:Ew. clear Ew.
  assert (H' : forall a c b, mt_local w = a ++ c :: b -> In c $ "CGST" -> ascii_str a).
  { assert (T : forall x a c b, w = x :: a ++ c :: b -> In c $ "CGST" -> ascii_str a).
    { intros x a c b E Hc. pose proof (H (x :: a) c b E Hc) as K. intros y Hy. apply K. now right. }
    intros a c b E Hc. unfold mt_local in E. destruct w as [|x r]; [now apply (H a c b)|].
    destruct (isin x _). { destruct (opt_is _ _); [subst r; now apply (T x a c b eq_refl)|now apply (H a c b)]. }
    destruct (x =? # "A"). { destruct (opt_is _ _); [subst r; now apply (T x a c b eq_refl)|now apply (H a c b)]. }
    destruct (N.eqb_spec x (# "W")) as [->|].
    { destruct (opt_is (hd_error r) (# "R")); [subst r; now apply (T _ a c b eq_refl)|].
      destruct (opt_is (hd_error r) (# "H")) eqn:EH; [|now apply (H a c b)].
      destruct r as [|h r]; [discriminate|]. cbn [tl] in E. destruct a as [|y a]; [apply ascii_str_nil|].
      injection E as <- E. subst r. apply ascii_str_cons. split; [reflexivity|].
      pose proof (T _ (h :: a) c b eq_refl Hc) as K. intros z Hz. apply K. now right. }
    destruct (x =? # "X"); [|now apply (H a c b)].
    destruct a as [|y a]; [apply ascii_str_nil|]. injection E as <- E. subst r.
    apply ascii_str_cons. split; [reflexivity|]. now apply (T x a c b). }
  exact (mt_loop_total (mt_local w) max H' (mt_local w) [] 0%nat [] eq_refl ascii_str_nil).
Qed.
(** Exactly when the program panics: a C, G, S or T is read before the code is complete whose place among
    the characters is, among the bytes, inside a character. *)
Lemma encode_panics : forall u max s, UpperOK u ->
  metaphone_encode u max s <> NoFuel /\ (metaphone_encode u max s = Panic <-> metaphone_panics max (str_upper u s)).
Proof.
  intros u max s O. unfold metaphone_encode, metaphone_panics. rewrite in_places_len.
  destruct (Nat.eqb_spec (blen (str_upper u s)) 1) as [E|E].
  { split; [discriminate|]. split; [discriminate|]. intros [K _]. contradiction. }
  cbv zeta. set (t := mt_local (str_upper u s)).
  destruct (mt_loop_panics t max (fun x Hx => upper_local u s x O Hx) t 0%nat 0%nat [] 0%nat eq_refl ascii_str_nil) as [P1 P2].
  { destruct max; [reflexivity|exact I]. }
  split; [exact P1|]. rewrite P2. split.
  - intros M. split; [exact E|]. exists t. split; [|exact M]. apply start_rewritten_iff. apply mt_local_rw.
  - intros (_ & t' & St & M). apply start_rewritten_iff in St. rewrite <- mt_local_rw in St. fold t in St. now subst t'.
Qed.
Theorem C25_panics_iff : forall u max s, UpperOK u ->
  (metaphone_encode u max s = Panic <-> metaphone_panics max (str_upper u s)).
Proof. intros u max s O. exact (proj2 (encode_panics u max s O)). Qed.
(** So the result is characterised for every text. *)
Theorem C68_returns_iff : forall u max s code, UpperOK u ->
  (metaphone_encode u max s = Ok code <->
   ~ metaphone_panics max (str_upper u s) /\ metaphone_code_any max (str_upper u s) code).
Proof.
  intros u max s code O. destruct (encode_panics u max s O) as [P1 P2]. split.
  - intros E. split; [|now apply C68_any_text]. intros M. apply P2 in M. congruence.
  - intros [N C]. destruct (metaphone_encode u max s) as [c| |] eqn:E; [|destruct N; now apply P2|now destruct P1].
    apply (C68_any_text u max s c O) in E. destruct (C68_any_unique max (str_upper u s)) as (c0 & _ & K).
    apply K in E. apply K in C. congruence.
Qed.
(** After a character that is not ASCII each of these four letters panics in some word whose other
    letters are vowels. *)
Theorem C25_unsafe_letters_panic : forall u c, In c $ "CGST" ->
  metaphone_encode u None [# "É"; c; # "A"; # "A"; # "A"] = Panic.
Proof.
  intros u c H. cbn [In] in H. repeat (destruct H as [<-|H]; [vm_compute; reflexivity|]). destruct H.
Qed.

(** Words with an accent: after the last S, T, C, G it is harmless; before, the words "SH" and "TH" are looked for
    at the wrong place, or the program panics. *)
Example C68_any_nonvacuous :
  metaphone_encode real_unicode None $ "Chloé" = Ok $ "XL"
  /\ metaphone_code_any None (str_upper real_unicode $ "Chloé") $ "XL"
  /\ metaphone_encode real_unicode None $ "éAshAlA" = Ok $ "SL"
  /\ metaphone_encode real_unicode None $ "eAshAlA" = Ok $ "EXL"
  /\ metaphone_encode real_unicode None $ "Château" = Panic
  /\ metaphone_panics None (str_upper real_unicode $ "Château")
  /\ ~ metaphone_panics (Some 1%nat) (str_upper real_unicode $ "Château").
Proof.
  split; [vm_compute; reflexivity|]. split; [|split; [vm_compute; reflexivity|split; [vm_compute; reflexivity|split; [vm_compute; reflexivity|split]]]].
  2: { apply (C25_panics_iff real_unicode None _ real_upper_ok). vm_compute. reflexivity. }
  2: { intros K. apply (C25_panics_iff real_unicode _ _ real_upper_ok) in K. vm_compute in K. discriminate. }
  apply (C68_any_text real_unicode None _ _ real_upper_ok). vm_compute. reflexivity.
Qed.
