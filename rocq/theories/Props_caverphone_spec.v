(** * C67: Caverphone 1 and 2 compute their published sequence of passes. *)
From Verif Require Import Base UnicodeM Lib Helper Caverphone BaseLemmas Spec_common Spec_rewrite
  Spec_caverphone Soundex_proofs UnicodeLemmas Caverphone_proofs Caverphone_spec_proofs Props_caverphone.
Local Open Scope N_scope.

(** The text the passes work on: the lowercase letters of the lowercased input. *)
Definition letters_of (u : Unicode) (s : ustr) : ustr := filter (is_lowercase u) (str_lower u s).

Lemma encode1_letters : forall u s,
  caverphone1_encode u s = slice 0 6 (run_passes caverphone1_passes (letters_of u s) ++ SIX_1).
Proof. intros u s. unfold letters_of. generalize (encode1_eq u s). unfold remove_all_non_letter. exact (fun h => h). Qed.
Lemma encode2_letters : forall u s,
  caverphone2_encode u s = slice 0 10 (run_passes caverphone2_passes (letters_of u s) ++ TEN_1).
Proof. intros u s. unfold letters_of. generalize (encode2_eq u s). unfold remove_all_non_letter. exact (fun h => h). Qed.
Lemma SIX_1_repeat : SIX_1 = repeat (# "1") 6. Proof. reflexivity. Qed.
Lemma TEN_1_repeat : TEN_1 = repeat (# "1") 10. Proof. reflexivity. Qed.
Lemma letters_only : forall u s, (forall c, In c (letters_of u s) -> c < 128) ->
  only (fun _ => False) lower26 (letters_of u s).
Proof. intros u s H. unfold letters_of. apply (cleaned_only_ascii u s H). Qed.
Lemma same_text : forall ps fs, Forall2 computes ps fs -> forall s, passes_done ps s (run_passes fs s).
Proof. intros ps fs F s. now apply (passes_compute ps fs F). Qed.
Lemma Ok_iff : forall (a b : ustr), Ok a = Ok b <-> b = a.
Proof. intros a b. split; [intros E; now injection E|now intros ->]. Qed.
Lemma code_iff : forall n ps fs s code, Forall2 computes ps fs ->
  (code = pad_to n (# "1") (run_passes fs s) <-> caverphone_code n ps s code).
Proof.
  intros n ps fs s code F. split.
  - intros ->. exists (run_passes fs s). split; [now apply same_text|reflexivity].
  - intros (t & P & ->). apply (passes_compute ps fs F) in P. now subst t.
Qed.

(** For an input whose lowercase letters are ASCII, the code is the published one and no other. *)
Theorem C67_caverphone1_is_its_definition : forall u s code,
  (forall c, In c (letters_of u s) -> c < 128) ->
  (caverphone1_encode u s = Ok code <-> caverphone_code 6 caverphone1_rules (letters_of u s) code).
Proof.
  intros u s code H. rewrite encode1_letters, SIX_1_repeat, cut_ascii, Ok_iff.
  - apply code_iff, rules1.
  - apply (only_ascii _ _ final_set_ascii), passes1_only, letters_only, H.
Qed.
Theorem C67_caverphone2_is_its_definition : forall u s code,
  (forall c, In c (letters_of u s) -> c < 128) ->
  (caverphone2_encode u s = Ok code <-> caverphone_code 10 caverphone2_rules (letters_of u s) code).
Proof.
  intros u s code H. rewrite encode2_letters, TEN_1_repeat, cut_ascii, Ok_iff.
  - apply code_iff, rules2.
  - apply (only_ascii _ _ final_set_ascii), passes2_only, letters_only, H.
Qed.

Lemma split_byte_app : forall a b, split_byte (blen a) (a ++ b) = Some (a, b).
Proof.
  intros a b. induction a as [|c r IH]; cbn [blen app]; [now destruct b|].
  assert (0 < utf8_len c)%nat by (unfold utf8_len; repeat destruct (_ <? _); lia).
  destruct (utf8_len c + blen r)%nat as [|n] eqn:E; [lia|]. cbn [split_byte]. rewrite <- E.
  replace (Nat.leb (utf8_len c) (utf8_len c + blen r)) with true by (symmetry; apply Nat.leb_le; lia).
  replace (utf8_len c + blen r - utf8_len c)%nat with (blen r) by lia. now rewrite IH.
Qed.
Lemma slice0_iff : forall n s r, slice 0 n s = Ok r <-> exists t, s = r ++ t /\ blen r = n.
Proof.
  intros n s r. split; [apply slice0_spec|]. intros (t & -> & <-). rewrite slice0. unfold slice_to.
  now rewrite split_byte_app.
Qed.
Lemma slice0_out : forall n s, slice 0 n s = Panic \/ exists r, slice 0 n s = Ok r.
Proof. intros n s. rewrite slice0. unfold slice_to. destruct (split_byte n s) as [[a b]|]; eauto. Qed.

Lemma cut_iff : forall n x,
  (forall code, slice 0 n x = Ok code <-> exists rest, x = code ++ rest /\ blen code = n)
  /\ (slice 0 n x = Panic <-> ~ exists code rest, x = code ++ rest /\ blen code = n).
Proof.
  intros n x. split; [intros code; apply slice0_iff|]. split.
  - intros P (code & rest & E). assert (K : slice 0 n x = Ok code) by (apply slice0_iff; eauto).
    rewrite K in P. discriminate.
  - intros K. destruct (slice0_out n x) as [P|[r P]]; [exact P|].
    exfalso. apply K. exists r. now apply slice0_iff.
Qed.

(** For every input at all: the passes always produce one text, the code is the
    first 6 (10) bytes of it filled up with '1', and the encoder panics exactly when
    byte 6 (10) falls inside a character. *)
Theorem C67_caverphone1_every_input : forall u s, exists t,
  passes_done caverphone1_rules (letters_of u s) t
  /\ (forall t', passes_done caverphone1_rules (letters_of u s) t' -> t' = t)
  /\ (forall code, caverphone1_encode u s = Ok code <->
        exists rest, t ++ $ "111111" = code ++ rest /\ blen code = 6%nat)
  /\ (caverphone1_encode u s = Panic <->
        ~ exists code rest, t ++ $ "111111" = code ++ rest /\ blen code = 6%nat).
Proof.
  intros u s. exists (run_passes caverphone1_passes (letters_of u s)).
  split; [apply same_text, rules1|].
  split; [intros t' P; now apply (passes_compute _ _ rules1) in P|].
  rewrite encode1_letters. replace $ "111111" with SIX_1 by reflexivity. apply cut_iff.
Qed.
Theorem C67_caverphone2_every_input : forall u s, exists t,
  passes_done caverphone2_rules (letters_of u s) t
  /\ (forall t', passes_done caverphone2_rules (letters_of u s) t' -> t' = t)
  /\ (forall code, caverphone2_encode u s = Ok code <->
        exists rest, t ++ $ "1111111111" = code ++ rest /\ blen code = 10%nat)
  /\ (caverphone2_encode u s = Panic <->
        ~ exists code rest, t ++ $ "1111111111" = code ++ rest /\ blen code = 10%nat).
Proof.
  intros u s. exists (run_passes caverphone2_passes (letters_of u s)).
  split; [apply same_text, rules2|].
  split; [intros t' P; now apply (passes_compute _ _ rules2) in P|].
  rewrite encode2_letters. replace $ "1111111111" with TEN_1 by reflexivity. apply cut_iff.
Qed.

(** The hypothesis of the first two is met by real names, and by non-ASCII text without letters. *)
Example C67_nonvacuous :
  letters_of latin1_only $ "O'Tooghwen" = $ "otooghwen"
  /\ caverphone_code 6 caverphone1_rules $ "thompson" $ "TMPSN1"
  /\ caverphone_code 10 caverphone2_rules $ "thompson" $ "TMPSN11111".
Proof.
  split; [vm_compute; reflexivity|].
  assert (A : forall c, In c (letters_of latin1_only $ "thompson") -> c < 128)
    by (intros c Hc; vm_compute in Hc; repeat (destruct Hc as [<-|Hc]; [reflexivity|]); destruct Hc).
  assert (E : letters_of latin1_only $ "thompson" = $ "thompson") by (vm_compute; reflexivity).
  rewrite <- E.
  split; [apply (C67_caverphone1_is_its_definition latin1_only _ _ A)
         | apply (C67_caverphone2_is_its_definition latin1_only _ _ A)]; vm_compute; reflexivity.
Qed.
