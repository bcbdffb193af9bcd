(** * C65: NYSIIS computes its published rules. *)
From Verif Require Import Base UnicodeM Lib Helper Nysiis BaseLemmas Spec_common Spec_rewrite Spec_nysiis
  Soundex_proofs UnicodeLemmas Nysiis_proofs Nysiis_spec_proofs Props_nysiis UnicodeReal Upper_ok.
Local Open Scope N_scope.

(** Without the strict option the result is exactly the key of Spec_nysiis. *)
Theorem C65_nysiis_is_its_definition : forall u s, letters_are_ascii (is_alphabetic u) s ->
  forall key, nysiis_encode u false s = Ok key <-> Spec_nysiis.nysiis_key (ascii_letters s) key.
Proof. exact nysiis_key_model. Qed.

(** With it, its first six characters. *)
Theorem C65_strict_is_its_definition : forall u s, letters_are_ascii (is_alphabetic u) s ->
  forall code, nysiis_encode u true s = Ok code <->
    exists key, Spec_nysiis.nysiis_key (ascii_letters s) key /\ code = firstn 6 key.
Proof.
  intros u s H code. destruct (C18_strict_is_truncation u s H) as (r & E1 & E2). split.
  - intros E. rewrite E2 in E. injection E as <-. exists r. split; [|reflexivity].
    now apply (nysiis_key_model u s H).
  - intros (key & K & ->). apply (nysiis_key_model u s H) in K. rewrite K in E1. injection E1 as ->. exact E2.
Qed.

(** ** Every text, whatever its letters *)
(** The name is the uppercase of the letters of the text, in the sense of the Unicode
    tables; [UpperOK] (no uppercase contains an ASCII lowercase letter) holds of the
    real ones ([Upper_ok.real_upper_ok]). *)
Definition letters_upper (u : Unicode) (s : ustr) : ustr := flat_map (to_upper u) (filter (is_alphabetic u) s).
Lemma letters_upper_nolower : forall u s, UpperOK u -> nolower (soundex_clean u s).
Proof. intros u s H c I. unfold soundex_clean in I. apply in_flat_map in I as [x [_ I]]. exact (H x c I). Qed.

Theorem C65_every_text : forall u s, UpperOK u ->
  forall key, nysiis_encode u false s = Ok key <-> Spec_nysiis.nysiis_key (letters_upper u s) key.
Proof. intros u s H. exact (nysiis_key_cleaned u s (letters_upper_nolower u s H)). Qed.

Lemma strict_slice : forall u s key, nysiis_encode u false s = Ok key ->
  nysiis_encode u true s = slice_to (Nat.min (blen key) 6) key.
Proof.
  intros u s key. unfold nysiis_encode. destruct (soundex_clean u s) as [|f q].
  { intros X. injection X as <-. reflexivity. }
  destruct (ny_end (ny_start (f :: q))) as [|c rest]; [discriminate|].
  destruct (ny_loop (length rest) c rest) as [pushed| | ]; cbn [bind]; try discriminate.
  intros X. injection X as <-. reflexivity.
Qed.

(** The strict option keeps the prefix of exactly six bytes of a longer key... *)
Theorem C65_strict_every_text : forall u s, UpperOK u ->
  forall code, nysiis_encode u true s = Ok code <->
    exists key, Spec_nysiis.nysiis_key (letters_upper u s) key /\
      (((blen key <= 6)%nat /\ code = key) \/ (exists rest, key = code ++ rest /\ blen code = 6%nat)).
Proof.
  intros u s H code. destruct (C20_nonstrict_total u s) as [k K]. rewrite (strict_slice u s k K).
  pose proof (proj1 (C65_every_text u s H k) K) as SK. split.
  - intros E. exists k. split; [exact SK|]. apply slice_to_spec in E as (t & E & L).
    destruct (Nat.le_gt_cases (blen k) 6) as [B|B].
    + left. split; [exact B|]. rewrite Nat.min_l in L by exact B. rewrite E, blen_app in L.
      assert (Z : blen t = 0%nat) by lia. destruct t as [|x t]; [now rewrite app_nil_r in E|].
      pose proof (utf8_len_pos x). cbn [blen] in Z. lia.
    + right. exists t. split; [exact E|]. rewrite Nat.min_r in L by lia. exact L.
  - intros (key & K' & C). apply (C65_every_text u s H) in K'. rewrite K in K'. injection K' as <-.
    destruct C as [[B ->]|(rest & E & L)]; unfold slice_to.
    + rewrite Nat.min_l by exact B. rewrite <- (app_nil_r k) at 2. now rewrite split_byte_app.
    + subst k. rewrite blen_app, L. replace (Nat.min (6 + blen rest) 6) with (blen code) by lia. now rewrite split_byte_app.
Qed.
(** ... and panics exactly when a longer key has a character across byte six. *)
Theorem C65_strict_panics_iff : forall u s, UpperOK u ->
  (nysiis_encode u true s = Panic <->
    exists a c b, Spec_nysiis.nysiis_key (letters_upper u s) (a ++ c :: b) /\
      (blen a < 6)%nat /\ (6 < blen a + utf8_len c)%nat).
Proof.
  intros u s H. destruct (C20_nonstrict_total u s) as [k K]. rewrite (strict_slice u s k K).
  assert (Sp : forall n t, (n <= blen t)%nat -> split_byte n t = None ->
     exists a c b, t = a ++ c :: b /\ (blen a < n)%nat /\ (n < blen a + utf8_len c)%nat).
  { intros n t. revert n. induction t as [|x t IH]; intros n L E.
    - cbn in L. assert (n = 0)%nat as -> by lia. discriminate.
    - destruct n as [|n]; [discriminate|]. cbn [blen] in L.
      destruct (Nat.lt_ge_cases (S n) (utf8_len x)) as [C|C].
      + exists [], x, t. cbn [blen app]. repeat split; lia.
      + destruct (IH (S n - utf8_len x)%nat) as (a & c & b & -> & A & B); [lia| |].
        * destruct (split_byte (S n - utf8_len x) t) as [[a b]|] eqn:F; [|reflexivity].
          apply split_byte_spec in F as [-> F].
          assert (G : split_byte (S n) (x :: a ++ b) = Some (x :: a, b)).
          { apply split_byte_spec. split; [reflexivity|]. cbn [blen]. lia. }
          congruence.
        * exists (x :: a), c, b. cbn [blen app]. repeat split; lia. }
  unfold slice_to. split.
  - intros E. destruct (split_byte (Nat.min (blen k) 6) k) as [[a b]|] eqn:F; [discriminate|].
    destruct (Nat.le_gt_cases (blen k) 6) as [B|B].
    + rewrite Nat.min_l in F by exact B. rewrite <- (app_nil_r k) in F at 2. rewrite split_byte_app in F. discriminate.
    + rewrite Nat.min_r in F by lia. apply Sp in F as (a & c & b & -> & F1 & F2); [|lia]. exists a, c, b. split; [now apply (C65_every_text u s H)|auto].
  - intros (a & c & b & K' & A & B). apply (C65_every_text u s H) in K'. rewrite K in K'. injection K' as ->.
    assert (L : blen (a ++ c :: b) = (blen a + (utf8_len c + blen b))%nat) by (rewrite blen_app; reflexivity).
    rewrite L. rewrite Nat.min_r by lia.
    destruct (split_byte 6 (a ++ c :: b)) as [[p q]|] eqn:F; [|reflexivity].
    apply split_byte_spec in F as [F L2]. exfalso.
    assert (G : forall (a0 p0 q0 : ustr) n, a0 ++ c :: b = p0 ++ q0 -> blen p0 = n -> (blen a0 < n)%nat -> (n < blen a0 + utf8_len c)%nat -> False).
    { clear. induction a0 as [|x a0 IH]; intros [|y p0] q0 n F L; cbn [blen app] in *; intros A' B'; try lia.
      - injection F as -> ->. lia.
      - injection F as -> F. apply (IH p0 q0 (blen p0) F eq_refl); lia. }
    exact (G a p q 6%nat F L2 A B).
Qed.

(** Every name without ASCII lowercase letters has exactly one key. *)
Theorem C65_every_key_unique : forall u s, UpperOK u ->
  exists key, Spec_nysiis.nysiis_key (letters_upper u s) key /\
    forall key', Spec_nysiis.nysiis_key (letters_upper u s) key' -> key' = key.
Proof.
  intros u s H. destruct (C20_nonstrict_total u s) as [r Er]. exists r.
  split; [now apply (C65_every_text u s H)|]. intros k K. apply (C65_every_text u s H) in K. congruence.
Qed.

Example C65_every_text_nonvacuous : UpperOK real_unicode
  /\ nysiis_encode real_unicode false $ "Müßig" = Ok $ "MÜSAG"
  /\ nysiis_encode real_unicode true $ "BÉÀÈ" = Panic.
Proof. split; [exact real_upper_ok|split; vm_compute; reflexivity]. Qed.

(** Every name has exactly one key. *)
Theorem C65_key_unique : forall name, (forall c, In c name -> # "A" <= c <= # "Z") ->
  exists key, Spec_nysiis.nysiis_key name key /\ forall key', Spec_nysiis.nysiis_key name key' -> key' = key.
Proof.
  intros name H.
  assert (U : uppers name).
  { intros c Hc. apply H in Hc. unfold is_ascii_upper. apply andb_true_iff. split; apply N.leb_le; lia. }
  assert (L : letters_are_ascii (is_alphabetic latin1_only) name) by (intros c Hc _; apply H in Hc; lia).
  assert (E : ascii_letters name = name).
  { unfold ascii_letters. clear H L. induction name as [|c r IH]; [reflexivity|].
    assert (Hc := U c (or_introl eq_refl)). cbn [filter]. unfold is_ascii_alpha. rewrite Hc. cbn [orb map].
    f_equal; [|apply IH; intros x Hx; apply U; now right].
    unfold ascii_up, is_ascii_lower. apply is_ascii_upper_lt in Hc.
    destruct (N.leb_spec 97 c); [lia|reflexivity]. }
  pose proof (nysiis_key_model latin1_only name L) as K. rewrite E in K.
  destruct (C20_nonstrict_total latin1_only name) as [r Er]. exists r. split; [now apply K|].
  intros key' K'. apply K in K'. congruence.
Qed.

Example C65_nonvacuous : Spec_nysiis.nysiis_key $ "KNIGHT" $ "NAGT"
  /\ Spec_nysiis.nysiis_key $ "PHILLIPSON" $ "FALAPSAN"
  /\ Spec_nysiis.nysiis_key $ "MACAULAY" $ "MCALY".
Proof.
  repeat split;
  match goal with |- Spec_nysiis.nysiis_key ?n _ =>
    change n with (ascii_letters n) end;
  (apply (C65_nysiis_is_its_definition latin1_only);
   [intros c Hc _; cbn in Hc; intuition lia | vm_compute; reflexivity]).
Qed.
