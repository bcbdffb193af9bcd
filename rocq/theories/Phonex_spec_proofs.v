(** * The model of Phonex computes the declarative code (Spec_phonex). *)
From Verif Require Import Base UnicodeM Lib Helper Phonex BaseLemmas Spec_common Spec_rewrite Spec_phonex
  Soundex_proofs Rewrite_proofs Nysiis_proofs Phonex_proofs Nysiis_spec_proofs.
Local Open Scope N_scope.

(** ** Preprocessing *)
Lemma drop_leading_S_spec : forall s, exists k, s = repeat (# "S") k ++ drop_leading_S s /\
  forall b, drop_leading_S s <> # "S" :: b.
Proof.
  induction s as [|c r IH]; cbn [drop_leading_S].
  - exists 0%nat. split; [reflexivity|discriminate].
  - destruct (N.eqb_spec c 83) as [->|Hc].
    + destruct IH as (k & E & H). exists (S k). cbn [repeat app]. split; [now f_equal|exact H].
    + exists 0%nat. split; [reflexivity|]. intros b E. congruence.
Qed.
Lemma rev_repeat : forall (x : N) k, rev (repeat x k) = repeat x k.
Proof.
  intros x k. induction k as [|k IH]; [reflexivity|]. cbn [repeat rev]. rewrite IH.
  clear IH. induction k as [|k IH]; [reflexivity|]. cbn [repeat app]. now rewrite IH.
Qed.
Lemma without_trailing_S_iff : forall s a, without_trailing_S s a <-> a = drop_trailing_S s.
Proof.
  assert (Ex : forall s, without_trailing_S s (drop_trailing_S s)).
  { intros s. unfold drop_trailing_S. destruct (drop_leading_S_spec (rev s)) as (k & E & H). exists k. split.
    - rewrite <- (rev_involutive s) at 1. rewrite E at 1. now rewrite rev_app_distr, rev_repeat.
    - intros b Eb. apply (H (rev b)). apply (f_equal (@rev N)) in Eb. rewrite rev_involutive, rev_app_distr in Eb.
      exact Eb. }
  assert (Un : forall k k' (a b : ustr), a ++ repeat (# "S") k = b ++ repeat (# "S") k' ->
     (forall x, a <> x ++ $ "S") -> (forall x, b <> x ++ $ "S") -> a = b).
  { assert (R : forall k, repeat 83 (S k) = repeat 83 k ++ [83]).
    { intros k. induction k as [|k IH]; [reflexivity|]. cbn [repeat app] in *. now rewrite <- IH. }
    induction k as [|k IH]; intros [|k'] a b E Ha Hb.
    - now rewrite !app_nil_r in E.
    - exfalso. rewrite R, app_nil_r, app_assoc in E. now apply (Ha (b ++ repeat 83 k')).
    - exfalso. rewrite R, app_nil_r, app_assoc in E. now apply (Hb (a ++ repeat 83 k)).
    - rewrite !R, !app_assoc in E. apply app_inj_tail in E as [E _]. now apply (IH k'). }
  intros s a. split.
  - intros (k & E & H). destruct (Ex s) as (k' & E' & H'). assert (E2 := eq_trans (eq_sym E) E').
    exact (Un _ _ _ _ E2 H H').
  - intros ->. apply Ex.
Qed.
Lemma px_pairs_spec : forall s, px_pairs s = start_rw phonex_pairs s.
Proof. intros [|a [|b r]]; unfold px_pairs, start_rw, phonex_pairs, starts_with; cbn -[N.eqb]; caseN. Qed.
Lemma px_drop_H_spec : forall s, px_drop_H s = start_rw phonex_silent_h s.
Proof. intros [|a r]; unfold px_drop_H, start_rw, phonex_silent_h, starts_with; cbn -[N.eqb]; caseN. Qed.
Lemma px_first_spec : forall s, px_first s = start_rw phonex_initials s.
Proof. intros [|a r]; unfold px_first, start_rw, phonex_initials, starts_with, isin; cbn -[N.eqb]; caseN. Qed.

Lemma prepared_clean : forall u s t, phonex_prepared (soundex_clean u s) t <-> t = px_preprocess u s.
Proof.
  intros u s t. unfold px_preprocess. rewrite px_first_spec, px_drop_H_spec, px_pairs_spec.
  split.
  - intros (a & b & c & H1 & H2 & H3 & H4). apply without_trailing_S_iff in H1.
    apply start_rewritten_iff in H2, H3, H4. now subst.
  - intros ->. do 3 eexists. split; [apply without_trailing_S_iff; reflexivity|].
    do 2 (split; [apply start_rewritten_iff; reflexivity|]). apply start_rewritten_iff. reflexivity.
Qed.
Lemma prepared_iff : forall u s, letters_are_ascii (is_alphabetic u) s ->
  forall t, phonex_prepared (ascii_letters s) t <-> t = px_preprocess u s.
Proof. intros u s H t. rewrite <- (clean_ascii u s H). apply prepared_clean. Qed.

(** Text whose ASCII characters are capitals. *)
Definition capital (c : N) : Prop := c < 128 -> is_ascii_upper c = true.
Definition capitals (s : ustr) : Prop := forall c, In c s -> capital c.
Lemma capitals_cons : forall c s, capitals (c :: s) <-> capital c /\ capitals s.
Proof.
  intros c s. split.
  - intros H. split; [apply H; now left|]. intros x X. apply H. now right.
  - intros [H1 H2] x [<-|X]; auto.
Qed.
Lemma capital_not_digit : forall c, capital c -> ~ digit06 c.
Proof. intros c H D. unfold digit06 in D. assert (L : c < 128) by lia. apply H, is_ascii_upper_lt in L. lia. Qed.
Lemma uppers_capitals : forall s, uppers s -> capitals s.
Proof. intros s H c Hc _. now apply H. Qed.
Lemma drop_trailing_S_capitals : forall s, capitals s -> capitals (drop_trailing_S s).
Proof.
  intros s H. unfold drop_trailing_S.
  assert (K : forall t, capitals t -> capitals (drop_leading_S t)).
  { induction t as [|c t IH]; intros Ht; [exact Ht|]. cbn. destruct (c =? 83); [|exact Ht].
    apply IH. intros x Hx. apply Ht. now right. }
  intros c Hc. apply in_rev in Hc. revert c Hc. apply K. intros c Hc. apply H. now apply in_rev.
Qed.
Lemma px_pairs_capitals : forall s, capitals s -> capitals (px_pairs s).
Proof.
  intros [|a [|b r]] H; auto. apply capitals_cons in H as [Ha H]. unfold px_pairs.
  repeat (match goal with |- context[if ?b then _ else _] => destruct b end); apply capitals_cons; split; auto;
    intros _; reflexivity.
Qed.
Lemma px_drop_H_capitals : forall s, capitals s -> capitals (px_drop_H s).
Proof.
  intros [|a r] H; auto. apply capitals_cons in H as [Ha H]. unfold px_drop_H.
  destruct (a =? 72); auto. apply capitals_cons; auto.
Qed.
Lemma px_first_capitals : forall s, capitals s -> capitals (px_first s).
Proof.
  intros [|c r] H; [exact H|]. apply capitals_cons in H as [Hc Hr]. unfold px_first.
  repeat match goal with |- context[if ?b then _ else _] => destruct b end;
    apply capitals_cons; split; try exact Hr; try exact Hc; intros _; reflexivity.
Qed.
Lemma preprocess_capitals : forall u s, capitals (soundex_clean u s) -> capitals (px_preprocess u s).
Proof.
  intros u s H. unfold px_preprocess.
  now apply px_first_capitals, px_drop_H_capitals, px_pairs_capitals, drop_trailing_S_capitals.
Qed.

(** ** Digits *)
Lemma px_vowel_upper : forall n, capital n -> px_is_vowel (Some n) = phonex_vowel n.
Proof.
  intros n H0. unfold px_is_vowel, is_vowel, phonex_vowel, ascii_low.
  destruct (is_ascii_upper n) eqn:H.
  2:{ assert (L : 128 <= n).
      { destruct (N.ltb_spec n 128) as [L|L]; [|exact L]. apply H0 in L. congruence. }
      unfold isin. cbn [existsb andb].
      repeat match goal with |- context[N.eqb ?a ?b] => destruct (N.eqb_spec a b); [lia|] end. reflexivity. }
  apply is_ascii_upper_lt in H. unfold isin. cbn [existsb].
  assert (E : forall x, 65 <= x -> (n + 32 =? x + 32) = (n =? x)).
  { intros x Hx. destruct (N.eqb_spec n x); [subst; apply N.eqb_refl|]. apply N.eqb_neq. lia. }
  change 97 with (65 + 32). change 101 with (69 + 32). change 105 with (73 + 32). change 111 with (79 + 32).
  change 117 with (85 + 32). change 121 with (89 + 32).
  rewrite !E by lia. cbn [andb]. now rewrite !orb_false_r, <- !orb_assoc.
Qed.
Lemma px_transcode_spec : forall before c r, capitals r ->
  px_transcode c (hd_error r) (match hd_error r with None => true | _ => false end)
  = (let '(nc, sk) := px_transcode c (hd_error r) (match hd_error r with None => true | _ => false end) in (nc, sk))
  /\ match fst (px_transcode c (hd_error r) (match hd_error r with None => true | _ => false end)) with
     | Some d => d | None => before end = phonex_digit before c r
  /\ snd (px_transcode c (hd_error r) (match hd_error r with None => true | _ => false end)) = phonex_swallows c r.
Proof.
  intros before c r U. split; [now destruct (px_transcode _ _ _)|].
  unfold px_transcode, phonex_digit, phonex_swallows.
  assert (MN1 : isin c $ "MN" = true -> isin c $ "BPFV" = false /\ isin c $ "CSKGJQXZ" = false /\ isin c $ "DT" = false /\ (c =? # "L") = false).
  { rewrite isin_In. cbn. intros [<-|[<-|[]]]; repeat split. }
  destruct r as [|n r']; cbn [hd_error].
  - rewrite andb_false_r.
    destruct (isin c $ "BPFV"); [split; reflexivity|]. destruct (isin c $ "CSKGJQXZ"); [split; reflexivity|].
    destruct (isin c $ "DT"); [split; reflexivity|]. destruct (c =? 76); [split; reflexivity|].
    destruct (isin c $ "MN"); [split; reflexivity|]. destruct (c =? 82); split; reflexivity.
  - rewrite (px_vowel_upper n (U n (or_introl eq_refl))), !orb_false_r. unfold opt_is.
    destruct (isin c $ "MN") eqn:M.
    + destruct (MN1 eq_refl) as (-> & -> & -> & ->). split; reflexivity.
    + cbn [andb]. destruct (isin c $ "BPFV"); [split; reflexivity|]. destruct (isin c $ "CSKGJQXZ"); [split; reflexivity|].
      destruct (isin c $ "DT"); [destruct (n =? 67); split; reflexivity|].
      destruct (c =? 76); [destruct (phonex_vowel n); split; reflexivity|].
      destruct (c =? 82); [destruct (phonex_vowel n); split; reflexivity|]. split; reflexivity.
Qed.

Lemma phonex_digit_06 : forall before c r, digit06 before -> digit06 (phonex_digit before c r).
Proof.
  intros before c r H. unfold phonex_digit.
  assert (D : forall d, 48 <= d <= 54 -> digit06 d) by (intros; exact H0).
  repeat match goal with
  | |- digit06 (if ?b then _ else _) => destruct b
  | |- digit06 (match ?l with [] => _ | _ :: _ => _ end) => destruct l
  end; try exact H; apply D; lia.
Qed.

Definition tracks (o : option N) (x : N) : Prop :=
  match o with Some d => x = d | None => ~ digit06 x end.

(** What the loop writes of the digits [ds] when [n] bytes are written already: it
    stops when the length is exactly [max]. *)
Definition room (max n : nat) (ds : ustr) : ustr := if (n <=? max)%nat then firstn (max - n) ds else ds.
Lemma room_nil : forall max n, room max n [] = [].
Proof. intros. unfold room. destruct (n <=? max)%nat; [apply firstn_nil|reflexivity]. Qed.
Lemma room_full : forall n ds, room n n ds = [].
Proof. intros. unfold room. now rewrite Nat.leb_refl, Nat.sub_diag. Qed.
Lemma room_cons : forall max n d ds, n <> max -> room max n (d :: ds) = d :: room max (1 + n) ds.
Proof.
  intros max n d ds H. unfold room. destruct (Nat.leb_spec n max) as [L|L]; destruct (Nat.leb_spec (1 + n) max) as [M|M]; try lia; [|reflexivity].
  replace (max - n)%nat with (S (max - (1 + n)))%nat by lia. reflexivity.
Qed.
Lemma px_loop_digits : forall n max i chars st before last written,
  (length chars <= n)%nat -> i <> 0%nat -> capitals chars -> digit06 before ->
  px_code st = before -> tracks last (px_last st) -> tracks written (px_last_push st) ->
  exists ds, phonex_digits before last written chars ds
    /\ (forall ds', phonex_digits before last written chars ds' -> ds' = ds)
    /\ (forall d, In d ds -> digit06 d)
    /\ rev (px_result (px_loop max i chars st)) = rev (px_result st) ++ room max (blen (px_result st)) ds.
Proof.
  induction n as [|n IH]; intros max i chars st before last written L Hi HU Hb Ec Tl Tw.
  all: destruct chars as [|c r]; [|try (cbn in L; lia)].
  1,2: exists []; split; [constructor|]; split; [intros ds' H; inversion H; reflexivity|]; split; [intros d []|];
       cbn [px_loop]; now rewrite room_nil, app_nil_r.
  assert (Ur : capitals r) by (intros x Hx; apply HU; now right).
  destruct (px_transcode_spec before c r Ur) as (_ & Ed & Esk).
  set (d := phonex_digit before c r) in *.
  assert (Hd : digit06 d) by (now apply phonex_digit_06).
  (* the state after this letter *)
  assert (Step : exists st', px_step i c (hd_error r) st = (st', phonex_swallows c r) /\ px_code st' = d /\
     ((d <> # "0" /\ last <> Some d /\ px_result st' = d :: px_result st /\ px_last st' = d /\ px_last_push st' = d)
      \/ ((d = # "0" \/ last = Some d) /\ px_result st' = px_result st /\ px_last st' = px_last_push st
          /\ px_last_push st' = px_last_push st))).
  { unfold px_step. replace (Nat.eqb i 0) with false by (symmetry; now apply Nat.eqb_neq).
    destruct (px_transcode c (hd_error r) _) as [nc sk] eqn:Et. cbn [fst snd] in Ed, Esk. subst sk.
    rewrite Ec, Ed.
    replace (Nat.eqb (if phonex_swallows c r then S i else i) 0) with false
      by (symmetry; apply Nat.eqb_neq; destruct (phonex_swallows c r); lia).
    cbn [negb]. rewrite andb_true_r. eexists. split; [reflexivity|]. split; [reflexivity|].
    destruct (N.eqb_spec (px_last st) d) as [E1|E1]; cbn [negb andb px_result px_last px_last_push].
    - right. split; [|auto]. right. unfold tracks in Tl. destruct last; [now rewrite <- Tl, E1|].
      exfalso. apply Tl. now rewrite E1.
    - destruct (N.eqb_spec d 48) as [E2|E2]; cbn [negb andb px_result px_last px_last_push].
      + right. split; [now left|auto].
      + left. split; [exact E2|]. split; [|auto]. intros ->. cbn in Tl. congruence. }
  destruct Step as (st' & Es & Ec' & Hst).
  cbn [px_loop]. rewrite Es.
  (* what follows *)
  set (rest := if phonex_swallows c r then tl r else r).
  assert (Hrest : forall r0, (if phonex_swallows c r then exists n0, r = n0 :: r0 else r = r0) -> r0 = rest).
  { intros r0 H. unfold rest. destruct (phonex_swallows c r); [destruct H as [n0 ->]; reflexivity|now symmetry]. }
  assert (Hrest' : if phonex_swallows c r then exists n0, r = n0 :: rest else r = rest).
  { unfold rest. destruct (phonex_swallows c r) eqn:E; [|reflexivity]. destruct r as [|n0 r0]; [|now exists n0].
    unfold phonex_swallows in E. rewrite andb_false_r in E. discriminate. }
  assert (Lrest : (length rest <= n)%nat).
  { unfold rest. cbn [length] in L. destruct (phonex_swallows c r); [destruct r; cbn [tl length] in *; lia|lia]. }
  assert (Urest : capitals rest).
  { intros x Hx. apply Ur. unfold rest in Hx. destruct (phonex_swallows c r); [destruct r; [destruct Hx|now right]|exact Hx]. }
  assert (Loop : forall j, match r with _ :: r' => if phonex_swallows c r then px_loop max (S (S j)) r' st' else px_loop max (S j) r st'
      | [] => st' end = match r with [] => st' | _ => px_loop max (if phonex_swallows c r then S (S j) else S j) rest st' end).
  { intros j. unfold rest. destruct r; [reflexivity|]. destruct (phonex_swallows c (n0 :: r)); reflexivity. }
  rewrite Loop.
  assert (Eloop : match r with [] => st' | _ => px_loop max (if phonex_swallows c r then S (S i) else S i) rest st' end
      = px_loop max (if phonex_swallows c r then S (S i) else S i) rest st').
  { destruct r; [|reflexivity]. unfold rest. destruct (phonex_swallows c []); reflexivity. }
  rewrite Eloop. clear Loop Eloop.
  assert (Hj : (if phonex_swallows c r then S (S i) else S i) <> 0%nat) by (destruct (phonex_swallows c r); discriminate).
  assert (Ud : utf8_len d = 1%nat) by (apply ascii_utf8_len; unfold digit06 in Hd; lia).
  destruct Hst as [(D0 & DL & Er & El & Ep)|(DD & Er & El & Ep)].
  - (* written *)
    destruct (Nat.eqb_spec (blen (px_result st)) max) as [Em|Em].
    + (* the code is full: the digits are not looked at *)
      destruct (IH (S max) _ rest st' d (Some d) (Some d) Lrest Hj Urest) as (ds & P1 & P2 & P3 & _); auto.
      exists (d :: ds). split; [|split; [|split]].
      * apply (pd_write before last written c r rest d ds); [reflexivity|exact D0|exact DL|exact Hrest'|exact P1].
      * intros ds' H. inversion H as [| b0 l0 w0 c0 s0 r0 d0 ds0 E0 NZ NL SW PD | b0 l0 w0 c0 s0 r0 d0 ds0 E0 ZL SW PD]; subst.
        -- f_equal. apply P2. rewrite <- (Hrest _ SW). assumption.
        -- exfalso. destruct ZL as [ZL|ZL]; [now apply D0|now apply DL].
      * intros x [<-|Hx]; auto.
      * rewrite <- Em. now rewrite room_full, app_nil_r.
    + destruct (IH max _ rest st' d (Some d) (Some d) Lrest Hj Urest) as (ds & P1 & P2 & P3 & P4); auto.
      exists (d :: ds). split; [|split; [|split]].
      * apply (pd_write before last written c r rest d ds); [reflexivity|exact D0|exact DL|exact Hrest'|exact P1].
      * intros ds' H. inversion H as [| b0 l0 w0 c0 s0 r0 d0 ds0 E0 NZ NL SW PD | b0 l0 w0 c0 s0 r0 d0 ds0 E0 ZL SW PD]; subst.
        -- f_equal. apply P2. rewrite <- (Hrest _ SW). assumption.
        -- exfalso. destruct ZL as [ZL|ZL]; [now apply D0|now apply DL].
      * intros x [<-|Hx]; auto.
      * rewrite P4, Er. cbn [rev blen]. rewrite Ud, <- app_assoc. now rewrite (room_cons max (blen (px_result st)) d ds Em).
  - (* silent *)
    assert (Full : exists ds, phonex_digits d written written rest ds
       /\ (forall ds', phonex_digits d written written rest ds' -> ds' = ds) /\ (forall x, In x ds -> digit06 x)
       /\ rev (px_result (px_loop max (if phonex_swallows c r then S (S i) else S i) rest st')) = rev (px_result st) ++ room max (blen (px_result st)) ds).
    { destruct (IH max _ rest st' d written written Lrest Hj Urest) as (ds & P1 & P2 & P3 & P4); auto.
      - now rewrite El.
      - now rewrite Ep.
      - exists ds. rewrite Er in P4. auto. }
    destruct Full as (ds & P1 & P2 & P3 & P4). exists ds. split; [|split; [|split]].
    + apply (pd_silent before last written c r rest d ds); [reflexivity|exact DD|exact Hrest'|exact P1].
    + intros ds' H. inversion H as [| b0 l0 w0 c0 s0 r0 d0 ds0 E0 NZ NL SW PD | b0 l0 w0 c0 s0 r0 d0 ds0 E0 ZL SW PD]; subst.
      * exfalso. destruct DD as [DD|DD]; [now apply NZ|now apply NL].
      * apply P2. rewrite <- (Hrest _ SW). assumption.
    + exact P3.
    + destruct (Nat.eqb_spec (blen (px_result st)) max) as [Em|Em]; [|exact P4].
      rewrite <- Em. now rewrite room_full, app_nil_r.
Qed.

(** ** The whole code *)
Lemma px_loop_code : forall max chars, (1 <= max)%nat -> capitals chars ->
  exists code, phonex_code chars code /\ (forall code', phonex_code chars code' -> code' = code)
    /\ (forall d, In d (tl code) -> digit06 d)
    /\ match chars with
       | [] => px_loop max 0 chars px_init = px_init
       | f :: r => exists ds, code = f :: (if phonex_swallows f r then # "5" :: ds else ds) /\
           rev (px_result (px_loop max 0 chars px_init))
           = (if phonex_swallows f r then f :: # "5" :: room max (S (utf8_len f)) ds
              else f :: room max (utf8_len f) ds)
       end.
Proof.
  intros max chars Hm HU. destruct chars as [|f r].
  { exists []. split; [constructor|]. split; [intros code' H; inversion H; reflexivity|]. split; [intros d []|]. reflexivity. }
  assert (Ur : capitals r) by (intros x Hx; apply HU; now right).
  assert (Uf : capital f) by (apply HU; now left).
  cbn [px_loop]. change (blen (px_result px_init)) with 0%nat.
  replace (Nat.eqb 0 max) with false by (symmetry; apply Nat.eqb_neq; lia).
  destruct (px_transcode_spec (# "0") f r Ur) as (_ & Ed & Esk).
  unfold px_step. destruct (px_transcode f (hd_error r) _) as [nc sk] eqn:Et. cbn [fst snd] in Ed, Esk. subst sk.
  cbn [Nat.eqb px_init px_result px_code px_last px_last_push]. rewrite Ed.
  assert (D0 : digit06 (# "0")) by (split; discriminate).
  pose proof (phonex_digit_06 (# "0") f r D0) as Hd.
  destruct (phonex_swallows f r) eqn:Esw.
  - destruct r as [|n0 r']; [unfold phonex_swallows in Esw; rewrite andb_false_r in Esw; discriminate|].
    assert (E5 : phonex_digit (# "0") f (n0 :: r') = # "5").
    { unfold phonex_swallows in Esw. apply andb_true_iff in Esw as [M _]. apply isin_In in M.
      destruct M as [<-|[<-|[]]]; reflexivity. }
    rewrite E5. cbn [Nat.eqb negb andb N.eqb Pos.eqb].
    set (st := {| px_result := [53; f]; px_code := 53; px_last := 53; px_last_push := 53 |}).
    destruct (px_loop_digits (length r') max 2 r' st (# "5") (Some (# "5")) (Some (# "5"))) as (ds & P1 & P2 & P3 & P4); auto.
    { intros x Hx. apply Ur. now right. }
    { split; discriminate. }
    { reflexivity. }
    { reflexivity. }
    exists (f :: # "5" :: ds). split; [now apply pc_swallow|]. split.
    { intros code' H. inversion H as [|f1 s1 ds1 N1 X1|f1 n1 s1 ds1 N1 X1]; subst; [congruence|].
      now rewrite (P2 _ X1). }
    split; [intros x [<-|Hx]; [split; discriminate|auto]|]. exists ds. split; [reflexivity|].
    change (blen (px_result st)) with (1 + (utf8_len f + 0))%nat in P4. rewrite Nat.add_0_r in P4. exact P4.
  - cbn [Nat.eqb negb andb]. rewrite andb_false_r.
    set (d := phonex_digit (# "0") f r) in *.
    set (st := {| px_result := [f]; px_code := d; px_last := d; px_last_push := f |}).
    destruct (px_loop_digits (length r) max 1 r st d (Some d) None) as (ds & P1 & P2 & P3 & P4); auto.
    { reflexivity. }
    { exact (capital_not_digit f Uf). }
    exists (f :: ds). split; [now apply pc_name|]. split.
    { intros code' H. inversion H as [|f1 s1 ds1 N1 X1|f1 n1 s1 ds1 N1 X1]; subst; [now rewrite (P2 _ X1)|congruence]. }
    split; [exact P3|].
    assert (EL : match r with _ :: _ => px_loop max 1 r st | [] => st end = px_loop max 1 r st) by (destruct r; reflexivity).
    exists ds. split; [reflexivity|]. rewrite EL.
    change (blen (px_result st)) with (utf8_len f + 0)%nat in P4. rewrite Nat.add_0_r in P4. exact P4.
Qed.

Lemma firstn_pad : forall n (l : ustr) x, firstn n l ++ repeat x (n - length (firstn n l)) = pad_to n x l.
Proof.
  intros n l x. unfold pad_to. rewrite firstn_app, firstn_length. f_equal.
  destruct (Nat.le_ge_cases n (length l)) as [L|L].
  - rewrite Nat.min_l by exact L. rewrite Nat.sub_diag. replace (n - length l)%nat with 0%nat by lia. reflexivity.
  - rewrite Nat.min_r by exact L. clear. assert (E : (n - length l <= n)%nat) by lia.
    revert E. generalize (n - length l)%nat as k. intros k. revert n. induction k as [|k IH]; intros n Hk; [reflexivity|].
    destruct n as [|n]; [lia|]. cbn [repeat firstn]. f_equal. apply IH. lia.
Qed.

Lemma digits_blen : forall ds, (forall d, In d ds -> digit06 d) -> blen ds = length ds.
Proof. intros ds H. apply ascii_blen. intros d Hd. apply H in Hd. unfold digit06 in Hd. lia. Qed.

Lemma fitted_pos : forall max t code, (1 <= max)%nat -> phonex_fitted max t code =
  match code with
  | [] => repeat (# "0") max
  | f :: ds =>
      if (utf8_len f <? max)%nat
         || ((utf8_len f =? max)%nat && negb (match t with c :: r => phonex_swallows c r | [] => false end))
      then f :: pad_to (max - utf8_len f) (# "0") ds
      else code
  end.
Proof. intros [|m] t code H; [lia|reflexivity]. Qed.
Theorem phonex_fits_model : forall u max s, capitals (soundex_clean u s) ->
  exists t code, phonex_prepared (soundex_clean u s) t /\ phonex_code t code /\
    (forall t', phonex_prepared (soundex_clean u s) t' -> t' = t) /\
    (forall code', phonex_code t code' -> code' = code) /\
    phonex_encode u max s = Ok (phonex_fitted max t code).
Proof.
  intros u max s H. apply preprocess_capitals in H. exists (px_preprocess u s).
  assert (E1 : (1 <= S max)%nat) by lia.
  destruct max as [|m].
  { destruct (px_loop_code 1 (px_preprocess u s) (le_n _) H) as (code & P1 & P2 & _ & _). exists code.
    split; [now apply prepared_clean|]. split; [exact P1|]. split; [intros t' Ht; now apply prepared_clean in Ht|].
    split; [exact P2|]. rewrite encode_px. cbn [phonex_fitted]. cbn [Nat.sub repeat]. rewrite app_nil_r. f_equal.
    destruct (px_preprocess u s); reflexivity. }
  destruct (px_loop_code (S m) (px_preprocess u s)) as (code & P1 & P2 & P3 & P4); [lia|exact H|]. exists code.
  split; [now apply prepared_clean|]. split; [exact P1|]. split; [intros t' Ht; now apply prepared_clean in Ht|].
  split; [exact P2|]. rewrite encode_px. f_equal.
  assert (Hmax : (1 <= S m)%nat) by lia. revert P4 Hmax. generalize (S m) as max. clear m E1. intros max P4 Hmax.
  assert (Pad : forall n (l : ustr), firstn n l ++ repeat (# "0") (n - length (firstn n l)) = pad_to n (# "0") l) by (intros; apply firstn_pad).
  destruct (px_preprocess u s) as [|f r].
  - rewrite P4. inversion P1; subst code. cbn [px_init px_result rev app blen]. rewrite Nat.sub_0_r. now rewrite fitted_pos by exact Hmax.
  - destruct P4 as (ds & -> & P4). rewrite <- blen_rev, P4.
    assert (Dds : forall d, In d ds -> digit06 d).
    { intros d Hd. apply P3. cbn [tl]. destruct (phonex_swallows f r); [now right|exact Hd]. }
    assert (B : forall n, blen (room max n ds) = length (room max n ds)).
    { intros n. apply digits_blen. intros d Hd. apply Dds. unfold room in Hd. destruct (n <=? max)%nat; [|exact Hd].
      rewrite <- (firstn_skipn (max - n) ds). apply in_or_app. now left. }
    rewrite fitted_pos by exact Hmax. unfold room in *. pose proof (utf8_len_pos f) as Pf.
    destruct (phonex_swallows f r) eqn:Sw.
    + cbn [blen app]. rewrite B. change (utf8_len 53) with 1%nat.
      destruct (Nat.ltb_spec (utf8_len f) max) as [L|L].
      * cbn [orb]. replace (S (utf8_len f) <=? max)%nat with true by (symmetry; apply Nat.leb_le; lia).
        f_equal. rewrite <- Pad. replace (max - utf8_len f)%nat with (S (max - S (utf8_len f)))%nat by lia.
        cbn [firstn app length]. f_equal. f_equal. f_equal. lia.
      * replace (S (utf8_len f) <=? max)%nat with false by (symmetry; apply Nat.leb_gt; lia).
        rewrite andb_false_r. cbn [orb].
        replace (max - (utf8_len f + (1 + length ds)))%nat with 0%nat by lia. cbn [repeat]. now rewrite app_nil_r.
    + cbn [blen app negb]. rewrite B, andb_true_r.
      destruct (Nat.ltb_spec (utf8_len f) max) as [L|L]; cbn [orb].
      * replace (utf8_len f <=? max)%nat with true by (symmetry; apply Nat.leb_le; lia).
        f_equal. rewrite <- Pad. f_equal. f_equal. lia.
      * destruct (Nat.eqb_spec (utf8_len f) max) as [E|E].
        -- replace (utf8_len f <=? max)%nat with true by (symmetry; apply Nat.leb_le; lia).
           replace (max - utf8_len f)%nat with 0%nat by lia. cbn [firstn length app].
           replace (max - (utf8_len f + 0))%nat with 0%nat by lia. reflexivity.
        -- replace (utf8_len f <=? max)%nat with false by (symmetry; apply Nat.leb_gt; lia).
           replace (max - (utf8_len f + length ds))%nat with 0%nat by lia. cbn [repeat]. now rewrite app_nil_r.
Qed.

Theorem phonex_model : forall u max s, (2 <= max)%nat -> letters_are_ascii (is_alphabetic u) s ->
  exists t code, phonex_prepared (ascii_letters s) t /\ phonex_code t code /\
    (forall t', phonex_prepared (ascii_letters s) t' -> t' = t) /\
    (forall code', phonex_code t code' -> code' = code) /\
    phonex_encode u max s = Ok (pad_to max (# "0") code).
Proof.
  intros u max s Hm H. pose proof (clean_ascii u s H) as C.
  assert (HU : uppers (soundex_clean u s)) by (rewrite C; apply ascii_letters_uppers).
  destruct (phonex_fits_model u max s (uppers_capitals _ HU)) as (t & code & P1 & P2 & P3 & P4 & P5).
  rewrite C in P1, P3. exists t, code. do 4 (split; [assumption|]). rewrite P5. f_equal.
  assert (Ut : forall f ds, code = f :: ds -> utf8_len f = 1%nat).
  { intros f ds ->. assert (Tf : exists r, t = f :: r) by (inversion P2; subst; eauto). destruct Tf as [r ->].
    apply ascii_utf8_len. rewrite <- C in P1. apply prepared_clean in P1. symmetry in P1.
    apply (preprocess_initial u s) in P1 as [P1 _]; [|exact H]. apply (fun H => H) in P1. revert P1. clear.
    intros P. assert (A : forallb (fun c => c <? 128) px_initials = true) by reflexivity. rewrite forallb_forall in A.
    apply A in P. now apply N.ltb_lt. }
  unfold phonex_fitted. destruct max as [|m]; [lia|]. destruct code as [|f ds].
  - unfold pad_to. cbn [app]. rewrite firstn_all2; [reflexivity|now rewrite repeat_length].
  - rewrite (Ut f ds eq_refl). replace (1 <? S m)%nat with true by (symmetry; apply Nat.ltb_lt; lia). cbn [orb].
    unfold pad_to. cbn [app firstn Nat.sub]. f_equal. rewrite Nat.sub_0_r. rewrite !firstn_app. f_equal.
    assert (R : forall a b x, (a <= b)%nat -> firstn a (repeat x b) = repeat (x : N) a).
    { induction a as [|a IH]; intros [|b] x L; try lia; try reflexivity. cbn [repeat firstn]. f_equal. apply IH. lia. }
    now rewrite !R by lia.
Qed.
