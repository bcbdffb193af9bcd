(** * DoubleMetaphone: C26, C27, C28, C60. *)
From Verif Require Import Base UnicodeM Lib Helper DoubleMetaphone BaseLemmas Spec_common
  Soundex_proofs UnicodeLemmas Cologne_proofs DoubleMetaphone_proofs.
Local Open Scope N_scope.

(** C26: both codes respect the limit, and are the first [n] characters of the
    codes computed without limit (hence of those with any larger limit).  For
    every input, ASCII or not, on which the unlimited computation returns. *)
Theorem C26_max_length : forall u n s r, double_metaphone u (Some n) s = Ok r ->
  (length (dm_primary r) <= n)%nat /\ (length (dm_alternate r) <= n)%nat.
Proof.
  intros u n s r H. apply double_metaphone_inv in H as [I _]. now apply (inv_len _ _ _ I).
Qed.
Theorem C26_truncation : forall u n s p a,
  double_metaphone u None s = Ok {| dm_primary := p; dm_alternate := a |} ->
  double_metaphone u (Some n) s = Ok {| dm_primary := firstn n p; dm_alternate := firstn n a |}.
Proof.
  intros u n s p a H. unfold double_metaphone in *. destruct (trim u s) as [|x l].
  - injection H as <- <-. now rewrite firstn_nil.
  - cbv zeta in *.
    match type of H with dm_loop _ _ _ _ _ ?z = _ => change z with (dm_of [] []) in H end.
    apply (dm_loop_cut _ _ n) in H; [|apply ascii_str_nil|apply ascii_str_nil].
    rewrite firstn_nil in H. exact H.
Qed.
Theorem C26_truncation_of_larger : forall u n m s p a, (n <= m)%nat ->
  double_metaphone u (Some m) s = Ok {| dm_primary := p; dm_alternate := a |} ->
  double_metaphone u (Some n) s = Ok {| dm_primary := firstn n p; dm_alternate := firstn n a |}.
Proof.
  intros u n m s p a L H. unfold double_metaphone in *. destruct (trim u s) as [|x l].
  - injection H as <- <-. now rewrite firstn_nil.
  - cbv zeta in *.
    match type of H with dm_loop _ _ _ _ _ ?z = _ => change z with (dm_of [] []) in H end.
    apply (dm_loop_cut2 _ _ n) in H; [|apply ascii_str_nil|apply ascii_str_nil|assumption|cbn; lia|cbn; lia].
    rewrite firstn_nil in H. exact H.
Qed.
Example C26_nonvacuous :
  double_metaphone latin1_only None $ "Thumbling" = Ok {| dm_primary := $ "0MPLNK"; dm_alternate := $ "TMPLNK" |}
  /\ double_metaphone latin1_only (Some 4%nat) $ "Thumbling"
     = Ok {| dm_primary := $ "0MPL"; dm_alternate := $ "TMPL" |}.
Proof. split; vm_compute; reflexivity. Qed.

(** C27: no panic on ASCII, for every limit; code alphabets; length; panics. *)
Theorem C27_total_ascii : forall u max s, ascii_str s -> exists r, double_metaphone u max s = Ok r.
Proof.
  intros u max s A. unfold double_metaphone. destruct (trim u s) as [|x l] eqn:E; [eauto|]. cbv zeta.
  match goal with |- context[dm_loop _ _ _ _ _ ?z] => change z with (dm_of [] []) end.
  apply dm_loop_ok; [|apply ascii_str_nil|apply ascii_str_nil|intros; cbn; lia].
  rewrite str_upper_ascii; [apply ascii_str_map_up|];
    (eapply ascii_str_incl; [|exact A]; rewrite <- E; apply trim_incl).
Qed.
(** A can only be the first symbol; a space occurs only in alternate codes. *)
Theorem C27_alphabet : forall u max s r, double_metaphone u max s = Ok r ->
  (forall c, In c (dm_primary r) -> In c $ "AFHJKLMNPRSTX0")
  /\ (forall c, In c (tl (dm_primary r)) -> In c $ "FHJKLMNPRSTX0")
  /\ (forall c, In c (dm_alternate r) -> In c $ "AFHJKLMNPRSTX0 ")
  /\ (forall c, In c (tl (dm_alternate r)) -> In c $ "FHJKLMNPRSTX0 ").
Proof.
  intros u max s r H. apply double_metaphone_inv in H as [[I1 I2 I3 I4 _] _].
  assert (K : forall l set, sub l set = true -> forall c, In c l -> In c set).
  { intros l set Hs c Hc. unfold sub in Hs. rewrite forallb_forall in Hs. apply Hs in Hc. now apply isin_In. }
  split; [exact (K _ _ I1)|]. split; [exact (K _ _ I2)|]. split; [exact (K _ _ I3)|exact (K _ _ I4)].
Qed.
Theorem C27_length : forall u max s r, double_metaphone u max s = Ok r ->
  (length (dm_primary r) <= 2 * length (str_upper u (trim u s)))%nat
  /\ (length (dm_alternate r) <= 2 * length (str_upper u (trim u s)))%nat.
Proof. intros u max s r H. now apply double_metaphone_inv in H as [_ H]. Qed.
Theorem C27_total_refuted :
  ~ (forall u max s, UnicodeOK u -> exists r, double_metaphone u max s = Ok r).
Proof.
  intros H. destruct (H latin1_only (Some 4%nat) $ "Cédric" latin1_only_ok) as [r Hr].
  vm_compute in Hr. discriminate.
Qed.
Example C27_nonvacuous :
  double_metaphone latin1_only dm_default_max $ "jumped" = Ok {| dm_primary := $ "JMPT"; dm_alternate := $ "AMPT" |}
  /\ double_metaphone latin1_only dm_default_max $ "raj" = Ok {| dm_primary := $ "RJ"; dm_alternate := $ "R " |}.
Proof. split; vm_compute; reflexivity. Qed.

(** C28: surrounding white space and ASCII case are irrelevant; what the public
    functions return; equality of codes is an equivalence. *)
Theorem C28_surrounding_whitespace : forall u max w s w',
  (forall c, In c (w ++ w') -> is_whitespace u c = true) ->
  double_metaphone u max (w ++ s ++ w') = double_metaphone u max s.
Proof.
  intros u max w s w' H. unfold double_metaphone.
  rewrite trim_surround; [reflexivity| |]; intros c Hc; apply H, in_or_app; auto.
Qed.
Theorem C28_ascii_case : forall u max s, double_metaphone u max (map ascii_up s) = double_metaphone u max s.
Proof.
  intros u max s. unfold double_metaphone. rewrite trim_up.
  destruct (trim u s) as [|x l]; [reflexivity|]. cbn [map]. cbv zeta.
  change (ascii_up x :: map ascii_up l) with (map ascii_up (x :: l)). now rewrite str_upper_ascii_up.
Qed.
Theorem C28_encoders : forall u max s p a,
  double_metaphone u max s = Ok {| dm_primary := p; dm_alternate := a |} ->
  dm_encode u max s = Ok p /\ dm_encode_alternate u max s = Ok a.
Proof. intros u max s p a H. unfold dm_encode, dm_encode_alternate. now rewrite H. Qed.
Theorem C28_equality : forall u max s1 s2 alt p1 a1 p2 a2,
  double_metaphone u max s1 = Ok {| dm_primary := p1; dm_alternate := a1 |} ->
  double_metaphone u max s2 = Ok {| dm_primary := p2; dm_alternate := a2 |} ->
  exists b, is_double_metaphone_equal u max s1 s2 alt = Ok b
    /\ (b = true <-> if alt : bool then a1 = a2 else p1 = p2).
Proof.
  intros u max s1 s2 alt p1 a1 p2 a2 H1 H2. unfold is_double_metaphone_equal. rewrite H1, H2. cbn.
  eexists. split; [reflexivity|]. destruct alt; apply seq_eqb_eq.
Qed.
Theorem C28_equivalence : forall u max alt a b c ra,
  double_metaphone u max a = Ok ra ->
  is_double_metaphone_equal u max a a alt = Ok true
  /\ is_double_metaphone_equal u max b a alt = is_double_metaphone_equal u max a b alt
  /\ (is_double_metaphone_equal u max a b alt = Ok true ->
      is_double_metaphone_equal u max b c alt = Ok true ->
      is_double_metaphone_equal u max a c alt = Ok true).
Proof.
  intros u max alt a b c ra Ha. unfold is_double_metaphone_equal. rewrite !Ha. cbn [bind].
  split; [|split].
  - destruct alt; now rewrite seq_eqb_refl.
  - destruct (double_metaphone u max b) as [rb| |]; cbn [bind]; [|reflexivity..].
    destruct alt; now rewrite seq_eqb_sym.
  - intros H1 H2. apply bind_Ok in H1 as (rb & Hb & H1). rewrite Hb in H2. cbn [bind] in H2.
    apply bind_Ok in H2 as (rc & -> & H2). cbn [bind]. destruct alt;
      injection H1 as H1; injection H2 as H2; apply seq_eqb_eq in H1; apply seq_eqb_eq in H2; f_equal;
      apply seq_eqb_eq; congruence.
Qed.
Example C28_nonvacuous : double_metaphone latin1_only dm_default_max $ "  Smith " = double_metaphone latin1_only dm_default_max $ "SMITH"
  /\ is_double_metaphone_equal latin1_only dm_default_max $ "Smith" $ "Schmidt" false = Ok false
  /\ is_double_metaphone_equal latin1_only dm_default_max $ "Catherine" $ "Katherine" false = Ok true.
Proof. split; [|split]; vm_compute; reflexivity. Qed.

(** C60: the test for a leading VAN / VON in CH handling compares a four-byte
    window with three-byte words, so it never succeeds. *)
Theorem C60_van_von_test_never_fires : forall v, contains v 0 4 [$ "VAN"; $ "VON"] <> Ok true.
Proof.
  intros v H. unfold contains in H. cbn [Z.ltb Z.compare Z.to_nat] in H.
  destruct (Nat.leb (0 + 4) (blen v)); [|discriminate]. apply bind_Ok in H as (t & Ht & H).
  apply slice0_spec in Ht as (w & _ & L). injection H as H. rewrite orb_false_r in H.
  apply orb_true_iff in H as [H|H]; apply seq_eqb_eq in H; subst t; discriminate L.
Qed.
