(** * C69, C27: exactly which texts make Double Metaphone panic. *)
From Verif Require Import Base UnicodeM Lib Helper DoubleMetaphone BaseLemmas Spec_common Spec_contextual
  Spec_double_metaphone Spec_double_metaphone_looks Rewrite_proofs Contextual_proofs Soundex_proofs UnicodeLemmas
  DoubleMetaphone_proofs Double_metaphone_spec_proofs Double_metaphone_run_proofs Double_metaphone_any_proofs
  Double_metaphone_looks_proofs Props_double_metaphone Props_double_metaphone_spec Props_double_metaphone_any
  UnicodeReal Upper_ok.
Local Open Scope N_scope.

Lemma dm_panics : forall u max s core, UpperOK u -> trimmed_by (is_whitespace u) s core ->
  (double_metaphone u max s = Panic <-> double_metaphone_panics max (str_upper u core))
  /\ double_metaphone u max s <> NoFuel.
Proof.
  intros u max s core O T. apply trimmed_by_trim in T. unfold double_metaphone. rewrite T.
  destruct core as [|x l].
  { split; [|discriminate]. split; [discriminate|]. intros (i & _ & H). cbn [str_upper flat_map] in H.
    rewrite skipn_nil in H. inversion H. }
  cbv zeta. remember (str_upper u (x :: l)) as v eqn:Ev.
  assert (U : forall y, In y (in_places v) -> is_ascii_lower y = false) by (intros y Hy; subst v; now apply (upper_places u (x :: l))).
  set (k := if existsb (starts_with v) SILENT_START then 1%nat else 0%nat).
  destruct (dm_loop_torn max v [] k [] [] U ascii_str_nil ascii_str_nil) as [P F].
  assert (Z : dm_cut max [] = []) by (destruct max; cbn; now rewrite ?firstn_nil). rewrite Z in P, F.
  split; [|exact F]. unfold double_metaphone_panics. split.
  - intros H. exists k. split; [now apply dm_start_iff|]. now apply P.
  - intros (i & Hi & H). apply dm_start_iff in Hi. subst i. now apply P.
Qed.

(** For every text and every limit: the program panics exactly when, reading the uppercase text with the
    rules, it reaches (before both codes are full) a letter whose looks at the neighbouring bytes meet a
    character that begins or ends in the middle of what is compared. *)
Theorem C69_panics_iff : forall u max s core, UpperOK u -> trimmed_by (is_whitespace u) s core ->
  (double_metaphone u max s = Panic <-> double_metaphone_panics max (str_upper u core)).
Proof. intros u max s core O T. now apply dm_panics. Qed.

(** And it returns exactly in the other cases, with the codes of the rules. *)
Theorem C69_returns_iff : forall u max s core p a, UpperOK u -> trimmed_by (is_whitespace u) s core ->
  (double_metaphone u max s = Ok {| dm_primary := p; dm_alternate := a |} <->
   ~ double_metaphone_panics max (str_upper u core) /\ double_metaphone_codes_any max (str_upper u core) p a).
Proof.
  intros u max s core p a O T. destruct (dm_panics u max s core O T) as [P F]. split.
  - intros H. split; [|now apply (C69_any_text u max s core)]. intros K. apply P in K. congruence.
  - intros [NP C]. destruct (double_metaphone u max s) as [[q b]| |] eqn:E.
    + pose proof (C69_any_text u max s core q b O T E) as C2.
      destruct (C69_any_unique max (str_upper u core)) as (p0 & a0 & _ & Q).
      destruct (Q _ _ C) as [-> ->]. now destruct (Q _ _ C2) as [-> ->].
    + elim NP. now apply P.
    + now elim F.
Qed.

(** Without a character beyond ASCII no look is torn. *)
Theorem C27_ascii_never_torn : forall max text, ascii_str text -> ~ double_metaphone_panics max text.
Proof.
  assert (B : forall text p, ascii_str text -> (0 <= p <= Z.of_nat (length (in_places text)))%Z -> boundary text p).
  { intros text p A L. exists (firstn (Z.to_nat p) text), (skipn (Z.to_nat p) text). split; [now rewrite firstn_skipn|].
    rewrite in_places_of_ascii in L by exact A. rewrite in_places_of_ascii by now apply ascii_str_firstn.
    rewrite firstn_length. lia. }
  assert (L : forall text i l, ascii_str text -> ~ torn_look text i l).
  { intros text i l A. induction l; cbn [torn_look]; try tauto.
    - intros (P & Q & [H|H]); apply H, B; try exact A; lia.
    - intros (P & H). apply H, B; [exact A|lia]. }
  assert (P : forall text i p, ascii_str text -> ~ torn_plan text i p).
  { intros text i p A. induction p as [|l y IHy n IHn]; cbn [torn_plan]; [tauto|]. specialize (L text i l A). tauto. }
  assert (D : forall max b t p a, dm_torn max b t p a -> ~ ascii_str (b ++ t)).
  { intros max b t p a H. induction H as [b c rest p a pl _ _ H|b c rest r p a p' a' k _ _ _ _ IH]; intros A.
    - revert H. now apply P.
    - apply IH. rewrite <- app_assoc. cbn [app]. now rewrite firstn_skipn. }
  intros max text A (i & _ & H). apply D in H. apply H. now rewrite firstn_skipn.
Qed.

(** A limit reached before the torn look avoids the panic; without it the same text panics. *)
Lemma torn_limit : forall m n b t p a, (m <= n)%nat ->
  dm_torn (Some m) b t p a -> dm_torn (Some n) b t p a /\ dm_torn None b t p a.
Proof.
  intros m n b t p a L H. induction H as [b c rest p a pl F H1 H2|b c rest r p a p' a' k F H1 H2 H3 [IH1 IH2]].
  - split; apply (dt_now _ b c rest p a pl); cbn [unfinished] in *; auto; lia.
  - split; apply (dt_later _ b c rest r p a p' a' k); cbn [unfinished] in *; auto; lia.
Qed.
Theorem C27_longer_panics_more : forall m n text, (m <= n)%nat -> double_metaphone_panics (Some m) text ->
  double_metaphone_panics (Some n) text /\ double_metaphone_panics None text.
Proof.
  intros m n text L (i & Hi & H). destruct (torn_limit m n _ _ _ _ L H) as [H1 H2]. split; exists i; now split.
Qed.

(** Examples, with the Unicode tables of Rust. *)
Example C69_panics_nonvacuous :
  double_metaphone real_unicode None $ "éaier" = Panic /\ double_metaphone_panics None $ "ÉAIER"
  /\ double_metaphone_panics None $ "SHAAÉ" /\ ~ double_metaphone_panics (Some 1%nat) $ "FÉAIER"
  /\ double_metaphone_panics (Some 4%nat) $ "FÉAIER" /\ ~ double_metaphone_panics None $ "ÉLAN".
Proof.
  assert (Q : forall max c t d, is_whitespace real_unicode c = false -> is_whitespace real_unicode d = false ->
    str_upper real_unicode (c :: t ++ [d]) = c :: t ++ [d] ->
    (double_metaphone real_unicode max (c :: t ++ [d]) = Panic <-> double_metaphone_panics max (c :: t ++ [d]))).
  { intros max c t d Hc Hd E. rewrite <- E at 2. apply C69_panics_iff; [exact real_upper_ok|].
    exists [], []. split; [now rewrite app_nil_r|]. split; [intros ? []|]. split; [intros ? []|]. split.
    - intros x r K. injection K as <- _. exact Hc.
    - intros r x K. rewrite app_comm_cons in K. apply app_inj_tail in K as [_ <-]. exact Hd. }
  split; [vm_compute; reflexivity|].
  split; [apply (Q None (# "É") $ "AIE" (# "R")); vm_compute; reflexivity|].
  split; [apply (Q None (# "S") $ "HAA" (# "É")); vm_compute; reflexivity|].
  split; [intros K; apply (Q (Some 1%nat) (# "F") $ "ÉAIE" (# "R")) in K; try (vm_compute; reflexivity); vm_compute in K; discriminate|].
  split; [apply (Q (Some 4%nat) (# "F") $ "ÉAIE" (# "R")); vm_compute; reflexivity|].
  intros K; apply (Q None (# "É") $ "LA" (# "N")) in K; try (vm_compute; reflexivity); vm_compute in K; discriminate.
Qed.
