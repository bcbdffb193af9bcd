(** * C77: Daitch-Mokotoff with any rule file and any text. *)
From Verif Require Import Base UnicodeM Lib Helper RulesParser DaitchMokotoff BaseLemmas UnicodeLemmas Spec_common Spec_dm
  Spec_dm_file Spec_dm_any DmRules Dm_proofs Dm_order_proofs Dm_build_proofs Dm_any_proofs Props_dm.
Local Open Scope N_scope.

Lemma table_of_full : forall items, table_full (table_of items).
Proof.
  intros items c r H. apply table_of_In in H as (p & a & b & d & _ & ->).
  cbn [rule_of_parts r_pattern r_at_start r_before_vowel r_default]. split; [now exists p|].
  unfold parse_branch. split; [|split]; apply split_on_nonempty.
Qed.
Lemma selections_fold : forall ev, fold_left extend ev [[]] = selections ev.
Proof.
  intros ev. rewrite extend_all. cbn [flat_map]. rewrite app_nil_r. rewrite <- (map_id (selections ev)) at 2. now apply map_ext.
Qed.
Lemma inner_true : forall u text flag items d value ev, dms_build text flag = Ok (inl d) -> dm_file text items [] ->
  dm_scan_any (table_of items) 0 (dm_text u items flag value) ev ->
  inner_soundex u d value true
  = if forallb whole (selections ev) then Ok (map br_finish (push_all [] (map bbranch (selections ev)))) else Panic.
Proof.
  intros u text flag items d value ev B F S. destruct (built_any _ _ _ _ B F) as (H1 & _ & _).
  unfold inner_soundex. rewrite (source_text _ _ _ _ _ _ B F).
  pose proof (proj2 (loop_bytes d _ H1 (table_of_full items) _ _ _ S) [[]]) as L.
  rewrite selections_fold in L. change (push_all [] (map bbranch [[]])) with [branch_default] in L.
  rewrite L by (intros sel [<-|[]]; reflexivity). destruct (forallb whole (selections ev)); reflexivity.
Qed.
Lemma inner_false : forall u text flag items d value ev, dms_build text flag = Ok (inl d) -> dm_file text items [] ->
  dm_scan_any (table_of items) 0 (dm_text u items flag value) ev ->
  inner_soundex u d value false
  = if whole (first_selection ev) then Ok [br_finish (bbranch (first_selection ev))] else Panic.
Proof.
  intros u text flag items d value ev B F S. destruct (built_any _ _ _ _ B F) as (H1 & _ & _).
  unfold inner_soundex. rewrite (source_text _ _ _ _ _ _ B F).
  change branch_default with (bbranch []). rewrite (loop_bytes_first d _ H1 (table_of_full items) _ _ _ S []) by reflexivity.
  cbn [app]. destruct (whole (first_selection ev)); reflexivity.
Qed.
Lemma whole_torn : forall sel, whole sel = false <-> torn (kept None sel).
Proof. intros sel. unfold whole. rewrite negb_false_iff. apply tornb_torn. Qed.
Lemma all_whole : forall ev, forallb whole (selections ev) = true <-> forall sel, selection ev sel -> ~ torn (kept None sel).
Proof.
  intros ev. rewrite forallb_forall. split.
  - intros H sel K T. apply selections_iff in K. apply H in K. apply whole_torn in T. congruence.
  - intros H sel K. apply selections_iff in K. destruct (whole sel) eqn:W; [reflexivity|]. apply whole_torn in W. elim (H sel K W).
Qed.

(** Every text has exactly one scan. *)
Theorem C77_scan_exists : forall items s,
  exists ev, dm_scan_any (table_of items) 0 s ev /\ forall ev', dm_scan_any (table_of items) 0 s ev' -> ev' = ev.
Proof.
  intros items s.
  assert (G : forall n s prev, (length s <= n)%nat -> exists ev, dm_scan_any (table_of items) prev s ev).
  { induction n as [|n IH]; intros t prev L.
    - destruct t; [exists []; constructor|cbn in L; lia].
    - destruct t as [|c t]; [exists []; constructor|]. cbn in L.
      destruct (table_of items c) as [|x l] eqn:T.
      + destruct (IH t prev ltac:(lia)) as [ev H]. exists ev. now apply any_unknown.
      + destruct (find (fun r => rule_matches r (c :: t)) (sort_rules (table_of items c))) as [r|] eqn:F.
        * apply find_sorted_some in F. destruct (table_of_full items c r (best_rule_In _ _ _ F)) as ((p & Hp) & _).
          destruct (IH (skipn (blen (r_pattern r)) (c :: t)) c) as [ev H].
          { rewrite <- (skip_any (r_pattern r) c t) by (rewrite Hp; reflexivity). rewrite skipn_length. lia. }
          eexists. eapply any_rule; [eassumption|reflexivity|eassumption].
        * apply find_sorted_none in F. destruct (IH t c ltac:(lia)) as [ev H]. exists ev.
          apply any_nomatch; [congruence|assumption|assumption]. }
  destruct (G (length s) s 0 (le_n _)) as [ev E]. exists ev. split; [assumption|].
  intros ev' E'. symmetry. eapply scan_any_unique; eassumption.
Qed.

(** soundex panics exactly when, for some choice of the replacements, a character
    of what is kept lies across the end of the sixth byte. *)
Theorem C77_soundex_panics_iff : forall u text flag items d value ev,
  dms_build text flag = Ok (inl d) -> dm_file text items [] ->
  dm_scan_any (table_of items) 0 (dm_text u items flag value) ev ->
  (dms_soundex u d value = Panic <-> exists sel, selection ev sel /\ torn (kept None sel)).
Proof.
  intros u text flag items d value ev B F S. unfold dms_soundex. rewrite (inner_true _ _ _ _ _ _ _ B F S).
  destruct (forallb whole (selections ev)) eqn:W; cbn [bind].
  - split; [discriminate|]. intros (sel & K & T). exfalso. exact (proj1 (all_whole ev) W sel K T).
  - split; [intros _|reflexivity].
    assert (G : forall l, forallb whole l = false -> exists sel, In sel l /\ whole sel = false).
    { induction l as [|x l IH]; intros E; [discriminate|]. cbn [forallb] in E. destruct (whole x) eqn:X.
      - destruct (IH E) as (sel & I & K). exists sel. split; [now right|assumption].
      - exists x. split; [now left|assumption]. }
    destruct (G _ W) as (sel & I & K). exists sel. split; [now apply selections_iff|now apply whole_torn].
Qed.
(** Else it gives the codes of the selections of replacements, in order, without
    those the encoder does not tell apart from an earlier one; each code is the first
    six bytes of what is kept, filled up with zeros. *)
Theorem C77_soundex : forall u text flag items d value ev,
  dms_build text flag = Ok (inl d) -> dm_file text items [] ->
  dm_scan_any (table_of items) 0 (dm_text u items flag value) ev ->
  (forall sel, selection ev sel -> ~ torn (kept None sel)) ->
  exists sels codes, first_of_each byte_indistinct (selections ev) sels /\ Forall2 byte_code sels codes
    /\ dms_soundex u d value = Ok (join $ "|" codes)
    /\ codes <> [] /\ split_on (# "|") (join $ "|" codes) = codes.
Proof.
  intros u text flag items d value ev B F S W. apply all_whole in W. pose proof (inner_true _ _ _ _ _ _ _ B F S) as I. rewrite W in I.
  assert (Wi : forall x, In x (selections ev) -> whole x = true) by now apply forallb_forall.
  destruct (first_of_each_bbranches _ Wi) as (sels & E & M). rewrite <- M, map_map in I.
  pose proof (fun x => first_of_each_incl _ _ _ _ E x) as Inc.
  exists sels, (map (fun x => br_finish (bbranch x)) sels). split; [exact E|]. split; [|split; [|split]].
  - assert (Ws : forall x, In x sels -> whole x = true) by (intros x Hx; apply Wi; now apply Inc).
    clear - Ws. induction sels as [|x l IH]; constructor; [apply br_finish_bytes; apply Ws; now left|].
    apply IH. intros y Hy. apply Ws. now right.
  - unfold dms_soundex. now rewrite I.
  - destruct sels as [|x l]; [|discriminate]. cbn [map] in M. symmetry in M.
    assert (NE : selections ev <> []).
    { pose proof (proj1 (loop_bytes d _ (proj1 (built_any _ _ _ _ B F)) (table_of_full items) _ _ _ S)) as Ne.
      pose proof (selections_first ev Ne) as K. intros E0. rewrite E0 in K. discriminate. }
    destruct (selections ev) as [|y l]; [congruence|]. cbn [map] in M.
    assert (J : In (bbranch y) (push_all [] (bbranch y :: map bbranch l))) by (apply push_all_In; right; now left).
    rewrite M in J. destruct J.
  - apply split_join.
    + destruct sels as [|x l]; [|discriminate]. cbn [map] in M. symmetry in M.
      assert (NE : selections ev <> []).
      { pose proof (proj1 (loop_bytes d _ (proj1 (built_any _ _ _ _ B F)) (table_of_full items) _ _ _ S)) as Ne.
        pose proof (selections_first ev Ne) as K. intros E0. rewrite E0 in K. discriminate. }
      destruct (selections ev) as [|y l]; [congruence|]. cbn [map] in M.
      assert (J : In (bbranch y) (push_all [] (bbranch y :: map bbranch l))) by (apply push_all_In; right; now left).
      rewrite M in J. destruct J.
    + intros code Hc. apply in_map_iff in Hc as (sel & <- & Hs). apply Inc, selections_iff in Hs.
      intros Bar. unfold br_finish, bbranch in Bar. cbn [br_builder] in Bar. apply in_app_or in Bar as [Bar|Bar]; [|apply repeat_spec in Bar; discriminate].
      destruct (takeb_prefix (kept None sel) 6) as [rest Er].
      assert (Bar' : In (# "|") (kept None sel)) by (rewrite Er; apply in_or_app; now left). clear Bar rest Er.
      assert (Ke : forall sel prev, In (# "|") (kept prev sel) -> exists r f, In (r, f) sel /\ In (# "|") r).
      { clear. induction sel as [|[r f] sel IH]; intros prev H; cbn [kept] in H; [destruct H|]. apply in_app_or in H as [H|H].
        - exists r, f. split; [now left|]. destruct (_ || f); [assumption|destruct H].
        - destruct (IH _ H) as (r' & f' & I & J). exists r', f'. split; [now right|assumption]. }
      apply Ke in Bar' as (r & f & Ir & Jr).
      assert (Se : forall ev sel, selection ev sel -> In (r, f) sel -> exists e, In e ev /\ In r (fst e)).
      { clear. intros ev sel K. induction K as [|e x ev sel [K1 K2] K IH]; intros I; [destruct I|]. destruct I as [->|I].
        - exists e. split; [now left|assumption].
        - destruct (IH I) as (e' & I1 & I2). exists e'. split; [now right|assumption]. }
      destruct (Se _ _ Hs Ir) as (e & Ie & Re).
      assert (Pa : forall prev s ev, dm_scan_any (table_of items) prev s ev -> forall e, In e ev -> forall r, In r (fst e) -> ~ In (# "|") r).
      { clear. intros prev s ev K. induction K as [prev|prev c s ev H1 _ IH|prev c s ev H1 H2 _ IH|prev c s r rest ev H1 H2 _ IH];
          intros e Ie y Iy; [destruct Ie|now apply (IH e Ie)|now apply (IH e Ie)|]. destruct Ie as [<-|Ie]; [|now apply (IH e Ie)].
        cbn [fst] in Iy. apply best_rule_In, table_of_In in H1 as (p & a & b & q & _ & ->). unfold choose_replacements in Iy.
        cbn [rule_of_parts r_at_start r_before_vowel r_default] in Iy. unfold parse_branch in Iy.
        destruct (prev =? 0); [now apply split_on_no_sep_inside in Iy|].
        destruct (starts_with_vowel rest); now apply split_on_no_sep_inside in Iy. }
      exact (Pa _ _ _ S e Ie r Re Jr).
Qed.
(** encode chooses the first replacement everywhere. *)
Theorem C77_encode : forall u text flag items d value ev,
  dms_build text flag = Ok (inl d) -> dm_file text items [] ->
  dm_scan_any (table_of items) 0 (dm_text u items flag value) ev ->
  (torn (kept None (first_selection ev)) /\ dms_encode u d value = Panic)
  \/ (exists code, byte_code (first_selection ev) code /\ dms_encode u d value = Ok code).
Proof.
  intros u text flag items d value ev B F S. unfold dms_encode. rewrite (inner_false _ _ _ _ _ _ _ B F S).
  destruct (whole (first_selection ev)) eqn:W; [right|left].
  - eexists. split; [now apply br_finish_bytes|]. reflexivity.
  - split; [now apply whole_torn|reflexivity].
Qed.
Theorem C77_encode_panics_iff : forall u text flag items d value ev,
  dms_build text flag = Ok (inl d) -> dm_file text items [] ->
  dm_scan_any (table_of items) 0 (dm_text u items flag value) ev ->
  (dms_encode u d value = Panic <-> torn (kept None (first_selection ev))).
Proof.
  intros u text flag items d value ev B F S. unfold dms_encode. rewrite (inner_false _ _ _ _ _ _ _ B F S).
  destruct (whole (first_selection ev)) eqn:W; cbn [bind].
  - split; [discriminate|]. intros T. apply whole_torn in T. congruence.
  - split; [intros _; now apply whole_torn|reflexivity].
Qed.
(** A code has six bytes, and is determined. *)
Theorem C77_six_bytes : forall sel code, byte_code sel code ->
  blen code = 6%nat /\ ~ torn (kept None sel) /\ forall code', byte_code sel code' -> code' = code.
Proof.
  intros sel code H. split; [|split].
  - destruct H as (b & [_ [L|[-> L]]] & ->); rewrite blen_app.
    + rewrite L. reflexivity.
    + assert (R : forall n, blen (repeat (# "0") n) = n) by (induction n as [|n IH]; [reflexivity|]; cbn [repeat blen]; rewrite IH; reflexivity).
      rewrite R. lia.
  - intros T. destruct H as (b & H & _). exact (first_six_torn _ _ T H).
  - intros code' H'. eapply byte_code_unique; eassumption.
Qed.
(** Files with ASCII replacements never panic; their codes are those of C39. *)
Theorem C77_ascii : forall sel, ascii_str (kept None sel) ->
  ~ torn (kept None sel) /\ forall code, byte_code sel code <-> code = dm_code sel.
Proof.
  intros sel A.
  assert (T : forall s n, ascii_str s -> tornb n s = false /\ takeb n s = firstn n s).
  { induction s as [|c s IH]; intros n As; [now destruct n|]. apply ascii_str_cons in As as [Ac As]. cbn [tornb takeb].
    rewrite ascii_utf8_len by assumption. destruct n as [|n]; [split; reflexivity|]. cbn [Nat.leb firstn Nat.sub].
    rewrite Nat.sub_0_r. destruct (IH n As) as [-> ->]. now split. }
  destruct (T (kept None sel) 6%nat A) as [T1 T2].
  split; [intros K; apply tornb_torn in K; congruence|]. intros code.
  assert (E : br_finish (bbranch sel) = dm_code sel).
  { rewrite <- br_finish_code by assumption. unfold bbranch, branch_of. now rewrite T2. }
  assert (W : whole sel = true) by (unfold whole; now rewrite T1). split.
  - intros H. apply byte_code_whole in H as [_ ->]. exact E.
  - intros ->. rewrite <- E. now apply br_finish_bytes.
Qed.
(** encode can return although soundex panics. *)
Theorem C77_encode_only : exists d, dms_build $ """a"" ""12|12345é"" ""1"" ""1""" false = Ok (inl d)
  /\ dms_encode latin1_only d $ "a" = Ok $ "120000" /\ dms_soundex latin1_only d $ "a" = Panic.
Proof. eexists. split; [vm_compute; reflexivity|]. split; vm_compute; reflexivity. Qed.
(** A file with replacements that are not ASCII: both outcomes happen. *)
Example C77_nonvacuous : exists text d items ev ev', dms_build text true = Ok (inl d) /\ dm_file text items []
  /\ dm_scan_any (table_of items) 0 (dm_text latin1_only items true $ "À BÉ") ev
  /\ dm_scan_any (table_of items) 0 (dm_text latin1_only items true $ "À x") ev'
  /\ (exists sel, selection ev sel /\ torn (kept None sel))
  /\ (forall sel, selection ev' sel -> ~ torn (kept None sel))
  /\ dms_soundex latin1_only d $ "À x" = Ok $ "1é000|é0000".
Proof.
  exists $ """a"" ""1é|é"" ""1"" ""1"" // x
""bé"" ""ç"" ""2"" ""éçç|3""
à=a".
  match goal with |- context[dms_build ?t] => set (text := t) end.
  destruct (dms_build text true) as [[d|e]| |] eqn:B; try (vm_compute in B; discriminate B).
  destruct (C41_accepts _ _ _ B) as (items & F & _). exists d, items.
  destruct (C77_scan_exists items (dm_text latin1_only items true $ "À BÉ")) as (ev & S & U). exists ev.
  destruct (C77_scan_exists items (dm_text latin1_only items true $ "À x")) as (ev' & S' & U'). exists ev'.
  assert (P : dms_soundex latin1_only d $ "À BÉ" = Panic).
  { vm_compute in B. injection B as <-. vm_compute. reflexivity. }
  assert (Q : dms_soundex latin1_only d $ "À x" = Ok $ "1é000|é0000").
  { vm_compute in B. injection B as <-. vm_compute. reflexivity. }
  split; [reflexivity|]. split; [exact F|]. split; [exact S|]. split; [exact S'|]. split; [|split; [|exact Q]].
  - apply (C77_soundex_panics_iff latin1_only text true items d _ ev B F S). exact P.
  - intros sel K T. pose proof (proj2 (C77_soundex_panics_iff latin1_only text true items d _ ev' B F S') (ex_intro _ sel (conj K T))) as X.
    rewrite Q in X. discriminate X.
Qed.

Print Assumptions C77_scan_exists.
Print Assumptions C77_soundex_panics_iff.
Print Assumptions C77_soundex.
Print Assumptions C77_encode.
Print Assumptions C77_encode_panics_iff.
Print Assumptions C77_six_bytes.
Print Assumptions C77_ascii.
Print Assumptions C77_encode_only.
