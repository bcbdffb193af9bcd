(** * C69, C27 for texts that are not ASCII. *)
From Verif Require Import Base UnicodeM Lib Helper DoubleMetaphone BaseLemmas Spec_common Spec_contextual
  Spec_double_metaphone Rewrite_proofs Contextual_proofs Soundex_proofs UnicodeLemmas DoubleMetaphone_proofs
  Double_metaphone_spec_proofs Double_metaphone_run_proofs Double_metaphone_any_proofs
  Props_double_metaphone Props_double_metaphone_spec UnicodeReal Upper_ok.
Local Open Scope N_scope.

Lemma upper_places : forall u s x, UpperOK u -> In x (in_places (str_upper u s)) -> is_ascii_lower x = false.
Proof.
  intros u s x O H. apply in_flat_map in H as (c & Hc & H). apply in_flat_map in Hc as (d & _ & Hc).
  unfold places in H. destruct (c <? 128).
  - destruct H as [<-|[]]. now apply (O d).
  - apply repeat_spec in H. now subst.
Qed.

Lemma trimmed_by_trim : forall u s core, trimmed_by (is_whitespace u) s core -> trim u s = core.
Proof.
  intros u s core (w & w' & -> & Hw & Hw' & Hh & Hl). rewrite trim_surround by assumption.
  destruct core as [|c r]; [reflexivity|]. unfold trim. rewrite trim_start_keep by now apply (Hh c r).
  destruct (rev (c :: r)) as [|x l] eqn:E.
  { apply (f_equal (@length N)) in E. rewrite rev_length in E. discriminate. }
  assert (Er : c :: r = rev l ++ [x]).
  { rewrite <- (rev_involutive (c :: r)), E. reflexivity. }
  rewrite trim_start_keep; [exact (eq_sym Er)|]. now apply (Hl (rev l) x).
Qed.
Lemma start_split : forall v, dm_start v (if existsb (starts_with v) SILENT_START then 1%nat else 0%nat).
Proof. intros v. now apply dm_start_iff. Qed.

(** For every text and every limit: when the program returns, its two codes are those the
    rule table gives, positions being measured in bytes. *)
Theorem C69_any_text : forall u max s core p a, UpperOK u -> trimmed_by (is_whitespace u) s core ->
  double_metaphone u max s = Ok {| dm_primary := p; dm_alternate := a |} ->
  double_metaphone_codes_any max (str_upper u core) p a.
Proof.
  intros u max s core p a O T H. apply trimmed_by_trim in T. unfold double_metaphone in H. rewrite T in H.
  assert (N0 : core = [] -> p = [] /\ a = []).
  { intros ->. injection H as <- <-. now split. }
  remember (str_upper u core) as v eqn:Ev.
  exists (if existsb (starts_with v) SILENT_START then 1%nat else 0%nat).
  destruct core as [|x l].
  { destruct N0 as [-> ->]; [reflexivity|]. subst v. exists [], []. split; [now apply dm_start_iff|].
    split; [constructor|]. destruct max as [n|]; cbn [dm_cut]; rewrite ?firstn_nil; now split. }
  cbv zeta in H. clear N0.
  assert (U : forall y, In y (in_places v) -> is_ascii_lower y = false) by (intros y Hy; subst v; now apply (upper_places u (x :: l))).
  apply ref_dm_loop in H.
  match type of H with dm_loop _ _ _ _ _ ?z = _ => change z with (dm_of [] []) in H end.
  match type of H with dm_loop _ _ _ ?k _ _ = _ => remember k as skip eqn:Ek end.
  destruct (dm_loop_ok (in_places v) None (is_slavo_germanic v) (char_indices v) skip [] [] (in_places_ascii v))
    as [[q b] F]; [apply ascii_str_nil|apply ascii_str_nil|intros ? [=]|].
  change (dm_loop (in_places v) None (is_slavo_germanic v) skip (char_indices v) (dm_of [] []) = Ok (dm_of q b)) in F.
  assert (C : dm_loop (in_places v) max (is_slavo_germanic v) skip (char_indices v) (dm_of [] [])
              = Ok (dm_of (dm_cut max q) (dm_cut max b))).
  { destruct max as [n|]; [|exact F]. apply (dm_loop_cut _ _ n) in F; [|apply ascii_str_nil|apply ascii_str_nil].
    rewrite firstn_nil in F. exact F. }
  rewrite H in C. injection C as -> ->.
  destruct (dm_loop_reads_any v [] skip [] [] _ U F) as (ps & als & R & E). injection E as -> ->.
  exists ps, als. split; [rewrite Ek; now apply dm_start_iff|]. split; [exact R|]. now split.
Qed.
(** Every text has exactly one pair of codes. *)
Theorem C69_any_unique : forall max text, exists p a, double_metaphone_codes_any max text p a
  /\ forall p' a', double_metaphone_codes_any max text p' a' -> p' = p /\ a' = a.
Proof.
  intros max t. set (i := if existsb (starts_with t) SILENT_START then 1%nat else 0%nat).
  destruct (dm_reads_any_exists (length (skipn i t)) (skipn i t) (firstn i t) (le_n _)) as (ps & als & R).
  exists (dm_cut max ps), (dm_cut max als). split.
  - exists i, ps, als. split; [now apply dm_start_iff|]. now split.
  - intros p' a' (j & qs & bls & Hj & Rj & -> & ->). apply dm_start_iff in Hj. fold i in Hj. subst j.
    now destruct (dm_reads_any_unique _ _ _ _ R _ _ Rj) as [-> ->].
Qed.
(** On ASCII these are the codes of the table read letter by letter. *)
Theorem C69_any_ascii : forall max text p a, ascii_str text ->
  (double_metaphone_codes_any max text p a <-> double_metaphone_codes max text p a).
Proof.
  assert (D : forall b t ps als, dm_reads_any b t ps als -> ascii_str (b ++ t) -> dm_reads (b ++ t) (length b) ps als).
  { intros b t ps als H. induction H as [b|b c rest r p a k ps als Ho Hg Hr IH]; intros A.
    - apply dr_end. rewrite app_nil_r. lia.
    - rewrite in_places_of_ascii in Hg by exact A.
      assert (Ab : ascii_str b) by (intros x Hx; apply A, in_or_app; now left).
      assert (Ac : c < 128) by (apply A, in_or_app; right; now left).
      rewrite in_places_of_ascii in Hg by exact Ab.
      assert (E : (b ++ c :: firstn k rest) ++ skipn k rest = b ++ c :: rest).
      { rewrite <- app_assoc. cbn [app]. now rewrite firstn_skipn. }
      rewrite E in IH. specialize (IH A). rewrite app_length in IH. cbn [length] in IH.
      destruct (Nat.leb_spec k (length rest)) as [Lk|Lk].
      + rewrite firstn_length_le in IH by exact Lk.
        apply (dr_letter _ _ c r p a k ps als).
        * rewrite nth_error_app2 by lia. now rewrite Nat.sub_diag.
        * apply (rule_of_iff _ _ _ _ _ dm_table_any_disjoint) in Ho. apply (rule_of_iff _ _ _ _ _ dm_table_disjoint).
          now rewrite <- lookup_any_ascii.
        * exact Hg.
        * now replace (length b + 1 + k)%nat with (length b + S k)%nat by lia.
      + rewrite skipn_all2 in Hr by lia. inversion Hr; subst.
        apply (dr_letter _ _ c r p a k [] []).
        * rewrite nth_error_app2 by lia. now rewrite Nat.sub_diag.
        * apply (rule_of_iff _ _ _ _ _ dm_table_any_disjoint) in Ho. apply (rule_of_iff _ _ _ _ _ dm_table_disjoint).
          now rewrite <- lookup_any_ascii.
        * exact Hg.
        * apply dr_end. rewrite app_length. cbn [length]. lia. }
  assert (S : forall t i, dm_start t i -> (i <= length t)%nat).
  { intros t i [[-> (w & r & Hw & ->)]|[-> _]]; [|lia]. rewrite app_length.
    destruct Hw as [<-|[<-|[<-|[<-|[<-|[]]]]]]; cbn [length]; lia. }
  intros max t p a A. split.
  - intros (i & ps & als & Hi & R & -> & ->). exists i, ps, als. split; [exact Hi|]. split; [|now split].
    apply D in R; [|now rewrite firstn_skipn]. rewrite firstn_skipn, firstn_length_le in R by now apply S. exact R.
  - intros (i & ps & als & Hi & R & -> & ->).
    destruct (dm_reads_any_exists (length (skipn i t)) (skipn i t) (firstn i t) (le_n _)) as (qs & bls & R').
    pose proof (D _ _ _ _ R') as R2. rewrite firstn_skipn, firstn_length_le in R2 by now apply S.
    destruct (dm_reads_unique _ _ _ _ R _ _ (R2 A)) as [-> ->].
    exists i, qs, bls. split; [exact Hi|]. split; [exact R'|]. now split.
Qed.

(** ** Which letters are safe beside characters that are not ASCII *)
Definition unsafe_letters : ustr := $ "CDGHJLMPRSTWXZ".

Lemma char_after : forall before c rest, c < 128 ->
  exists x, char_at (before ++ c :: rest) (Z.of_nat (blen before) + 1)%Z = Ok x.
Proof.
  intros before c rest L. unfold char_at. destruct (_ && _); [|now eexists].
  replace (Z.to_nat (Z.of_nat (blen before) + 1)) with (blen (before ++ [c])).
  - unfold slice_from. change (before ++ c :: rest) with (before ++ [c] ++ rest). rewrite app_assoc, split_byte_app.
    cbn [bind]. now eexists.
  - rewrite blen_app. cbn [blen]. rewrite ascii_utf8_len by exact L. lia.
Qed.
Lemma then_skip_safe : forall before c rest ops k, c < 128 ->
  exists x, then_skip_if ops (at_is (before ++ c :: rest) (Z.of_nat (blen before) + 1)%Z k) = Ok x.
Proof.
  intros before c rest ops k L. destruct (char_after before c rest L) as [x E]. unfold then_skip_if, at_is.
  rewrite E. cbn [bind]. destruct (opt_is x k); now eexists.
Qed.
Lemma dm_char_safe : forall before c rest sg, (c < 128 -> ~ In c unsafe_letters) ->
  exists x, dm_char (before ++ c :: rest) sg (Z.of_nat (blen before)) c = Ok x.
Proof.
  intros before c rest sg H. destruct (N.ltb_spec c 128) as [L|L].
  2: { rewrite dm_char_high by exact L. now eexists. }
  specialize (H L). unfold dm_char. destruct (isin c _); [destruct (_ =? _)%Z; now eexists|].
  repeat match goal with |- context[if N.eqb c ?k then _ else _] =>
    destruct (N.eqb_spec c k) as [->|];
      [first [now eexists | apply then_skip_safe; reflexivity | exfalso; apply H; apply isin_In; reflexivity]|] end.
  now eexists.
Qed.
Lemma dm_loop_safe : forall max sg rest before k r,
  (forall c, In c rest -> c < 128 -> ~ In c unsafe_letters) ->
  dm_loop (before ++ rest) max sg k (char_indices_from (blen before) rest) r
  = dm_loop (in_places (before ++ rest)) max sg k (char_indices_from (blen before) rest) r.
Proof.
  intros max sg. induction rest as [|c rest IH]; intros before k r H; [reflexivity|].
  assert (Ev : before ++ c :: rest = (before ++ [c]) ++ rest) by (now rewrite <- app_assoc).
  assert (Eb : (blen before + utf8_len c)%nat = blen (before ++ [c])).
  { rewrite blen_app. cbn [blen]. lia. }
  assert (IH' : forall k r, dm_loop (before ++ c :: rest) max sg k (char_indices_from (blen before + utf8_len c) rest) r
    = dm_loop (in_places (before ++ c :: rest)) max sg k (char_indices_from (blen before + utf8_len c) rest) r).
  { intros k' r'. rewrite Eb, Ev. apply IH. intros x Hx. apply H. now right. }
  cbn [char_indices_from dm_loop]. destruct k as [|k]; [|apply IH']. destruct (dm_is_complete max r); [reflexivity|].
  destruct (dm_char_safe before c rest sg) as [[ops k] E]; [apply H; now left|].
  rewrite E, (ref_dm_char _ _ _ _ _ E). cbn [bind]. destruct (dm_apply max r ops) as [r'| |]; cbn [bind]; [|reflexivity|reflexivity].
  apply IH'.
Qed.
(** Texts whose ASCII letters are vowels, B, F, K, N, Q and V have codes, whatever else they contain. *)
Theorem C27_total_safe : forall u max s,
  (forall c, In c (str_upper u s) -> c < 128 -> ~ In c unsafe_letters) ->
  exists r, double_metaphone u max s = Ok r.
Proof.
  intros u max s H. unfold double_metaphone. destruct (trim u s) as [|x l] eqn:E; [now eexists|]. cbv zeta.
  assert (H' : forall c, In c (str_upper u (x :: l)) -> c < 128 -> ~ In c unsafe_letters).
  { intros c Hc. apply H. apply in_flat_map in Hc as (d & Hd & Hc). apply in_flat_map. exists d. split; [|exact Hc].
    rewrite <- E in Hd. now apply trim_incl in Hd. }
  pose proof (dm_loop_safe max (is_slavo_germanic (str_upper u (x :: l))) (str_upper u (x :: l)) []
    (if existsb (starts_with (str_upper u (x :: l))) SILENT_START then 1%nat else 0%nat) (dm_of [] []) H') as S.
  cbn [app blen] in S. unfold char_indices, dm_of in *. rewrite S. clear S.
  edestruct (dm_loop_ok (in_places (str_upper u (x :: l))) max) as [r K]; cycle 4; [exists r; exact K|..];
    [apply in_places_ascii|apply ascii_str_nil|apply ascii_str_nil|].
  intros n En. cbn. lia.
Qed.
(** Every other letter makes the program panic in some text whose other ASCII letters are safe. *)
Theorem C27_unsafe_letters_panic : forall u c, In c unsafe_letters ->
  exists s, In c s /\ (forall x, In x s -> x < 128 -> x <> c -> ~ In x unsafe_letters)
    /\ double_metaphone u None s = Panic.
Proof.
  intros u c H. assert (W : exists s, In (c, s)
    [(# "C", $ "CÉ"); (# "D", $ "DÉ"); (# "G", $ "GÉ"); (# "H", $ "ÉH"); (# "J", $ "ÉJ"); (# "L", $ "LLÉ");
     (# "M", $ "ÉMÉ"); (# "P", $ "PÉ"); (# "R", $ "AAÉAR"); (# "S", $ "SÉ"); (# "T", $ "TÉ"); (# "W", $ "WÉ");
     (# "X", $ "AXÉ"); (# "Z", $ "KÉZ")]).
  { cbn [unsafe_letters In] in H. cbn [In].
    repeat (destruct H as [<-|H]; [eexists; repeat ((left; reflexivity) || right)|]). destruct H. }
  destruct W as [s W]. exists s. cbn [In] in W.
  repeat (destruct W as [W|W]; [injection W as <- <-; split; [cbn [In]; tauto|];
    split; [intros x Hx L D Hu; apply isin_In in Hu; cbn [In] in Hx;
       repeat (destruct Hx as [<-|Hx]; [(discriminate L || now elim D || discriminate Hu)|]); destruct Hx
      |vm_compute; reflexivity]|]). destruct W.
Qed.

(** A word with two letters that are not ASCII and blanks around it. *)
Example C69_any_nonvacuous : trimmed_by (is_whitespace real_unicode) $ "  Beñaqué " $ "Beñaqué"
  /\ double_metaphone real_unicode None $ "  Beñaqué " = Ok {| dm_primary := $ "PNK"; dm_alternate := $ "PNK" |}
  /\ double_metaphone_codes_any (Some 4%nat) $ "BEÑAQUÉ" $ "PNK" $ "PNK"
  /\ double_metaphone real_unicode None $ "faça" = Ok {| dm_primary := $ "FS"; dm_alternate := $ "FS" |}.
Proof.
  assert (T : trimmed_by (is_whitespace real_unicode) $ "  Beñaqué " $ "Beñaqué").
  { exists $ "  ", $ " ". split; [reflexivity|]. split; [|split; [|split]].
    - intros c [<-|[<-|[]]]; reflexivity.
    - intros c [<-|[]]; reflexivity.
    - intros c r E. injection E as <- _. reflexivity.
    - intros r c E. apply (f_equal (@rev N)) in E. rewrite rev_app_distr in E. cbn in E. injection E as <- _. reflexivity. }
  split; [exact T|]. split; [vm_compute; reflexivity|]. split; [|vm_compute; reflexivity].
  apply (C69_any_text real_unicode (Some 4%nat) _ _ _ _ real_upper_ok T). vm_compute. reflexivity.
Qed.
