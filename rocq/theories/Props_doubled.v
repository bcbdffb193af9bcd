(** * C85: doubled letters. *)
From Verif Require Import Base UnicodeM Lib Helper Soundex Cologne Caverphone MatchRating Nysiis Phonex Metaphone DoubleMetaphone
  DaitchMokotoff BaseLemmas Spec_common Spec_rewrite Spec_soundex Spec_cologne Spec_metaphone Spec_doubled
  Lib_proofs Rewrite_proofs Soundex_proofs Cologne_proofs Props_cologne UnicodeLemmas Metaphone_proofs Metaphone_spec_proofs
  Metaphone_doubled_proofs DmRules Dm_proofs Dm_doubled_proofs Props_metaphone Props_metaphone_spec.
Local Open Scope N_scope.

(** ** Soundex and Refined Soundex *)
Lemma loop_again : forall sx c q count code d, ((sx_special_case_h_w sx && ((c =? # "H") || (c =? # "W"))) = false) ->
  get_mapping_code (sx_mapping sx) c = Ok d -> soundex_loop sx count code d (c :: q) = soundex_loop sx count code d q.
Proof.
  intros sx c q count code d H G. cbn [soundex_loop]. rewrite H, G. cbn [bind]. rewrite N.eqb_refl, andb_false_r.
  destruct (Nat.ltb count 4) eqn:F; [now destruct (d =? SILENT)|]. destruct q; cbn [soundex_loop]; now rewrite F.
Qed.
Lemma loop_doubled_here : forall sx c q count code previous,
  soundex_loop sx count code previous (c :: c :: q) = soundex_loop sx count code previous (c :: q).
Proof.
  intros sx c q count code previous.
  assert (Q : forall r, soundex_loop sx count code previous (c :: r) =
    if Nat.ltb count 4 then
      if sx_special_case_h_w sx && ((c =? # "H") || (c =? # "W")) then soundex_loop sx count code previous r
      else digit <- get_mapping_code (sx_mapping sx) c ;;
           if digit =? SILENT then soundex_loop sx count code previous r
           else if negb (digit =? # "0") && negb (digit =? previous) then soundex_loop sx (S count) (digit :: code) digit r
           else soundex_loop sx count code digit r
    else Ok (count, code)) by reflexivity.
  pose proof (Q q) as Q'. rewrite (Q (c :: q)). destruct (Nat.ltb count 4) eqn:F; [|now rewrite Q'].
  destruct (sx_special_case_h_w sx && _) eqn:H; [reflexivity|].
  destruct (get_mapping_code _ _) as [d| |] eqn:G; cbn [bind] in *; [|now rewrite Q'..].
  destruct (d =? SILENT) eqn:Z; [reflexivity|]. rewrite Q'.
  destruct (negb _ && _); now apply loop_again.
Qed.
Lemma soundex_loop_doubled : forall sx c q p count code previous,
  soundex_loop sx count code previous (p ++ c :: c :: q) = soundex_loop sx count code previous (p ++ c :: q).
Proof.
  intros sx c q. induction p as [|x p IH]; intros count code previous; cbn [app]; [apply loop_doubled_here|].
  cbn [soundex_loop]. destruct (Nat.ltb count 4); [|reflexivity]. destruct (_ && _); [apply IH|].
  destruct (get_mapping_code _ _) as [d| |]; cbn [bind]; [|reflexivity..].
  destruct (d =? SILENT); [apply IH|]. destruct (_ && _); apply IH.
Qed.
Lemma clean_doubled : forall u c, (length (to_upper u c) <= 1)%nat ->
  soundex_clean u [c] = [] \/ exists d, soundex_clean u [c] = [d].
Proof.
  intros u c H. unfold soundex_clean. cbn [filter]. destruct (is_alphabetic u c); [|now left].
  unfold str_upper. cbn [flat_map]. rewrite app_nil_r. destruct (to_upper u c) as [|d [|]]; [now left|right; now exists d|cbn in H; lia].
Qed.
Theorem C85_soundex : forall u sx c, (length (to_upper u c) <= 1)%nat -> harmless (soundex_encode u sx) any_text c.
Proof.
  intros u sx c H a b _. unfold soundex_encode.
  change (a ++ c :: c :: b) with (a ++ [c] ++ [c] ++ b). change (a ++ c :: b) with (a ++ [c] ++ b). rewrite !clean_app.
  destruct (clean_doubled u c H) as [->|[d ->]]; cbn [app]; [reflexivity|].
  destruct (soundex_clean u a) as [|x p]; cbn [app].
  - destruct (get_mapping_code (sx_mapping sx) d) as [k| |] eqn:G; cbn [bind]; [|reflexivity..].
    generalize (soundex_clean u b). intros q.
    replace (soundex_loop sx 1 [] k (d :: q)) with (soundex_loop sx 1 [] k q); [reflexivity|]. symmetry.
    destruct (sx_special_case_h_w sx && ((d =? # "H") || (d =? # "W"))) eqn:W; [|now apply loop_again].
    cbn [soundex_loop Nat.ltb Nat.leb]. now rewrite W.
  - destruct (get_mapping_code (sx_mapping sx) x) as [k| |]; cbn [bind]; [|reflexivity..]. now rewrite soundex_loop_doubled.
Qed.
Lemma refined_loop_doubled : forall m c q p previous,
  refined_loop m previous (p ++ c :: c :: q) = refined_loop m previous (p ++ c :: q).
Proof.
  intros m c q. induction p as [|x p IH]; intros previous; cbn [app].
  - cbn [refined_loop]. destruct (get_mapping_code m c) as [d| |] eqn:G; cbn [bind]; [|reflexivity..].
    destruct (refined_loop m (Some d) q) as [r| |]; cbn [bind]; [|reflexivity..].
    cbn [opt_is]. now rewrite N.eqb_refl.
  - cbn [refined_loop]. destruct (get_mapping_code m x) as [d| |]; cbn [bind]; [|reflexivity..]. now rewrite IH.
Qed.
Theorem C85_refined : forall u table c, (length (to_upper u c) <= 1)%nat -> harmless (refined_encode u table) any_text c.
Proof.
  intros u m c H a b _. unfold refined_encode.
  change (a ++ c :: c :: b) with (a ++ [c] ++ [c] ++ b). change (a ++ c :: b) with (a ++ [c] ++ b). rewrite !clean_app.
  destruct (clean_doubled u c H) as [->|[d ->]]; cbn [app]; [reflexivity|].
  destruct (soundex_clean u a) as [|x p]; cbn [app].
  - now rewrite (refined_loop_doubled m d (soundex_clean u b) []).
  - now rewrite (refined_loop_doubled m d (soundex_clean u b) (x :: p)).
Qed.
(** Every ASCII letter is such a character, in either case. *)
Corollary C85_soundex_ascii : forall u sx table c, c < 128 ->
  harmless (soundex_encode u sx) any_text c /\ harmless (refined_encode u table) any_text c.
Proof.
  intros u sx table c H. assert (L : (length (to_upper u c) <= 1)%nat) by (rewrite (to_upper_ascii u c H); cbn; lia).
  split; [now apply C85_soundex|now apply C85_refined].
Qed.
(** A ligature stands for several letters; written twice it repeats them all. *)
Definition with_ligature : Unicode := {|
  hi_alphabetic := fun _ => true; hi_numeric := fun _ => false; hi_lowercase := fun _ => false; hi_whitespace := fun _ => false;
  hi_cased := fun _ => false; hi_case_ignorable := fun _ => false;
  hi_upper := fun c => if c =? 64257 then $ "FI" else [c]; hi_lower := fun c => [c] |}.
Theorem C85_soundex_ligature_refuted : UnicodeOK with_ligature
  /\ ~ harmless (soundex_encode with_ligature soundex_default) any_text 64257
  /\ ~ harmless (refined_encode with_ligature ENGLISH_MAPPING) any_text 64257.
Proof.
  split; [|split].
  - split; intros c; cbn; [destruct (c =? 64257)|]; discriminate.
  - intros H. specialize (H [] [] I). vm_compute in H. discriminate H.
  - intros H. specialize (H [] [] I). vm_compute in H. discriminate H.
Qed.

(** ** Cologne *)
Lemma table_steady : forall c, In c $ "ABEFGHIJKLMNOQRSUVWYZ" -> exists d, forall onset prev next, cologne_table onset prev next c = [d].
Proof.
  intros c H. apply (in_map (fun c => c)) in H. cbn in H.
  repeat (destruct H as [<-|H]; [eexists; intros onset prev next; reflexivity|]). destruct H.
Qed.
Lemma codes_doubled : forall c, In c $ "ABEFGHIJKLMNOQRSUVWYZ" -> forall a b,
  collapse (cologne_codes [] (a ++ c :: c :: b)) = collapse (cologne_codes [] (a ++ c :: b)).
Proof.
  intros c H a b. rewrite !codes_split. cbn [hd_error]. destruct (table_steady c H) as [d T].
  assert (Z : isin c $ "ABCDEFGHIJKLMNOPQRSTUVWXYZ" = true).
  { cbn in H. repeat (destruct H as [<-|H]; [reflexivity|]). destruct H. }
  generalize (codes_with_next [] a (Some c)) (before_after [] a). intros x before.
  cbn [cologne_codes]. rewrite Z, !T. cbn [app]. rewrite collapse_dup. do 3 f_equal.
  apply codes_before; [|reflexivity]. cbn [forallb]. now destruct (c =? # "H").
Qed.
(** The letters that sound the same whatever stands beside them; in either case, with or without
    an umlaut. *)
Theorem C85_cologne : forall u c, In c $ "ABEFGHIJKLMNOQRSUVWYZabefghijklmnoqrsuvwyzÄÖÜäöü" -> harmless (cologne_encode u) any_text c.
Proof.
  intros u c H a b _. rewrite !C13_cologne_is_its_table. f_equal. unfold cologne_code, cologne_reduce.
  rewrite !str_upper_app. change (c :: c :: b) with ([c] ++ [c] ++ b). change (c :: b) with ([c] ++ b). rewrite !str_upper_app.
  assert (E : exists d, map umlaut_base (str_upper u [c]) = [d] /\ In d $ "ABEFGHIJKLMNOQRSUVWYZ").
  { cbn in H. repeat (destruct H as [<-|H]; [eexists; split; [reflexivity|]; vm_compute; tauto|]). destruct H. }
  destruct E as [d [E D]]. rewrite !map_app, E. cbn [app].
  now rewrite (codes_doubled d D).
Qed.
(** The other letters are no such letters. *)
Theorem C85_cologne_iff : forall u c, In c AZ -> (harmless (cologne_encode u) any_text c <-> ~ In c $ "CDPTX").
Proof.
  intros u c H. split.
  - intros K D. cbn in D.
    destruct D as [<-|[<-|[<-|[<-|[<-|[]]]]]].
    + specialize (K [] $ "K" I). vm_compute in K. discriminate K.
    + specialize (K [] $ "S" I). vm_compute in K. discriminate K.
    + specialize (K [] $ "H" I). vm_compute in K. discriminate K.
    + specialize (K [] $ "Z" I). vm_compute in K. discriminate K.
    + specialize (K [] $ "" I). vm_compute in K. discriminate K.
  - intros D. apply C85_cologne. cbn in H.
    repeat (destruct H as [<-|H]; [first [exfalso; apply D; vm_compute; tauto|vm_compute; tauto]|]). destruct H.
Qed.

(** ** Metaphone *)
Theorem C85_metaphone : forall u max c, In c $ "FJLMNQRVZfjlmnqrvz" -> harmless (metaphone_encode u max) longer_ascii_text c.
Proof.
  intros u max c H a b [A L].
  assert (A2 : ascii_text (a ++ c :: c :: b)). { intros x Hx. apply A. rewrite in_app_iff in *. cbn in *. tauto. }
  assert (C : In (ascii_up c) $ "FJLMNQRVZ").
  { cbn in H. repeat (destruct H as [<-|H]; [vm_compute; tauto|]). destruct H. }
  destruct (C24_total_on_ascii u max _ A) as [code E]. rewrite E.
  apply C68_metaphone_is_its_definition; [exact A2|]. apply C68_metaphone_is_its_definition in E; [|exact A].
  unfold metaphone_code in *. rewrite !map_app in *. cbn [map] in *.
  destruct E as [[E _]|(_ & text & full & S & R & ->)]; [exfalso; rewrite <- (map_length ascii_up), map_app in L; cbn [map] in L; lia|].
  right. split. { rewrite app_length. cbn [length]. lia. }
  destruct (local_doubled (map ascii_up a) (ascii_up c) (map ascii_up b) C) as (a' & E1 & E2).
  apply start_rewritten_iff in S. rewrite <- mt_local_rw, E1 in S. subst text.
  exists (a' ++ ascii_up c :: ascii_up c :: map ascii_up b), full. split; [|split; [|reflexivity]].
  - apply start_rewritten_iff. now rewrite <- mt_local_rw, E2.
  - apply (reads_doubled a' (map ascii_up b) (ascii_up c) C); [exact R|lia].
Qed.
Lemma ascii_lit : forall s, forallb (fun c => c <? 128) s = true -> ascii_text s.
Proof. intros s H c Hc. rewrite forallb_forall in H. apply N.ltb_lt. now apply H. Qed.
Lemma metaphone_differs : forall u max a c b k k', (forall n, max = Some n -> (2 <= n)%nat) ->
  longer_ascii_text (a ++ c :: b) -> metaphone_encode u None (a ++ c :: b) = Ok k -> metaphone_encode u None (a ++ c :: c :: b) = Ok k' ->
  firstn 2 k <> firstn 2 k' -> ~ harmless (metaphone_encode u max) longer_ascii_text c.
Proof.
  intros u max a c b k k' M [A L] E E' D H. specialize (H a b (conj A L)).
  assert (A2 : ascii_text (a ++ c :: c :: b)). { intros x Hx. apply A. rewrite in_app_iff in *. cbn in *. tauto. }
  destruct max as [n|].
  - rewrite (C23_max_length_is_truncation u (a ++ c :: b) n k) in H; [|rewrite str_upper_ascii, ascii_blen, map_length by auto using ascii_str_map_up; lia|exact E].
    rewrite (C23_max_length_is_truncation u (a ++ c :: c :: b) n k') in H; [|rewrite str_upper_ascii, ascii_blen, map_length by auto using ascii_str_map_up; rewrite app_length in *; cbn [length] in *; lia|exact E'].
    injection H as H. apply D. specialize (M n eq_refl).
    transitivity (firstn 2 (firstn n k)); [now rewrite firstn_firstn, Nat.min_l by assumption|].
    rewrite <- H. now rewrite firstn_firstn, Nat.min_l by assumption.
  - rewrite E, E' in H. injection H as ->. now apply D.
Qed.
Theorem C85_metaphone_iff : forall u max c, (forall n, max = Some n -> (2 <= n)%nat) -> In c AZ ->
  (harmless (metaphone_encode u max) longer_ascii_text c <-> In c $ "FJLMNQRVZ").
Proof.
  intros u max c M H. split.
  - intros K. apply isin_In. destruct (isin c $ "FJLMNQRVZ") eqn:Z; [reflexivity|]. exfalso. revert K.
    cbn in H. repeat (destruct H as [<-|H]; [first [discriminate Z|clear Z]|]); [..|destruct H].
    + eapply (metaphone_differs u max $ "" (# "A") $ "E"); [exact M|split; [apply ascii_lit; reflexivity|cbn; lia]|vm_compute; reflexivity|vm_compute; reflexivity|discriminate].
    + eapply (metaphone_differs u max $ "M" (# "B") $ ""); [exact M|split; [apply ascii_lit; reflexivity|cbn; lia]|vm_compute; reflexivity|vm_compute; reflexivity|discriminate].
    + eapply (metaphone_differs u max $ "" (# "C") $ "A"); [exact M|split; [apply ascii_lit; reflexivity|cbn; lia]|vm_compute; reflexivity|vm_compute; reflexivity|discriminate].
    + eapply (metaphone_differs u max $ "" (# "D") $ "GE"); [exact M|split; [apply ascii_lit; reflexivity|cbn; lia]|vm_compute; reflexivity|vm_compute; reflexivity|discriminate].
    + eapply (metaphone_differs u max $ "CH" (# "E") $ ""); [exact M|split; [apply ascii_lit; reflexivity|cbn; lia]|vm_compute; reflexivity|vm_compute; reflexivity|discriminate].
    + eapply (metaphone_differs u max $ "" (# "G") $ "E"); [exact M|split; [apply ascii_lit; reflexivity|cbn; lia]|vm_compute; reflexivity|vm_compute; reflexivity|discriminate].
    + eapply (metaphone_differs u max $ "" (# "H") $ "A"); [exact M|split; [apply ascii_lit; reflexivity|cbn; lia]|vm_compute; reflexivity|vm_compute; reflexivity|discriminate].
    + eapply (metaphone_differs u max $ "C" (# "I") $ "A"); [exact M|split; [apply ascii_lit; reflexivity|cbn; lia]|vm_compute; reflexivity|vm_compute; reflexivity|discriminate].
    + eapply (metaphone_differs u max $ "" (# "K") $ "N"); [exact M|split; [apply ascii_lit; reflexivity|cbn; lia]|vm_compute; reflexivity|vm_compute; reflexivity|discriminate].
    + eapply (metaphone_differs u max $ "CH" (# "O") $ ""); [exact M|split; [apply ascii_lit; reflexivity|cbn; lia]|vm_compute; reflexivity|vm_compute; reflexivity|discriminate].
    + eapply (metaphone_differs u max $ "" (# "P") $ "H"); [exact M|split; [apply ascii_lit; reflexivity|cbn; lia]|vm_compute; reflexivity|vm_compute; reflexivity|discriminate].
    + eapply (metaphone_differs u max $ "" (# "S") $ "H"); [exact M|split; [apply ascii_lit; reflexivity|cbn; lia]|vm_compute; reflexivity|vm_compute; reflexivity|discriminate].
    + eapply (metaphone_differs u max $ "" (# "T") $ "H"); [exact M|split; [apply ascii_lit; reflexivity|cbn; lia]|vm_compute; reflexivity|vm_compute; reflexivity|discriminate].
    + eapply (metaphone_differs u max $ "CH" (# "U") $ ""); [exact M|split; [apply ascii_lit; reflexivity|cbn; lia]|vm_compute; reflexivity|vm_compute; reflexivity|discriminate].
    + eapply (metaphone_differs u max $ "" (# "W") $ "A"); [exact M|split; [apply ascii_lit; reflexivity|cbn; lia]|vm_compute; reflexivity|vm_compute; reflexivity|discriminate].
    + eapply (metaphone_differs u max $ "" (# "X") $ "A"); [exact M|split; [apply ascii_lit; reflexivity|cbn; lia]|vm_compute; reflexivity|vm_compute; reflexivity|discriminate].
    + eapply (metaphone_differs u max $ "" (# "Y") $ "A"); [exact M|split; [apply ascii_lit; reflexivity|cbn; lia]|vm_compute; reflexivity|vm_compute; reflexivity|discriminate].
  - intros K. apply C85_metaphone. cbn in K. repeat (destruct K as [<-|K]; [vm_compute; tauto|]). destruct K.
Qed.

(** ** Match Rating Approach *)
Lemma filter_trim_start : forall u s, filter (fun c => negb (is_whitespace u c)) (trim_start u s) = filter (fun c => negb (is_whitespace u c)) s.
Proof. intros u. induction s as [|c s IH]; [reflexivity|]. cbn [trim_start filter]. destruct (is_whitespace u c) eqn:W; cbn [negb]; [exact IH|]. cbn [filter]. now rewrite W. Qed.
Lemma filter_length_le : forall (f : N -> bool) s, (length (filter f s) <= length s)%nat.
Proof. intros f. induction s as [|c s IH]; cbn; [lia|]. destruct (f c); cbn; lia. Qed.
Lemma several_trim : forall u s, several (is_whitespace u) s -> (2 <= length (trim u s))%nat.
Proof.
  intros u s H. unfold several in H. unfold trim. rewrite rev_length.
  pose proof (filter_length_le (fun c => negb (is_whitespace u c)) (trim_start u (rev (trim_start u s)))) as L.
  rewrite filter_trim_start in L.
  assert (R : forall l : ustr, length (filter (fun c => negb (is_whitespace u c)) (rev l)) = length (filter (fun c => negb (is_whitespace u c)) l)).
  { induction l as [|x l IH]; [reflexivity|]. cbn [rev]. rewrite filter_app, app_length, IH. cbn [filter]. destruct (is_whitespace u x); cbn; lia. }
  rewrite R, filter_trim_start in L. lia.
Qed.
Lemma blen_ge : forall s, (length s <= blen s)%nat.
Proof. induction s as [|x s IH]; cbn; [lia|]. unfold utf8_len. repeat destruct (_ <? _); lia. Qed.
Lemma mra_several : forall u s, several (is_whitespace u) s -> mra_encode u s = get_first3_last3 (remove_double_consonants u (remove_vowels u (clean_name u s))).
Proof.
  intros u s H. apply several_trim in H. unfold mra_encode. cbv zeta. pose proof (blen_ge (trim u s)).
  replace (Nat.eqb (length (trim u s)) 0) with false by (symmetry; apply Nat.eqb_neq; lia).
  replace (Nat.eqb (blen (trim u s)) 1) with false by (symmetry; apply Nat.eqb_neq; lia). reflexivity.
Qed.
Lemma clean_name_app : forall u a b, clean_name u (a ++ b) = clean_name u a ++ clean_name u b.
Proof. intros u a b. unfold clean_name. rewrite str_upper_app, !filter_app. apply map_app. Qed.
Theorem C85_mra : forall u c, In c $ "AEIOUaeiou" -> harmless (mra_encode u) (several (is_whitespace u)) c.
Proof.
  intros u c H a b S.
  assert (S2 : several (is_whitespace u) (a ++ c :: c :: b)).
  { unfold several in *. rewrite filter_app, app_length in *. cbn [filter] in *. destruct (negb (is_whitespace u c)); cbn [length] in *; lia. }
  rewrite !mra_several by assumption. do 2 f_equal.
  change (a ++ c :: c :: b) with (a ++ [c] ++ [c] ++ b). change (a ++ c :: b) with (a ++ [c] ++ b). rewrite !clean_name_app.
  assert (E : exists d, clean_name u [c] = [d] /\ mra_vowel d = true).
  { cbn in H. repeat (destruct H as [<-|H]; [eexists; split; reflexivity|]). destruct H. }
  destruct E as (d & E & V). rewrite E. unfold remove_vowels. f_equal. cbn [app].
  destruct (clean_name u a) as [|x p]; cbn [app].
  - cbn [filter]. now rewrite V.
  - f_equal. rewrite !filter_app. cbn [filter]. now rewrite V.
Qed.
(** The other letters: a pair counts as one, a triple as two.  And a single vowel has no code, two have. *)
Theorem C85_mra_iff : forall u c, In c AZ -> (harmless (mra_encode u) (several (is_whitespace u)) c <-> In c $ "AEIOU").
Proof.
  intros u c H. split.
  - intros K. apply isin_In. destruct (isin c $ "AEIOU") eqn:Z; [reflexivity|]. exfalso.
    specialize (K [] [c]). cbn [app] in K. cbn in H.
    repeat (destruct H as [<-|H]; [first [discriminate Z|specialize (K (le_n 2)); vm_compute in K; discriminate K]|]). destruct H.
  - intros K. apply C85_mra. cbn in K. repeat (destruct K as [<-|K]; [vm_compute; tauto|]). destruct K.
Qed.
Theorem C85_mra_single : forall u c, In c AZ -> mra_encode u [c] = Ok [] /\ mra_encode u [c; c] = Ok [c].
Proof. intros u c H. cbn in H. repeat (destruct H as [<-|H]; [split; reflexivity|]). destruct H. Qed.

(** ** Phonex *)
Definition px_silent (c : N) : Prop := In c $ "AEIOUY".
Lemma px_index : forall max r i j st, px_loop max (S i) r st = px_loop max (S j) r st.
Proof.
  intros max. assert (P : forall n r i j st, (length r <= n)%nat -> px_loop max (S i) r st = px_loop max (S j) r st).
  { induction n as [|n IH]; intros r i j st L; [destruct r; [reflexivity|cbn in L; lia]|].
    destruct r as [|x r]; [reflexivity|]. cbn [px_loop]. destruct (Nat.eqb _ _); [reflexivity|].
    replace (px_step (S i) x (hd_error r) st) with (px_step (S j) x (hd_error r) st).
    2: { unfold px_step. cbn [Nat.eqb]. destruct (px_transcode _ _ _) as [k [|]]; reflexivity. }
    destruct (px_step (S j) x (hd_error r) st) as [st' skip]. destruct r as [|y r]; [reflexivity|]. cbn [length] in L.
    destruct skip; apply IH; cbn [length]; lia. }
  intros r i j st. now apply (P (length r)).
Qed.
Lemma px_vowel_transcode : forall c next last, px_silent c -> px_transcode c next last = (Some (# "0"), false).
Proof. intros c next last H. cbn in H. repeat (destruct H as [<-|H]; [reflexivity|]). destruct H. Qed.
Lemma px_vowel_step : forall c i next st, px_silent c ->
  px_step (S i) c next st = ({| px_result := px_result st; px_code := # "0"; px_last := px_last_push st; px_last_push := px_last_push st |}, false).
Proof.
  intros c i next st H. unfold px_step. rewrite (px_vowel_transcode c _ _ H). cbn [Nat.eqb].
  now rewrite N.eqb_refl, !andb_false_r.
Qed.
Lemma px_unfold : forall max i c r st, px_loop max i (c :: r) st =
  if Nat.eqb (blen (px_result st)) max then st
  else let '(st', skip) := px_step i c (hd_error r) st in
       match r with _ :: r' => if skip then px_loop max (S (S i)) r' st' else px_loop max (S i) r st' | [] => st' end.
Proof. reflexivity. Qed.
Lemma px_twice : forall max c r i st, px_silent c -> px_loop max (S i) (c :: c :: r) st = px_loop max (S i) (c :: r) st.
Proof.
  intros max c r i st H. rewrite (px_unfold max (S i) c (c :: r)), (px_unfold max (S i) c r).
  destruct (Nat.eqb (blen (px_result st)) max) eqn:F; [reflexivity|]. rewrite !(px_vowel_step c _ _ _ H).
  rewrite (px_unfold max (S (S i)) c r). cbn [px_result]. rewrite F, (px_vowel_step c _ _ _ H). cbn [px_result px_last_push].
  destruct r as [|x r]; [reflexivity|]. apply px_index.
Qed.
Lemma px_inside : forall max c b, px_silent c -> forall n a i st, (length a <= n)%nat ->
  px_loop max (S i) (a ++ c :: c :: b) st = px_loop max (S i) (a ++ c :: b) st.
Proof.
  intros max c b H. induction n as [|n IH]; intros a i st L.
  { destruct a; [apply px_twice, H|cbn in L; lia]. }
  destruct a as [|x a]; [apply px_twice, H|]. cbn [app length] in *. rewrite !(px_unfold max (S i) x).
  destruct (Nat.eqb _ _); [reflexivity|].
  replace (hd_error (a ++ c :: c :: b)) with (hd_error (a ++ c :: b)) by now destruct a.
  destruct (px_step (S i) x (hd_error (a ++ c :: b)) st) as [st' skip] eqn:E. destruct a as [|y a]; cbn [app hd_error] in *.
  - assert (skip = false) as ->.
    { unfold px_step in E. destruct (px_transcode x (Some c) false) as [k s] eqn:T. injection E as _ <-.
      clear - T H. unfold px_transcode in T. cbn in H.
      repeat (destruct H as [<-|H]; [cbn [isin_opt] in T; repeat match type of T with (if ?e then _ else _) = _ => destruct e end; injection T as _ <-; reflexivity|]). destruct H. }
    apply (IH [] (S i) st'). cbn; lia.
  - destruct skip; [apply (IH a)|apply (IH (y :: a))]; cbn [length] in *; lia.
Qed.
Lemma px_last_irrelevant : forall max i r res l l' lp, ~ In l $ "123456" -> ~ In l' $ "123456" ->
  px_result (px_loop max (S i) r {| px_result := res; px_code := # "0"; px_last := l; px_last_push := lp |})
  = px_result (px_loop max (S i) r {| px_result := res; px_code := # "0"; px_last := l'; px_last_push := lp |}).
Proof.
  intros max i r res l l' lp L L'. destruct r as [|x r]; [reflexivity|]. rewrite !px_unfold. cbn [px_result].
  destruct (Nat.eqb _ _); [reflexivity|].
  set (st1 := {| px_last := l |}). set (st2 := {| px_last := l' |}).
  replace (px_step (S i) x (hd_error r) st1) with (px_step (S i) x (hd_error r) st2); [reflexivity|].
  unfold px_step. cbn [Nat.eqb]. destruct (px_transcode _ _ _) as [k s] eqn:T. subst st1 st2. cbn [px_result px_code px_last px_last_push].
  assert (K : In (match k with Some c => c | None => # "0" end) $ "0123456").
  { clear - T. unfold px_transcode in T. repeat match type of T with (if ?e then _ else _) = _ => destruct e end; injection T as <- _; vm_compute; tauto. }
  set (code := match k with Some c => c | None => # "0" end) in *.
  assert (Q : negb (l' =? code) && negb (code =? # "0") = negb (l =? code) && negb (code =? # "0")).
  { clear - K L L'. cbn in K. destruct K as [<-|K]; [now rewrite N.eqb_refl, !andb_false_r|].
    assert (Z : forall m, ~ In m $ "123456" -> (m =? code) = false).
    { intros m M. apply N.eqb_neq. intros ->. apply M. cbn. tauto. }
    now rewrite !Z. }
  destruct s; cbn [Nat.eqb]; rewrite Q; reflexivity.
Qed.
Lemma drop_S_app : forall x d y, d <> # "S" -> drop_leading_S (x ++ d :: y) = drop_leading_S x ++ d :: y.
Proof.
  intros x d y D. induction x as [|c x IH]; cbn [app drop_leading_S].
  - destruct (N.eqb_spec d (# "S")); [contradiction|reflexivity].
  - destruct (c =? # "S"); [exact IH|reflexivity].
Qed.
Lemma drop_S_doubled : forall a d b, d <> # "S" -> drop_trailing_S (a ++ d :: b) = a ++ d :: drop_trailing_S b.
Proof.
  intros a d b D. unfold drop_trailing_S. rewrite rev_app_distr. cbn [rev]. rewrite <- app_assoc. cbn [app].
  rewrite drop_S_app by assumption. rewrite rev_app_distr. cbn [rev]. now rewrite rev_involutive, <- app_assoc.
Qed.
Lemma px_pre : forall d a b, px_silent d -> exists a',
  px_drop_H (px_pairs (a ++ d :: b)) = a' ++ d :: b /\ px_drop_H (px_pairs (a ++ d :: d :: b)) = a' ++ d :: d :: b.
Proof.
  intros d a b H.
  assert (D : (d =? # "K") = false /\ (d =? # "N") = false /\ (d =? # "P") = false /\ (d =? # "H") = false /\ (d =? # "W") = false /\ (d =? # "R") = false).
  { cbn in H. repeat (destruct H as [<-|H]; [now repeat split|]). destruct H. }
  destruct D as (D1 & D2 & D3 & D4 & D5 & D6).
  assert (Q : exists a', px_pairs (a ++ d :: b) = a' ++ d :: b /\ px_pairs (a ++ d :: d :: b) = a' ++ d :: d :: b).
  { destruct a as [|x [|y a]]; cbn [app px_pairs].
    - exists []. cbn [app]. rewrite D1, D3, D5. cbn [andb]. split; [now destruct b|reflexivity].
    - exists [x]. rewrite D2, D4, D6, !andb_false_r. now split.
    - destruct ((x =? # "K") && (y =? # "N")); [now exists (# "N" :: y :: a)|].
      destruct ((x =? # "P") && (y =? # "H")); [now exists (# "F" :: y :: a)|].
      destruct ((x =? # "W") && (y =? # "R")); [now exists (# "R" :: y :: a)|]. now exists (x :: y :: a). }
  destruct Q as (a' & -> & ->). destruct a' as [|x a']; cbn [app px_drop_H].
  - exists []. rewrite D4. now split.
  - destruct (x =? # "H"); [now exists a'|now exists (x :: a')].
Qed.
Theorem C85_phonex : forall u max c, In c $ "AEIOUYaeiouy" -> harmless (phonex_encode u max) any_text c.
Proof.
  intros u max c H a b _. unfold phonex_encode. cbv zeta.
  set (st0 := {| px_result := [] |}).
  replace (px_result (px_loop max 0 (px_preprocess u (a ++ c :: c :: b)) st0)) with (px_result (px_loop max 0 (px_preprocess u (a ++ c :: b)) st0)); [reflexivity|].
  symmetry. unfold px_preprocess.
  change (a ++ c :: c :: b) with (a ++ [c] ++ [c] ++ b). change (a ++ c :: b) with (a ++ [c] ++ b). rewrite !clean_app.
  assert (E : exists d, soundex_clean u [c] = [d] /\ px_silent d).
  { cbn in H. repeat (destruct H as [<-|H]; [eexists; split; [reflexivity|vm_compute; tauto]|]). destruct H. }
  destruct E as (d & E & D). rewrite E. cbn [app]. generalize (soundex_clean u a) (soundex_clean u b). clear - D. intros a b.
  assert (DS : d <> # "S") by (intros ->; cbn in D; intuition discriminate).
  rewrite !(drop_S_doubled a d) by assumption. change (d :: b) with ([] ++ d :: b). rewrite (drop_S_doubled [] d b DS). cbn [app].
  destruct (px_pre d a (drop_trailing_S b) D) as (a' & -> & ->). generalize (drop_trailing_S b). intros q. clear - D.
  destruct a' as [|x a']; cbn [app].
  - assert (F : forall r, px_first (d :: r) = # "A" :: r).
    { intros r. cbn in D. repeat (destruct D as [<-|D]; [reflexivity|]). destruct D. }
    rewrite !F, !px_unfold. destruct (Nat.eqb _ _) eqn:Z; [reflexivity|].
    assert (S0 : forall o, px_step 0 (# "A") o st0 = ({| px_result := $ "A"; px_code := # "0"; px_last := # "0"; px_last_push := # "A" |}, false)) by reflexivity.
    rewrite !S0. rewrite px_unfold. cbn [px_result]. destruct (Nat.eqb (blen $ "A") max) eqn:Y.
    + destruct q as [|x q]; [reflexivity|]. rewrite px_unfold. cbn [px_result]. now rewrite Y.
    + rewrite (px_vowel_step d _ _ _ D). cbn [px_result px_last_push].
      destruct q as [|x q]; [reflexivity|]. rewrite (px_index max _ 1 0). apply px_last_irrelevant; vm_compute; intuition discriminate.
  - assert (F : exists x', forall r, px_first (x :: r) = x' :: r).
    { unfold px_first. repeat match goal with |- context[if ?e then _ else _] => destruct e end; eexists; reflexivity. }
    destruct F as [x' F]. rewrite !F. rewrite !(px_unfold max 0 x'). destruct (Nat.eqb _ _); [reflexivity|].
    replace (hd_error (a' ++ d :: d :: q)) with (hd_error (a' ++ d :: q)) by now destruct a'.
    destruct (px_step 0 x' (hd_error (a' ++ d :: q)) st0) as [st' skip] eqn:E. destruct a' as [|y a']; cbn [app hd_error] in *.
    + assert (skip = false) as ->.
      { unfold px_step in E. destruct (px_transcode x' (Some d) false) as [k s] eqn:T. injection E as _ <-.
        clear - T D. unfold px_transcode in T. cbn in D.
        repeat (destruct D as [<-|D]; [cbn [isin_opt] in T; repeat match type of T with (if ?e then _ else _) = _ => destruct e end; injection T as _ <-; reflexivity|]). destruct D. }
      f_equal. now apply px_twice.
    + f_equal. destruct skip; [apply (px_inside max d q D (length a') a')|apply (px_inside max d q D (length (y :: a')) (y :: a'))]; lia.
Qed.
(** With the usual length, no other letter. *)
Theorem C85_phonex_iff : forall u c, In c AZ -> (harmless (phonex_encode u 4) any_text c <-> In c $ "AEIOUY").
Proof.
  intros u c H. split.
  - intros K. apply isin_In. destruct (isin c $ "AEIOUY") eqn:Z; [reflexivity|]. exfalso.
    cbn in H. repeat (destruct H as [<-|H]; [first [discriminate Z|clear Z]|]); [..|destruct H].
    + specialize (K $ "" $ "B" I). vm_compute in K. discriminate K.
    + specialize (K $ "" $ "C" I). vm_compute in K. discriminate K.
    + specialize (K $ "" $ "D" I). vm_compute in K. discriminate K.
    + specialize (K $ "" $ "B" I). vm_compute in K. discriminate K.
    + specialize (K $ "" $ "C" I). vm_compute in K. discriminate K.
    + specialize (K $ "" $ "A" I). vm_compute in K. discriminate K.
    + specialize (K $ "" $ "C" I). vm_compute in K. discriminate K.
    + specialize (K $ "" $ "C" I). vm_compute in K. discriminate K.
    + specialize (K $ "" $ "A" I). vm_compute in K. discriminate K.
    + specialize (K $ "" $ "D" I). vm_compute in K. discriminate K.
    + specialize (K $ "" $ "D" I). vm_compute in K. discriminate K.
    + specialize (K $ "" $ "B" I). vm_compute in K. discriminate K.
    + specialize (K $ "" $ "C" I). vm_compute in K. discriminate K.
    + specialize (K $ "" $ "A" I). vm_compute in K. discriminate K.
    + specialize (K $ "" $ "C" I). vm_compute in K. discriminate K.
    + specialize (K $ "" $ "D" I). vm_compute in K. discriminate K.
    + specialize (K $ "" $ "B" I). vm_compute in K. discriminate K.
    + specialize (K $ "" $ "R" I). vm_compute in K. discriminate K.
    + specialize (K $ "" $ "C" I). vm_compute in K. discriminate K.
    + specialize (K $ "" $ "C" I). vm_compute in K. discriminate K.
  - intros K. apply C85_phonex. cbn in K. repeat (destruct K as [<-|K]; [vm_compute; tauto|]). destruct K.
Qed.

(** ** Double Metaphone: no letter at all *)
Lemma longer_lit : forall s, forallb (fun c => c <? 128) s && Nat.leb 2 (length s) = true -> longer_ascii_text s.
Proof. intros s H. apply andb_true_iff in H as [H L]. split; [now apply ascii_lit|now apply Nat.leb_le]. Qed.
Theorem C85_double_metaphone_refuted : forall u c, In c AZ ->
  ~ harmless (fun s => (dm_encode u (Some 4%nat) s, dm_encode_alternate u (Some 4%nat) s)) longer_ascii_text c.
Proof.
  intros u c H K. cbn in H. repeat (destruct H as [<-|H]; [|]); [..|destruct H].
  - specialize (K $ "" $ "GN" ltac:(now apply longer_lit)). vm_compute in K. discriminate K.
  - specialize (K $ "" $ "B" ltac:(now apply longer_lit)). vm_compute in K. discriminate K.
  - specialize (K $ "" $ "E" ltac:(now apply longer_lit)). vm_compute in K. discriminate K.
  - specialize (K $ "" $ "D" ltac:(now apply longer_lit)). vm_compute in K. discriminate K.
  - specialize (K $ "G" $ "I" ltac:(now apply longer_lit)). vm_compute in K. discriminate K.
  - specialize (K $ "" $ "F" ltac:(now apply longer_lit)). vm_compute in K. discriminate K.
  - specialize (K $ "" $ "E" ltac:(now apply longer_lit)). vm_compute in K. discriminate K.
  - specialize (K $ "" $ "A" ltac:(now apply longer_lit)). vm_compute in K. discriminate K.
  - specialize (K $ "A" $ "S" ltac:(now apply longer_lit)). vm_compute in K. discriminate K.
  - specialize (K $ "A" $ "" ltac:(now apply longer_lit)). vm_compute in K. discriminate K.
  - specialize (K $ "C" $ "" ltac:(now apply longer_lit)). vm_compute in K. discriminate K.
  - specialize (K $ "" $ "L" ltac:(now apply longer_lit)). vm_compute in K. discriminate K.
  - specialize (K $ "" $ "M" ltac:(now apply longer_lit)). vm_compute in K. discriminate K.
  - specialize (K $ "" $ "N" ltac:(now apply longer_lit)). vm_compute in K. discriminate K.
  - specialize (K $ "" $ "GN" ltac:(now apply longer_lit)). vm_compute in K. discriminate K.
  - specialize (K $ "" $ "B" ltac:(now apply longer_lit)). vm_compute in K. discriminate K.
  - specialize (K $ "C" $ "" ltac:(now apply longer_lit)). vm_compute in K. discriminate K.
  - specialize (K $ "" $ "R" ltac:(now apply longer_lit)). vm_compute in K. discriminate K.
  - specialize (K $ "" $ "H" ltac:(now apply longer_lit)). vm_compute in K. discriminate K.
  - specialize (K $ "" $ "D" ltac:(now apply longer_lit)). vm_compute in K. discriminate K.
  - specialize (K $ "A" $ "X" ltac:(now apply longer_lit)). vm_compute in K. discriminate K.
  - specialize (K $ "" $ "V" ltac:(now apply longer_lit)). vm_compute in K. discriminate K.
  - specialize (K $ "" $ "A" ltac:(now apply longer_lit)). vm_compute in K. discriminate K.
  - specialize (K $ "" $ "A" ltac:(now apply longer_lit)). vm_compute in K. discriminate K.
  - specialize (K $ "" $ "GN" ltac:(now apply longer_lit)). vm_compute in K. discriminate K.
  - specialize (K $ "" $ "A" ltac:(now apply longer_lit)). vm_compute in K. discriminate K.
Qed.

(** ** Daitch-Mokotoff (the rules that come with the crate) *)
Lemma source_app : forall u d a b, dms_source u d (a ++ b) = dms_source u d a ++ dms_source u d b.
Proof. intros u d a b. unfold dms_source. now rewrite filter_app, map_app. Qed.
Lemma dm_checks : forall c, In c $ "bfglpqvw" -> exists r, rules_check 256 dms_default c r = true /\ own_check dms_default c = true /\ pairs_check dms_default c r = true.
Proof.
  intros c H. cbn in H.
  destruct H as [<-|[<-|[<-|[<-|[<-|[<-|[<-|[<-|[]]]]]]]]];
    [exists $ "7"|exists $ "7"|exists $ "5"|exists $ "8"|exists $ "7"|exists $ "5"|exists $ "7"|exists $ "7"];
    (split; [|split]); vm_compute; reflexivity.
Qed.
Lemma source_latin1 : forall u x, x < 256 -> dms_char u dms_default x < 256.
Proof.
  intros u x H. assert (I : In x (map N.of_nat (seq 0 256))).
  { replace x with (N.of_nat (N.to_nat x)) by lia. apply in_map, in_seq. lia. }
  assert (Q : forallb (fun x => dms_char u dms_default x <? 256) (map N.of_nat (seq 0 256)) = true) by (vm_compute; reflexivity).
  rewrite forallb_forall in Q. now apply N.ltb_lt, Q.
Qed.
Lemma latin1_lit : forall s, forallb (fun c => c <? 256) s = true -> latin1_text s.
Proof. intros s H c Hc. rewrite forallb_forall in H. apply N.ltb_lt. now apply H. Qed.
Theorem C85_daitch_mokotoff : forall u c, In c $ "BFGLPQVWbfglpqvw" ->
  harmless (dms_soundex u dms_default) latin1_text c /\ harmless (dms_encode u dms_default) latin1_text c.
Proof.
  intros u c H.
  assert (E : exists e, dms_source u dms_default [c] = [e] /\ In e $ "bfglpqvw").
  { cbn in H. repeat (destruct H as [<-|H]; [eexists; split; [reflexivity|vm_compute; tauto]|]). destruct H. }
  destruct E as (e & E & I). destruct (dm_checks e I) as (r & C1 & C2 & C3).
  assert (LS : forall a, latin1_text a -> forall k, In k (dms_source u dms_default a) -> k < 256).
  { intros a A k K. unfold dms_source in K. apply in_map_iff in K as (x & <- & K). apply filter_In in K as [K _]. apply source_latin1, A, K. }
  assert (Le : e < 256). { clear - I. cbn in I. repeat (destruct I as [<-|I]; [reflexivity|]). destruct I. }
  assert (Q : forall br a b, latin1_text (a ++ c :: b) -> inner_soundex u dms_default (a ++ c :: c :: b) br = inner_soundex u dms_default (a ++ c :: b) br).
  { intros br a b T. unfold inner_soundex. change (a ++ c :: c :: b) with (a ++ [c] ++ [c] ++ b). change (a ++ c :: b) with (a ++ [c] ++ b).
    rewrite !source_app, E. cbn [app]. rewrite (checked_doubled 256 dms_default e r Le C1 C2 C3); [reflexivity| |lia].
    apply LS. intros x Hx. apply T. apply in_or_app. now left. }
  split; intros a b T; [unfold dms_soundex|unfold dms_encode]; now rewrite Q.
Qed.
Theorem C85_daitch_mokotoff_iff : forall u c, In c AZ -> (harmless (dms_soundex u dms_default) latin1_text c <-> In c $ "BFGLPQVW").
Proof.
  intros u c H. split.
  - intros K. apply isin_In. destruct (isin c $ "BFGLPQVW") eqn:Z; [reflexivity|]. exfalso.
    cbn in H. repeat (destruct H as [<-|H]; [first [discriminate Z|clear Z]|]); [..|destruct H].
    + specialize (K $ "" $ "IA" ltac:(now apply latin1_lit)). vm_compute in K. discriminate K.
    + specialize (K $ "" $ "" ltac:(now apply latin1_lit)). vm_compute in K. discriminate K.
    + specialize (K $ "" $ "S" ltac:(now apply latin1_lit)). vm_compute in K. discriminate K.
    + specialize (K $ "" $ "U" ltac:(now apply latin1_lit)). vm_compute in K. discriminate K.
    + specialize (K $ "" $ "C" ltac:(now apply latin1_lit)). vm_compute in K. discriminate K.
    + specialize (K $ "" $ "A" ltac:(now apply latin1_lit)). vm_compute in K. discriminate K.
    + specialize (K $ "" $ "" ltac:(now apply latin1_lit)). vm_compute in K. discriminate K.
    + specialize (K $ "" $ "S" ltac:(now apply latin1_lit)). vm_compute in K. discriminate K.
    + specialize (K $ "" $ "N" ltac:(now apply latin1_lit)). vm_compute in K. discriminate K.
    + specialize (K $ "" $ "M" ltac:(now apply latin1_lit)). vm_compute in K. discriminate K.
    + specialize (K $ "" $ "IA" ltac:(now apply latin1_lit)). vm_compute in K. discriminate K.
    + specialize (K $ "" $ "S" ltac:(now apply latin1_lit)). vm_compute in K. discriminate K.
    + specialize (K $ "" $ "C" ltac:(now apply latin1_lit)). vm_compute in K. discriminate K.
    + specialize (K $ "" $ "C" ltac:(now apply latin1_lit)). vm_compute in K. discriminate K.
    + specialize (K $ "AA" $ "" ltac:(now apply latin1_lit)). vm_compute in K. discriminate K.
    + specialize (K $ "" $ "" ltac:(now apply latin1_lit)). vm_compute in K. discriminate K.
    + specialize (K $ "AA" $ "A" ltac:(now apply latin1_lit)). vm_compute in K. discriminate K.
    + specialize (K $ "" $ "D" ltac:(now apply latin1_lit)). vm_compute in K. discriminate K.
  - intros K. apply C85_daitch_mokotoff. cbn in K. repeat (destruct K as [<-|K]; [vm_compute; tauto|]). destruct K.
Qed.
(** Outside Latin-1 even these letters matter: one after a letter such as ą, which the rules have, is
    passed over; a second one is not. *)
Theorem C85_daitch_mokotoff_foreign_refuted : ~ harmless (dms_soundex latin1_only dms_default) any_text (# "b").
Proof. intros K. specialize (K [261] [] I). vm_compute in K. discriminate K. Qed.

(** ** NYSIIS and Caverphone: letters that do matter *)
Theorem C85_nysiis_refuted : forall u c, In c $ "ACDEIKMNOPQRTUVZ" -> ~ harmless (nysiis_encode u false) longer_ascii_text c.
Proof.
  intros u c H K. cbn in H. repeat (destruct H as [<-|H]; [|]); [..|destruct H].
  - specialize (K $ "M" $ "C" ltac:(now apply longer_lit)). vm_compute in K. discriminate K.
  - specialize (K $ "S" $ "H" ltac:(now apply longer_lit)). vm_compute in K. discriminate K.
  - specialize (K $ "N" $ "" ltac:(now apply longer_lit)). vm_compute in K. discriminate K.
  - specialize (K $ "A" $ "" ltac:(now apply longer_lit)). vm_compute in K. discriminate K.
  - specialize (K $ "" $ "E" ltac:(now apply longer_lit)). vm_compute in K. discriminate K.
  - specialize (K $ "" $ "N" ltac:(now apply longer_lit)). vm_compute in K. discriminate K.
  - specialize (K $ "" $ "A" ltac:(now apply longer_lit)). vm_compute in K. discriminate K.
  - specialize (K $ "" $ "D" ltac:(now apply longer_lit)). vm_compute in K. discriminate K.
  - specialize (K $ "" $ "B" ltac:(now apply longer_lit)). vm_compute in K. discriminate K.
  - specialize (K $ "" $ "F" ltac:(now apply longer_lit)). vm_compute in K. discriminate K.
  - specialize (K $ "" $ "A" ltac:(now apply longer_lit)). vm_compute in K. discriminate K.
  - specialize (K $ "" $ "D" ltac:(now apply longer_lit)). vm_compute in K. discriminate K.
  - specialize (K $ "D" $ "" ltac:(now apply longer_lit)). vm_compute in K. discriminate K.
  - specialize (K $ "" $ "B" ltac:(now apply longer_lit)). vm_compute in K. discriminate K.
  - specialize (K $ "AE" $ "" ltac:(now apply longer_lit)). vm_compute in K. discriminate K.
  - specialize (K $ "" $ "A" ltac:(now apply longer_lit)). vm_compute in K. discriminate K.
Qed.
Theorem C85_caverphone1_refuted : forall u c, In c $ "ABCDEGHINOPRTU" -> ~ harmless (caverphone1_encode u) longer_ascii_text c.
Proof.
  intros u c H K. cbn in H. repeat (destruct H as [<-|H]; [|]); [..|destruct H].
  - specialize (K $ "" $ "GHA" ltac:(now apply longer_lit)). vm_compute in K. discriminate K.
  - specialize (K $ "M" $ "" ltac:(now apply longer_lit)). vm_compute in K. discriminate K.
  - specialize (K $ "" $ "E" ltac:(now apply longer_lit)). vm_compute in K. discriminate K.
  - specialize (K $ "" $ "G" ltac:(now apply longer_lit)). vm_compute in K. discriminate K.
  - specialize (K $ "" $ "GHA" ltac:(now apply longer_lit)). vm_compute in K. discriminate K.
  - specialize (K $ "" $ "H" ltac:(now apply longer_lit)). vm_compute in K. discriminate K.
  - specialize (K $ "W" $ "A" ltac:(now apply longer_lit)). vm_compute in K. discriminate K.
  - specialize (K $ "T" $ "A" ltac:(now apply longer_lit)). vm_compute in K. discriminate K.
  - specialize (K $ "E" $ "OUGH" ltac:(now apply longer_lit)). vm_compute in K. discriminate K.
  - specialize (K $ "" $ "GHA" ltac:(now apply longer_lit)). vm_compute in K. discriminate K.
  - specialize (K $ "" $ "H" ltac:(now apply longer_lit)). vm_compute in K. discriminate K.
  - specialize (K $ "" $ "OUGH" ltac:(now apply longer_lit)). vm_compute in K. discriminate K.
  - specialize (K $ "" $ "IA" ltac:(now apply longer_lit)). vm_compute in K. discriminate K.
  - specialize (K $ "" $ "GHA" ltac:(now apply longer_lit)). vm_compute in K. discriminate K.
Qed.
Theorem C85_caverphone2_refuted : forall u c, In c $ "ABCDEGHIJNOPRTUWY" -> ~ harmless (caverphone2_encode u) longer_ascii_text c.
Proof.
  intros u c H K. cbn in H. repeat (destruct H as [<-|H]; [|]); [..|destruct H].
  - specialize (K $ "" $ "E" ltac:(now apply longer_lit)). vm_compute in K. discriminate K.
  - specialize (K $ "M" $ "" ltac:(now apply longer_lit)). vm_compute in K. discriminate K.
  - specialize (K $ "" $ "I" ltac:(now apply longer_lit)). vm_compute in K. discriminate K.
  - specialize (K $ "" $ "G" ltac:(now apply longer_lit)). vm_compute in K. discriminate K.
  - specialize (K $ "A" $ "" ltac:(now apply longer_lit)). vm_compute in K. discriminate K.
  - specialize (K $ "" $ "H" ltac:(now apply longer_lit)). vm_compute in K. discriminate K.
  - specialize (K $ "W" $ "A" ltac:(now apply longer_lit)). vm_compute in K. discriminate K.
  - specialize (K $ "" $ "E" ltac:(now apply longer_lit)). vm_compute in K. discriminate K.
  - specialize (K $ "" $ "A" ltac:(now apply longer_lit)). vm_compute in K. discriminate K.
  - specialize (K $ "E" $ "OUGH" ltac:(now apply longer_lit)). vm_compute in K. discriminate K.
  - specialize (K $ "" $ "E" ltac:(now apply longer_lit)). vm_compute in K. discriminate K.
  - specialize (K $ "" $ "H" ltac:(now apply longer_lit)). vm_compute in K. discriminate K.
  - specialize (K $ "L" $ "" ltac:(now apply longer_lit)). vm_compute in K. discriminate K.
  - specialize (K $ "" $ "IA" ltac:(now apply longer_lit)). vm_compute in K. discriminate K.
  - specialize (K $ "" $ "E" ltac:(now apply longer_lit)). vm_compute in K. discriminate K.
  - specialize (K $ "L" $ "" ltac:(now apply longer_lit)). vm_compute in K. discriminate K.
  - specialize (K $ "" $ "A" ltac:(now apply longer_lit)). vm_compute in K. discriminate K.
Qed.

Example C85_nonvacuous :
  soundex_encode latin1_only soundex_default $ "Lloyd" = soundex_encode latin1_only soundex_default $ "Loyd"
  /\ refined_encode latin1_only ENGLISH_MAPPING $ "Butterfield" = refined_encode latin1_only ENGLISH_MAPPING $ "Buterfield"
  /\ cologne_encode latin1_only $ "Müller" = cologne_encode latin1_only $ "Müler"
  /\ metaphone_encode latin1_only (Some 4%nat) $ "Hoffmann" = metaphone_encode latin1_only (Some 4%nat) $ "Hofman"
  /\ mra_encode latin1_only $ "Reed" = mra_encode latin1_only $ "Red"
  /\ phonex_encode latin1_only 4 $ "Reed" = phonex_encode latin1_only 4 $ "Red"
  /\ dms_soundex latin1_only dms_default $ "Moskowwitz" = dms_soundex latin1_only dms_default $ "Moskowitz"
  /\ cologne_encode latin1_only $ "Dickens" <> cologne_encode latin1_only $ "Diccens".
Proof. repeat (split; [vm_compute; reflexivity|]). vm_compute. discriminate. Qed.
