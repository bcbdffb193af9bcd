(** * C05-C11, C57: Soundex and RefinedSoundex. *)
From Verif Require Import Base UnicodeM Lib Soundex BaseLemmas Spec_common Spec_soundex
  Lib_proofs Soundex_proofs.
Local Open Scope N_scope.

(** C05: format of the default code, whatever the input. *)
Theorem C05_soundex_format : forall u s r, UnicodeOK u ->
  soundex_encode u soundex_default s = Ok r ->
  (r = [] /\ forall c, In c s -> is_alphabetic u c = false)
  \/ (exists a c b f d1 d2 d3,
        s = a ++ c :: b /\ (forall x, In x a -> is_alphabetic u x = false)
        /\ is_alphabetic u c = true /\ hd_error (to_upper u c) = Some f /\ is_ascii_upper f = true
        /\ r = [f; d1; d2; d3]
        /\ forall d, In d [d1; d2; d3] -> # "0" <= d <= # "6").
Proof.
  intros u s r HU H. pose proof H as H0.
  apply encode_ok_prefix in H; [|reflexivity]. destruct H as (p & t & E & Hp & Ht & ->).
  destruct p as [|f q].
  - left. split; [reflexivity|]. rewrite (Ht eq_refl) in E. cbn in E. now apply clean_empty.
  - right.
    assert (Hs : exists a c b, s = a ++ c :: b /\ (forall x, In x a -> is_alphabetic u x = false)
        /\ is_alphabetic u c = true /\ hd_error (to_upper u c) = Some f).
    { clear H0 Ht Hp. revert E. induction s as [|x s IH]; intros E; [discriminate|].
      unfold soundex_clean in E. cbn [filter] in E. destruct (is_alphabetic u x) eqn:Ex.
      - exists [], x, s. repeat split; auto; [intros y []|]. cbn [flat_map] in E.
        pose proof (to_upper_nonempty u x HU). destruct (to_upper u x) as [|y l]; [congruence|].
        injection E as -> _. reflexivity.
      - destruct IH as (a & c & b & -> & Ha & Hc & Hf); [exact E|].
        exists (x :: a), c, b. repeat split; auto. intros y [<-|Hy]; auto. }
    destruct Hs as (a & c & b & Hs & Ha & Hc & Hf).
    cbn [soundex_code].
    set (ds := soundex_digits _ _ f q). pose proof (pad_to_length 3 (# "0") ds) as L.
    assert (HD : forall d, In d (pad_to 3 (# "0") ds) -> 48 <= d <= 54).
    { intros d Hd. rewrite pad_to_alt in Hd. apply in_app_or in Hd as [Hd|Hd].
      - assert (In d ds) by (rewrite <- (firstn_skipn 3 ds); apply in_or_app; auto).
        unfold ds, soundex_digits in H. apply filter_In in H as [H _].
        assert (H' : In d (collapse (table_digit (sx_mapping soundex_default) f ::
           map (table_digit (sx_mapping soundex_default)) (filter
             (fun c => negb (table_transparent (sx_mapping soundex_default)
              (sx_special_case_h_w soundex_default) c)) q)))).
        { destruct (collapse _) as [|z l]; [destruct H|]. now right. }
        apply collapse_incl in H'.
        assert (K : forall x, is_ascii_upper x = true ->
                    48 <= table_digit (sx_mapping soundex_default) x <= 54).
        { intros x Hx. apply is_ascii_upper_cases in Hx. cbn [In] in Hx.
          repeat (destruct Hx as [<-|Hx]; [vm_compute; split; discriminate|]). destruct Hx. }
        destruct H' as [<-|H'].
        + apply K, Hp. now left.
        + apply in_map_iff in H' as (x & <- & Hx). apply filter_In in Hx as [Hx _].
          apply K, Hp. now right.
      - apply repeat_spec in Hd. subst d. lia. }
    destruct (pad_to 3 48 ds) as [|d1 [|d2 [|d3 [|]]]]; try discriminate.
    exists a, c, b, f, d1, d2, d3. do 4 (split; [assumption|]).
    split; [apply Hp; now left|]. split; [reflexivity|exact HD].
Qed.
Example C05_nonvacuous : soundex_encode latin1_only soundex_default $ "O'Hara" = Ok $ "O600".
Proof. reflexivity. Qed.

(** C06: the code is the textbook one. *)
Theorem C06_soundex_is_american_soundex : forall u s,
  letters_are_ascii (is_alphabetic u) s ->
  soundex_encode u soundex_default s = Ok (american_soundex (ascii_letters s)).
Proof. exact encode_american. Qed.
Theorem C06_soundex_custom_table : forall u table special s,
  length table = 26%nat -> letters_are_ascii (is_alphabetic u) s ->
  soundex_encode u (soundex_new table special) s
  = Ok (soundex_code (table_digit table) (table_transparent table special) (ascii_letters s)).
Proof. intros u table special s L H. now apply (encode_table u (soundex_new table special)). Qed.
(** The genealogy table: vowels, H, W and Y are all transparent. *)
Theorem C06_soundex_genealogy : forall u s,
  letters_are_ascii (is_alphabetic u) s ->
  soundex_encode u (soundex_from DEFAULT_US_ENGLISH_GENEALOGY_MAPPING_SOUNDEX) s
  = Ok (soundex_code (fun c => if isin c $ "AEIOUYHW" then # "-" else american_digit c)
          (fun c => isin c $ "AEIOUYHW") (ascii_letters s)).
Proof.
  intros u s H. rewrite encode_table by (auto; reflexivity). f_equal.
  apply soundex_code_ext; [apply ascii_letters_uppers|].
  intros c Hc. apply is_ascii_upper_cases in Hc. cbn [In] in Hc.
  repeat (destruct Hc as [<-|Hc]; [split; reflexivity|]). destruct Hc.
Qed.
(** H and W after the first letter never matter with the default encoder, even in
    the presence of letters outside ASCII. *)
Theorem C06_hw_transparent : forall u a w b,
  (exists c, In c a /\ is_alphabetic u c = true) -> UnicodeOK u ->
  In w $ "HWhw" ->
  soundex_encode u soundex_default (a ++ w :: b) = soundex_encode u soundex_default (a ++ b).
Proof.
  intros u a w b (c & Hc & Ha) HU Hw. unfold soundex_encode.
  assert (E : soundex_clean u (a ++ w :: b) = soundex_clean u a ++ ascii_up w :: soundex_clean u b).
  { rewrite clean_app. f_equal. cbn [In] in Hw.
    destruct Hw as [<-|[<-|[<-|[<-|[]]]]]; reflexivity. }
  rewrite E, clean_app. destruct (soundex_clean u a) as [|f q] eqn:Ea.
  - exfalso. assert (F := proj1 (clean_empty u a HU) Ea c Hc). congruence.
  - cbn [app]. destruct (get_mapping_code _ f); cbn [bind]; try reflexivity.
    rewrite loop_hw; [reflexivity|reflexivity|].
    cbn [In] in Hw. destruct Hw as [<-|[<-|[<-|[<-|[]]]]]; reflexivity.
Qed.
Example C06_nonvacuous :
  letters_are_ascii (is_alphabetic latin1_only) $ "Ashcraft" /\
  american_soundex (ascii_letters $ "Ashcraft") = $ "A261" /\
  soundex_encode latin1_only soundex_default $ "Tymczak" = Ok $ "T522".
Proof.
  split; [|split; reflexivity]. apply ascii_str_letters. apply ascii_strb. reflexivity.
Qed.

(** C07: where encode returns.  [letters] is the cleaned text: the uppercase
    expansions of the alphabetic characters of the input. *)
Theorem C07_total_on_ascii_letters : forall u sx s,
  length (sx_mapping sx) = 26%nat -> letters_are_ascii (is_alphabetic u) s ->
  exists r, soundex_encode u sx s = Ok r.
Proof. intros u sx s L H. rewrite encode_table by auto. eauto. Qed.
(** Exactly when encode panics: the first cleaned character outside A-Z comes
    before three digits have been produced. *)
Theorem C07_panics_iff : forall u sx s p c r,
  length (sx_mapping sx) = 26%nat ->
  flat_map (to_upper u) (filter (is_alphabetic u) s) = p ++ c :: r ->
  (forall x, In x p -> is_ascii_upper x = true) -> is_ascii_upper c = false ->
  (soundex_encode u sx s = Panic <->
   match p with
   | [] => True
   | f :: q => (length (soundex_digits (table_digit (sx_mapping sx))
                 (table_transparent (sx_mapping sx) (sx_special_case_h_w sx)) f q) < 3)%nat
   end).
Proof.
  intros u sx s p c r L E Hp Hc. destruct (not_upper_not_hw c Hc).
  rewrite (encode_foreign u sx s p c r) by auto. destruct p as [|f q]; [tauto|].
  destruct (Nat.leb 3 _) eqn:E3.
  - apply Nat.leb_le in E3. split; [discriminate|lia].
  - apply Nat.leb_gt in E3. tauto.
Qed.
Theorem C07_total_refuted :
  ~ (forall u s, UnicodeOK u -> exists r, soundex_encode u soundex_default s = Ok r).
Proof.
  intros H. destruct (H latin1_only $ "é" latin1_only_ok) as [r Hr]. discriminate.
Qed.
(** A letter outside ASCII in first position always panics. *)
Theorem C07_foreign_initial_panics : forall u sx a c b f t,
  length (sx_mapping sx) = 26%nat ->
  (forall x, In x a -> is_alphabetic u x = false) ->
  is_alphabetic u c = true -> to_upper u c = f :: t -> is_ascii_upper f = false ->
  soundex_encode u sx (a ++ c :: b) = Panic.
Proof.
  intros u sx a c b f t L Ha Hc Hf Hn.
  assert (E : filter (is_alphabetic u) a = []).
  { induction a as [|x a IH]; [reflexivity|]. cbn. rewrite Ha by (now left).
    apply IH. intros y Hy. apply Ha. now right. }
  assert (E' : flat_map (to_upper u) (filter (is_alphabetic u) (a ++ c :: b))
               = [] ++ f :: (t ++ soundex_clean u b)).
  { rewrite filter_app, E. cbn [app filter]. rewrite Hc. cbn [flat_map]. rewrite Hf. reflexivity. }
  apply (C07_panics_iff u sx _ [] f _ L E'); [intros x []|assumption|exact I].
Qed.
Example C07_nonvacuous :
  soundex_encode latin1_only soundex_default $ "Bourgogné" = Ok $ "B622"
  /\ soundex_encode latin1_only soundex_default $ "Bé" = Panic.
Proof. split; reflexivity. Qed.

(** C08: case and non-letters are ignored. *)
Theorem C08_soundex_ignores_case_and_nonletters : forall u sx s t,
  map ascii_up (filter (is_alphabetic u) s) = map ascii_up (filter (is_alphabetic u) t) ->
  soundex_encode u sx s = soundex_encode u sx t.
Proof. intros u sx s t H. unfold soundex_encode. now rewrite (clean_case u s t H). Qed.
Theorem C08_refined_ignores_case_and_nonletters : forall u m s t,
  map ascii_up (filter (is_alphabetic u) s) = map ascii_up (filter (is_alphabetic u) t) ->
  refined_encode u m s = refined_encode u m t.
Proof. intros u m s t H. unfold refined_encode. now rewrite (clean_case u s t H). Qed.
Theorem C08_insert_nonletter : forall u sx m a c b,
  is_alphabetic u c = false ->
  soundex_encode u sx (a ++ c :: b) = soundex_encode u sx (a ++ b)
  /\ refined_encode u m (a ++ c :: b) = refined_encode u m (a ++ b).
Proof.
  intros u sx m a c b H.
  assert (E : map ascii_up (filter (is_alphabetic u) (a ++ c :: b))
              = map ascii_up (filter (is_alphabetic u) (a ++ b))).
  { rewrite !filter_app. cbn [filter]. now rewrite H. }
  split; [now apply C08_soundex_ignores_case_and_nonletters
         | now apply C08_refined_ignores_case_and_nonletters].
Qed.
Example C08_nonvacuous :
  map ascii_up (filter (is_alphabetic latin1_only) $ "o'h-ARA") =
  map ascii_up (filter (is_alphabetic latin1_only) $ "OHara").
Proof. reflexivity. Qed.

(** C09: construction. *)
Theorem C09_try_from_ok_iff : forall s sx,
  soundex_try_from s = inl sx <->
  length s = 26%nat /\ sx_mapping sx = s /\ (sx_special_case_h_w sx = true <-> ~ In (# "-") s).
Proof.
  intros s sx. unfold soundex_try_from, try_into_26. destruct (Nat.eqb (length s) 26) eqn:E.
  - apply Nat.eqb_eq in E. unfold soundex_from, has_silent_in_mapping, SILENT. split.
    + intros H. injection H as <-. cbn. repeat split; auto.
      * intros H. apply negb_true_iff in H. now apply isin_false.
      * intros H. apply negb_true_iff. now apply isin_false.
    + intros (_ & Hm & Hs). destruct sx as [m b]. cbn in *. subst m. f_equal. f_equal.
      destruct (isin 45 s) eqn:Ei; cbn.
      * apply isin_In in Ei. destruct b; [|reflexivity]. exfalso. now apply (proj1 Hs).
      * symmetry. apply Hs. now apply isin_false.
  - apply Nat.eqb_neq in E. split; [discriminate|]. tauto.
Qed.
Theorem C09_try_from_err_iff : forall s e,
  soundex_try_from s = inr e <-> length s <> 26%nat /\ e = s.
Proof.
  intros s e. unfold soundex_try_from, try_into_26. destruct (Nat.eqb (length s) 26) eqn:E.
  - apply Nat.eqb_eq in E. split; [discriminate|]. tauto.
  - apply Nat.eqb_neq in E. split; [intros H; injection H as <-; auto | intros [_ ->]; auto].
Qed.
Theorem C09_refined_try_from : forall s,
  (length s = 26%nat -> refined_try_from s = inl s)
  /\ (length s <> 26%nat -> refined_try_from s = inr s).
Proof.
  intros s. unfold refined_try_from, try_into_26. split; intros H.
  - rewrite H. reflexivity.
  - apply Nat.eqb_neq in H. now rewrite H.
Qed.
(** The documented constants build encoders accepted by the theorems above. *)
Theorem C09_default_tables :
  soundex_try_from DEFAULT_US_ENGLISH_MAPPING_SOUNDEX = inl soundex_default
  /\ exists sx, soundex_try_from DEFAULT_US_ENGLISH_GENEALOGY_MAPPING_SOUNDEX = inl sx
                /\ sx_special_case_h_w sx = false.
Proof. split; [reflexivity|]. eexists. split; reflexivity. Qed.

(** C10: RefinedSoundex. *)
Theorem C10_refined_is_its_definition : forall u s,
  letters_are_ascii (is_alphabetic u) s ->
  refined_encode u ENGLISH_MAPPING s = Ok (refined_code refined_digit (ascii_letters s)).
Proof. exact refined_english. Qed.
Theorem C10_refined_custom_table : forall u table s,
  length table = 26%nat -> letters_are_ascii (is_alphabetic u) s ->
  refined_encode u table s = Ok (refined_code (table_digit table) (ascii_letters s)).
Proof.
  intros u table s L H. rewrite refined_letters; [now rewrite clean_ascii|assumption|].
  rewrite clean_ascii by assumption. apply ascii_letters_uppers.
Qed.
Theorem C10_refined_format : forall u table s r,
  length table = 26%nat -> letters_are_ascii (is_alphabetic u) s ->
  refined_encode u table s = Ok r ->
  (r = [] <-> ascii_letters s = []) /\ no_adjacent_equal (tl r)
  /\ (length r <= 1 + length (ascii_letters s))%nat
  /\ (forall d, In d (tl r) -> In d table).
Proof.
  intros u table s r L H E. rewrite (C10_refined_custom_table u table s L H) in E.
  injection E as <-. unfold refined_code. pose proof (ascii_letters_uppers s) as HU.
  destruct (ascii_letters s) as [|f q] eqn:El.
  - repeat split; auto; intros d [].
  - cbn [tl]. split; [split; discriminate|]. split; [apply collapse_nae|]. split.
    + pose proof (collapse_length (map (table_digit table) (f :: q))). rewrite map_length in H0.
      cbn [length] in *. lia.
    + intros d Hd. apply collapse_incl in Hd. apply in_map_iff in Hd as (x & <- & Hx).
      unfold table_digit. apply nth_In. apply HU, is_ascii_upper_lt in Hx. lia.
Qed.
Example C10_nonvacuous :
  refined_encode latin1_only ENGLISH_MAPPING $ "testing" = Ok $ "T6036084".
Proof. reflexivity. Qed.

(** C11: RefinedSoundex panics exactly when the cleaned text leaves A-Z. *)
Theorem C11_refined_panics_iff : forall u table s, length table = 26%nat ->
  (refined_encode u table s = Panic <->
   exists c, In c (flat_map (to_upper u) (filter (is_alphabetic u) s)) /\ is_ascii_upper c = false).
Proof. exact refined_panics_iff. Qed.
Theorem C11_refined_total_on_ascii_letters : forall u table s,
  length table = 26%nat -> letters_are_ascii (is_alphabetic u) s ->
  exists r, refined_encode u table s = Ok r.
Proof. intros. rewrite C10_refined_custom_table by auto. eauto. Qed.
Theorem C11_refined_total_refuted :
  ~ (forall u s, UnicodeOK u -> exists r, refined_encode u ENGLISH_MAPPING s = Ok r).
Proof.
  intros H. destruct (H latin1_only $ "jumpeé" latin1_only_ok) as [r Hr]. discriminate.
Qed.

(** C57: text after the code is full does not matter (Soundex); a longer name
    only extends the Refined Soundex code. *)
Theorem C57_soundex_suffix_irrelevant : forall u a b f q,
  letters_are_ascii (is_alphabetic u) a -> ascii_letters a = f :: q ->
  (3 <= length (soundex_digits american_digit american_transparent f q))%nat ->
  soundex_encode u soundex_default (a ++ b) = soundex_encode u soundex_default a.
Proof.
  intros u a b f q H E L3. rewrite (encode_american u a H), E.
  pose proof (ascii_letters_uppers a) as HU. rewrite E in HU.
  assert (Hf : is_ascii_upper f = true) by (apply HU; now left).
  assert (Hq : uppers q) by (intros x Hx; apply HU; now right).
  unfold soundex_encode. rewrite clean_app, (clean_ascii u a H), E. cbn [app].
  rewrite get_mapping_upper by auto. cbn [bind].
  assert (Ed : emit soundex_default (table_digit (sx_mapping soundex_default) f) q
               = soundex_digits american_digit american_transparent f q).
  { unfold emit, soundex_digits. do 3 f_equal.
    - destruct (american_table f Hf) as [E1 _]. cbn [sx_mapping soundex_default]. rewrite E1.
      f_equal. clear E L3 HU Hf. induction q as [|x q IH]; [reflexivity|].
      destruct (american_table x) as [H1 H2]; [apply Hq; now left|].
      cbn [filter]. cbn [sx_mapping sx_special_case_h_w soundex_default] in *. rewrite H2.
      destruct (american_transparent x); cbn [negb].
      + apply IH. intros y Hy. apply Hq. now right.
      + cbn [map]. rewrite H1. f_equal. apply IH. intros y Hy. apply Hq. now right. }
  rewrite loop_app by (auto; lia). rewrite Ed.
  replace (Nat.leb 4 (1 + _)) with true by (symmetry; apply Nat.leb_le; lia).
  cbn [bind]. unfold american_soundex, soundex_code. rewrite pad_to_alt, (app_nil_r (rev _)), rev_involutive.
  replace (3 - length _)%nat with 0%nat by lia. reflexivity.
Qed.
Theorem C57_refined_prefix : forall u table a b ra rab,
  length table = 26%nat -> letters_are_ascii (is_alphabetic u) (a ++ b) ->
  refined_encode u table a = Ok ra -> refined_encode u table (a ++ b) = Ok rab ->
  exists t, rab = ra ++ t.
Proof.
  intros u table a b ra rab L H Ha Hab.
  assert (Hla : letters_are_ascii (is_alphabetic u) a)
    by (intros c Hc; apply H, in_or_app; now left).
  rewrite C10_refined_custom_table in Ha, Hab by auto. injection Ha as <-. injection Hab as <-.
  assert (E : ascii_letters (a ++ b) = ascii_letters a ++ ascii_letters b).
  { unfold ascii_letters. now rewrite filter_app, map_app. }
  rewrite E. unfold refined_code. destruct (ascii_letters a) as [|f q]; [now eexists|].
  cbn [app]. rewrite app_comm_cons, map_app.
  assert (P : forall l m, exists t, collapse (l ++ m) = collapse l ++ t).
  { induction l as [|x l IH]; intros m; [now exists (collapse m)|].
    destruct (IH m) as [t Ht]. destruct l as [|y l].
    - cbn [app]. rewrite collapse_cons. now exists (tl (collapse (x :: m))).
    - change (collapse ((x :: y :: l) ++ m))
        with (if x =? y then collapse ((y :: l) ++ m) else x :: collapse ((y :: l) ++ m)).
      change (collapse (x :: y :: l)) with (if x =? y then collapse (y :: l) else x :: collapse (y :: l)).
      rewrite Ht. exists t. destruct (x =? y); reflexivity. }
  destruct (P (map (table_digit table) (f :: q)) (map (table_digit table) (ascii_letters b))) as [t ->].
  now exists t.
Qed.
Example C57_nonvacuous :
  ascii_letters $ "Robert" = $ "ROBERT" /\
  soundex_digits american_digit american_transparent (# "R") $ "OBERT" = $ "163" /\
  soundex_encode latin1_only soundex_default $ "Robert Müller" = Ok $ "R163".
Proof. repeat split; reflexivity. Qed.

(** C02 for Soundex: the difference is at most 4, and 4 exactly for equal codes. *)
Theorem C02_soundex_difference : forall u a b n, UnicodeOK u ->
  difference (soundex_encode u soundex_default) a b = Ok n ->
  (n <= 4)%nat /\
  (n = 4%nat <-> exists c, soundex_encode u soundex_default a = Ok c /\
                           soundex_encode u soundex_default b = Ok c /\ c <> []).
Proof.
  intros u a b n HU H. apply difference_spec in H as (ca & cb & Ha & Hb & ->).
  assert (La : ca = [] \/ length ca = 4%nat).
  { destruct (C05_soundex_format u a ca HU Ha) as [[-> _]|(? & ? & ? & ? & ? & ? & ? & _ & _ & _ & _ & _ & -> & _)];
      auto. }
  assert (Lb : cb = [] \/ length cb = 4%nat).
  { destruct (C05_soundex_format u b cb HU Hb) as [[-> _]|(? & ? & ? & ? & ? & ? & ? & _ & _ & _ & _ & _ & -> & _)];
      auto. }
  pose proof (agreeing_le_l ca cb) as L.
  destruct La as [->|La].
  { cbn in *. split; [lia|]. split; [lia|]. intros (c & E & _ & N). congruence. }
  rewrite La in L. split; [assumption|].
  destruct Lb as [->|Lb].
  { rewrite agreeing_nil_r. split; [lia|]. intros (c & _ & E & N). congruence. }
  rewrite <- La. rewrite agreeing_full by congruence. split.
  - intros ->. exists cb. repeat split; auto. intros ->. discriminate.
  - intros (c & E1 & E2 & _). congruence.
Qed.
Example C09_nonvacuous :
  (exists sx, soundex_try_from $ "0123012#02245501262301#202" = inl sx /\ sx_special_case_h_w sx = true)
  /\ soundex_try_from $ "0123" = inr $ "0123".
Proof. split; [|reflexivity]. eexists. split; reflexivity. Qed.
Example C11_nonvacuous :
  refined_encode latin1_only ENGLISH_MAPPING $ "Müller" = Panic
  /\ refined_encode latin1_only ENGLISH_MAPPING $ "Mueller" = Ok $ "M80709".
Proof. split; vm_compute; reflexivity. Qed.

(** C06, C07, C10, C11 in one: the outcome on every text, with every table. *)
Definition opt_res (o : option ustr) : res ustr :=
  match o with Some r => Ok r | None => Panic end.

Lemma leading_uppers : forall l, uppers l -> leading_AZ l = l.
Proof.
  induction l as [|c l IH]; intros H; [reflexivity|]. cbn [leading_AZ].
  fold (is_ascii_upper c). rewrite (H c) by now left. f_equal. apply IH. intros x Hx. apply H. now right.
Qed.
Lemma leading_split : forall p c r, uppers p -> is_ascii_upper c = false ->
  leading_AZ (p ++ c :: r) = p.
Proof.
  induction p as [|x p IH]; intros c r H Hc; cbn [app leading_AZ].
  - fold (is_ascii_upper c). now rewrite Hc.
  - fold (is_ascii_upper x). rewrite (H x) by now left. f_equal. apply IH; auto. intros y Hy. apply H. now right.
Qed.

Theorem C06_soundex_every_text : forall u table special s, length table = 26%nat ->
  soundex_encode u (soundex_new table special) s
  = opt_res (soundex_outcome (table_digit table) (table_transparent table special)
               (upper_letters (is_alphabetic u) (to_upper u) s)).
Proof.
  intros u table special s L. set (sx := soundex_new table special).
  change (upper_letters (is_alphabetic u) (to_upper u) s) with (soundex_clean u s).
  unfold soundex_outcome.
  destruct (upper_split (soundex_clean u s)) as [HU|(p & c & r & E & Hp & Hc)].
  - rewrite leading_uppers by auto. rewrite Nat.eqb_refl. cbn [opt_res].
    destruct (soundex_clean u s) as [|f q] eqn:E.
    + unfold soundex_encode. rewrite E. reflexivity.
    + apply (encode_letters sx L u s f q E); [apply HU; now left|intros x Hx; apply HU; now right].
  - destruct (not_upper_not_hw c Hc) as [H1 H2].
    rewrite (encode_foreign u sx s p c r L E Hp Hc H1 H2). rewrite E, leading_split by auto.
    replace (Nat.eqb (length p) (length (p ++ c :: r))) with false
      by (symmetry; apply Nat.eqb_neq; rewrite app_length; cbn; lia).
    destruct p as [|f q]; [reflexivity|]. cbn [sx sx_mapping sx_special_case_h_w soundex_new].
    destruct (Nat.leb 3 _); reflexivity.
Qed.
Theorem C06_default_every_text : forall u s,
  soundex_encode u soundex_default s
  = opt_res (soundex_outcome american_digit american_transparent
               (upper_letters (is_alphabetic u) (to_upper u) s)).
Proof.
  intros u s. change soundex_default with (soundex_new DEFAULT_US_ENGLISH_MAPPING_SOUNDEX true).
  rewrite C06_soundex_every_text by reflexivity. f_equal.
  generalize (upper_letters (is_alphabetic u) (to_upper u) s). intros w. unfold soundex_outcome.
  destruct (upper_split w) as [HU|(p & c & r & -> & Hp & Hc)].
  - rewrite leading_uppers by auto. rewrite Nat.eqb_refl. f_equal.
    apply soundex_code_ext; [assumption|]. intros c Hc. now apply american_table.
  - rewrite leading_split by auto.
    replace (Nat.eqb (length p) (length (p ++ c :: r))) with false
      by (symmetry; apply Nat.eqb_neq; rewrite app_length; cbn; lia).
    destruct p as [|f q]; [reflexivity|].
    pose proof (soundex_code_ext (table_digit DEFAULT_US_ENGLISH_MAPPING_SOUNDEX) american_digit
      (table_transparent DEFAULT_US_ENGLISH_MAPPING_SOUNDEX true) american_transparent (f :: q) Hp american_table) as E.
    rewrite E.
    assert (Hd : soundex_digits (table_digit DEFAULT_US_ENGLISH_MAPPING_SOUNDEX)
              (table_transparent DEFAULT_US_ENGLISH_MAPPING_SOUNDEX true) f q
            = soundex_digits american_digit american_transparent f q); [|now rewrite Hd].
    apply soundex_digits_ext; [apply Hp; now left|intros x Hx; apply Hp; now right|apply american_table].
Qed.
Theorem C10_refined_every_text : forall u table s, length table = 26%nat ->
  refined_encode u table s
  = opt_res (refined_outcome (table_digit table) (upper_letters (is_alphabetic u) (to_upper u) s)).
Proof.
  intros u table s L. change (upper_letters (is_alphabetic u) (to_upper u) s) with (soundex_clean u s).
  unfold refined_outcome.
  destruct (upper_split (soundex_clean u s)) as [HU|(p & c & r & E & Hp & Hc)].
  - rewrite leading_uppers by auto. rewrite Nat.eqb_refl. now apply refined_letters.
  - rewrite E, leading_split by auto.
    replace (Nat.eqb (length p) (length (p ++ c :: r))) with false
      by (symmetry; apply Nat.eqb_neq; rewrite app_length; cbn; lia).
    cbn [opt_res]. apply refined_panics_iff; [assumption|]. exists c. split; [|assumption].
    rewrite E. apply in_or_app. right. now left.
Qed.
(** "Groß" has the letters GROSS; in "Roberté" three digits are known before the last letter. *)
Example C06_every_nonvacuous :
  upper_letters (is_alphabetic latin1_only) (to_upper latin1_only) [# "G"; # "r"; # "o"; 223]
    = $ "GROSS"
  /\ soundex_encode latin1_only soundex_default [# "G"; # "r"; # "o"; 223] = Ok $ "G620"
  /\ soundex_encode latin1_only soundex_default ($ "Robert" ++ [233]) = Ok $ "R163"
  /\ soundex_encode latin1_only soundex_default ($ "Ren" ++ [233]) = Panic
  /\ refined_encode latin1_only ENGLISH_MAPPING [# "G"; # "r"; # "o"; 223] = Ok $ "G4903".
Proof. repeat split; vm_compute; reflexivity. Qed.
