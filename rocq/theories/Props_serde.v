(** * Property C79: the serialised forms of the public types. *)
From Coq Require Import Permutation.
From Verif Require Import Base BaseLemmas UnicodeM UnicodeReal Lib Helper Soundex BmLanguages Api Serde Spec_serde Serde_proofs Spec_bm Bm_set_proofs.
Local Open Scope N_scope.

(** ** What is read *)
Theorem C79_soundex_reads : forall j s, de_soundex j = Some s <->
  exists m h, gives j [$ "mapping"; $ "special_case_h_w"] [Some m; Some (JBool h)]
    /\ is_mapping m (sx_mapping s) /\ h = sx_special_case_h_w s.
Proof.
  intros j s. unfold de_soundex. rewrite struct2_spec. split.
  - intros (v & w & a & b & G & R & R' & ->). apply de_mapping_spec in R as (m & -> & M). apply de_bool_spec in R'. subst w. exists m, b. auto.
  - intros (m & h & G & M & ->). destruct s as [map h]. cbn [sx_mapping sx_special_case_h_w] in *. exists (Some m), (Some (JBool h)), map, h.
    split; [exact G|]. split; [apply de_mapping_spec; eauto|]. split; [now apply de_bool_spec|reflexivity].
Qed.
Theorem C79_refined_reads : forall j m, de_refined j = Some m <-> exists v, gives j [$ "mapping"] [Some v] /\ is_mapping v m.
Proof.
  intros j m. unfold de_refined. rewrite struct1_spec. split.
  - intros (v & a & G & R & ->). apply de_mapping_spec in R as (w & -> & M). eauto.
  - intros (v & G & M). exists (Some v), m. split; [exact G|]. split; [apply de_mapping_spec; eauto|reflexivity].
Qed.
Theorem C79_nysiis_reads : forall j e, de_nysiis j = Some e <-> gives j [$ "strict"] [Some (JBool (ny_strict e))].
Proof.
  intros j e. unfold de_nysiis. rewrite struct1_spec. split.
  - intros (v & a & G & R & ->). apply de_bool_spec in R. now subst v.
  - intros G. exists (Some (JBool (ny_strict e))), (ny_strict e). split; [exact G|]. split; [reflexivity|]. now destruct e.
Qed.
Theorem C79_phonex_reads : forall j e, de_phonex j = Some e <->
  exists v, gives j [$ "max_code_length"] [Some v] /\ is_size v (px_max_code_length e).
Proof.
  intros j e. unfold de_phonex. rewrite struct1_spec. split.
  - intros (v & a & G & R & ->). apply de_usize_spec in R as (w & -> & M). eauto.
  - intros (v & G & M). exists (Some v), (px_max_code_length e). split; [exact G|]. split; [apply de_usize_spec; eauto|]. now destruct e.
Qed.
Lemma size_not_null : forall n, ~ is_size JNull n.
Proof. intros n [H _]. discriminate. Qed.
Lemma text_not_null : forall s, ~ is_text JNull s.
Proof. intros s H. discriminate. Qed.
Theorem C79_metaphone_reads : forall j e, de_metaphone j = Some e <->
  exists v, gives j [$ "max_code_length"] [v] /\ is_optional is_size v (mt_max_code_length e).
Proof.
  intros j e. unfold de_metaphone. rewrite struct1_spec. split.
  - intros (v & a & G & R & ->). apply (de_option_spec _ _ is_size de_usize_some size_not_null) in R. eauto.
  - intros (v & G & M). exists v, (mt_max_code_length e). split; [exact G|].
    split; [now apply (de_option_spec _ _ is_size de_usize_some size_not_null)|]. now destruct e.
Qed.
Theorem C79_double_metaphone_reads : forall j e, de_dmetaphone j = Some e <->
  exists v, gives j [$ "max_code_length"] [v] /\ is_optional is_size v (dm_max_code_length e).
Proof.
  intros j e. unfold de_dmetaphone. rewrite struct1_spec. split.
  - intros (v & a & G & R & ->). apply (de_option_spec _ _ is_size de_usize_some size_not_null) in R. eauto.
  - intros (v & G & M). exists v, (dm_max_code_length e). split; [exact G|].
    split; [now apply (de_option_spec _ _ is_size de_usize_some size_not_null)|]. now destruct e.
Qed.
Theorem C79_double_metaphone_result_reads : forall j r, de_dmresult j = Some r <->
  exists v, gives j [$ "primary"; $ "alternate"; $ "max_length"] [Some (JStr (dmr_primary r)); Some (JStr (dmr_alternate r)); v]
    /\ is_optional is_size v (dmr_max_length r).
Proof.
  intros j r. unfold de_dmresult. rewrite struct3_spec. split.
  - intros (v & w & z & a & b & c & G & R & R' & R'' & ->). apply (de_option_spec _ _ is_size de_usize_some size_not_null) in R''.
    apply de_string_spec in R. apply de_string_spec in R'. subst v w. exists z. split; assumption.
  - intros (v & G & M). exists (Some (JStr (dmr_primary r))), (Some (JStr (dmr_alternate r))), v, (dmr_primary r), (dmr_alternate r), (dmr_max_length r).
    split; [exact G|]. split; [reflexivity|]. split; [reflexivity|]. split; [now apply (de_option_spec _ _ is_size de_usize_some size_not_null)|]. now destruct r.
Qed.
Theorem C79_parse_error_reads : forall j e, de_parse_error j = Some e <->
  exists n f, gives j [$ "line_number"; $ "filename"; $ "line_content"; $ "description"]
                      [Some n; f; Some (JStr (pe_line_content e)); Some (JStr (pe_description e))]
    /\ is_size n (pe_line_number e) /\ is_optional is_text f (pe_filename e).
Proof.
  intros j e. unfold de_parse_error. rewrite struct4_spec. split.
  - intros (v & w & z & t & a & b & c & d & G & R & R' & R'' & R3 & ->). apply (de_option_spec _ _ is_text de_string_some text_not_null) in R'.
    apply de_usize_spec in R as (n & -> & M). apply de_string_spec in R''. apply de_string_spec in R3. subst z t. exists n, w. split; [exact G|]. split; assumption.
  - intros (n & f & G & M & O). exists (Some n), f, (Some (JStr (pe_line_content e))), (Some (JStr (pe_description e))).
    exists (pe_line_number e), (pe_filename e), (pe_line_content e), (pe_description e).
    split; [exact G|]. split; [apply de_usize_spec; eauto|]. split; [now apply (de_option_spec _ _ is_text de_string_some text_not_null)|].
    split; [reflexivity|]. split; [reflexivity|]. now destruct e.
Qed.
Theorem C79_char_sequence_reads : forall j c, de_char_sequence j = Some c <->
  gives j [$ "inner"; $ "len_in_char"] [Some (JStr (cs_inner c)); Some (JNum (cs_len c))] /\ cs_len c < 2 ^ 64.
Proof.
  assert (K : forall v n, rd de_usize_N None v = Some n <-> v = Some (JNum n) /\ n < 2 ^ 64).
  { intros v n. rewrite <- usize_bound_eq. destruct v as [[| |m| | | |]|]; cbn [rd de_usize_N]; try (split; [discriminate|intros [H _]; discriminate]).
    destruct (m <? usize_bound) eqn:E; [apply N.ltb_lt in E|apply N.ltb_ge in E].
    - split; [intros H; injection H as <-; now split|]. intros [H _]. now injection H as ->.
    - split; [discriminate|]. intros [H L]. injection H as ->. now apply N.lt_nge in L. }
  intros j c. unfold de_char_sequence. rewrite struct2_spec. split.
  - intros (v & w & a & b & G & R & R' & ->). apply de_string_spec in R. apply K in R' as [-> L]. subst v. split; assumption.
  - intros (G & L). exists (Some (JStr (cs_inner c))), (Some (JNum (cs_len c))), (cs_inner c), (cs_len c). split; [exact G|]. split; [reflexivity|].
    split; [now apply K|]. now destruct c.
Qed.
(** The encoders without settings: Caverphone1, Caverphone2, Cologne, MatchRatingApproach. *)
Theorem C79_unit_reads : forall j, de_unit j = Some tt <-> j = JNull.
Proof. intros []; cbn; split; congruence. Qed.
(** Name types have the same names as in their texts; a name is read as by [FromStr]. *)
Theorem C79_name_type_reads : forall j n, de_name_type j = Some n <-> names_variant j (nt_display n).
Proof.
  intros j n. unfold de_name_type. rewrite variant_spec.
  - split.
    + intros (name & I & V). destruct I as [I|[I|[I|[]]]]; injection I as <- <-; exact V.
    + intros V. exists (nt_display n). split; [|exact V]. destruct n; cbn; auto.
  - cbn. repeat constructor; cbn; intuition discriminate.
Qed.
Theorem C79_name_type_from_str : forall s n, de_name_type (JStr s) = Some n <-> nt_from_str s = ROk n.
Proof.
  intros s n. rewrite C79_name_type_reads. unfold names_variant, nt_from_str. split.
  - intros [H|H]; [|discriminate]. injection H as ->. now destruct n.
  - destruct (seq_eqb s $ "ash") eqn:A; [|destruct (seq_eqb s $ "gen") eqn:B; [|destruct (seq_eqb s $ "sep") eqn:C; [|discriminate]]]; intros H; injection H as <-;
    match goal with E : seq_eqb s _ = true |- _ => apply seq_eqb_eq in E; subst s end; now left.
Qed.
Theorem C79_rule_type_reads : forall j r, de_rule_type j = Some r <->
  names_variant j (match r with RtApprox => $ "Approx" | RtExact => $ "Exact" end).
Proof.
  intros j r. unfold de_rule_type. rewrite variant_spec.
  - split.
    + intros (name & I & V). destruct I as [I|[I|[]]]; injection I as <- <-; exact V.
    + intros V. eexists. split; [|exact V]. destruct r; cbn; auto.
  - cbn. repeat constructor; cbn; intuition discriminate.
Qed.
(** A set of languages: the list may repeat names and have any order. *)
Theorem C79_language_set_reads : forall j s, de_language_set j = Some s <->
  match s with
  | LAny => names_variant j $ "Any"
  | NoLanguages => names_variant j $ "NoLanguages"
  | SomeLanguages l => exists given, j = JObj [($ "SomeLanguages", JArr (map JStr given))]
                         /\ increasing l /\ forall x, In x l <-> In x given
  end.
Proof.
  intros j s. unfold de_language_set.
  assert (ND : NoDup (map fst [($ "Any", LAny); ($ "NoLanguages", NoLanguages)])) by (cbn; repeat constructor; cbn; intuition discriminate).
  assert (V : forall x, de_unit_variant [($ "Any", LAny); ($ "NoLanguages", NoLanguages)] j = Some x <->
    match x with LAny => names_variant j $ "Any" | NoLanguages => names_variant j $ "NoLanguages" | _ => False end).
  { intros x. rewrite (variant_spec _ _ _ _ ND). split.
    - intros (name & [I|[I|[]]] & W); injection I as <- <-; exact W.
    - destruct x; intros W; [eexists; split; [now left|exact W]|eexists; split; [right; now left|exact W]|destruct W]. }
  destruct (de_unit_variant [($ "Any", LAny); ($ "NoLanguages", NoLanguages)] j) as [x|] eqn:E.
  - pose proof (proj1 (V x) eq_refl) as W. split.
    + intros H. injection H as <-. destruct x; [exact W|exact W|destruct W].
    + intros H. destruct s as [| |l].
      * apply (V LAny) in H. now rewrite H.
      * apply (V NoLanguages) in H. now rewrite H.
      * destruct H as (given & -> & _). destruct x; [| |destruct W]; destruct W as [W|W]; discriminate.
  - split.
    + intros H. destruct j as [| | | | | |[|[k v] [|z l]]]; try discriminate. destruct (seq_eqb k $ "SomeLanguages") eqn:K; [|discriminate].
      apply seq_eqb_eq in K. subst k. destruct v as [| | | | |l|]; try discriminate. cbn [de_set] in H.
      destruct (de_all de_string l) as [xs|] eqn:D; [|discriminate]. injection H as <-. apply (de_all_spec _ _ JStr de_string_some) in D. subst l.
      exists xs. split; [reflexivity|]. split; [apply sset_of_list_increasing|apply sset_of_list_In].
    + destruct s as [| |l].
      * intros H. apply (V LAny) in H. discriminate.
      * intros H. apply (V NoLanguages) in H. discriminate.
      * intros (given & -> & I & M). rewrite seq_eqb_refl. cbn [de_set]. rewrite (proj2 (de_all_spec _ _ JStr de_string_some (map JStr given) given) eq_refl).
        do 2 f_equal. apply increasing_ext; [apply sset_of_list_increasing|assumption|]. intros x. now rewrite sset_of_list_In, M.
Qed.

(** ** What is written is read back *)
Ltac objects := left; eexists; split; [reflexivity|]; repeat (apply Forall2_cons; [|]); try apply Forall2_nil.
Lemma first_member : forall name v l, ~ In name (map fst l) -> one_member ((name, v) :: l) name v.
Proof. intros name v l H. exists [], l. split; [reflexivity|]. split; [intros []|exact H]. Qed.
Lemma next_member : forall k w name v l, k <> name -> one_member l name v -> one_member ((k, w) :: l) name v.
Proof.
  intros k w name v l NE (a & b & -> & A & B). exists ((k, w) :: a), b. split; [reflexivity|]. split; [|assumption]. cbn [map fst In]. intuition.
Qed.
Lemma distinct_members : forall names vals, NoDup names -> length vals = length names ->
  gives (JObj (combine names vals)) names (map Some vals).
Proof.
  intros names vals ND L. left. eexists. split; [reflexivity|]. revert vals L ND. induction names as [|n names IH]; intros [|v vals] L ND; try discriminate.
  - constructor.
  - inversion ND as [|? ? N1 N2]; subst. cbn [combine map]. constructor.
    + apply first_member. intros I. apply in_map_iff in I as ((k & x) & E & I). cbn [fst] in E. subst k. apply in_combine_l in I. contradiction.
    + injection L as L. specialize (IH vals L N2). clear - IH N1. remember (combine names vals) as l. clear Heql.
      revert IH. generalize (map Some vals). intros w F. induction F as [|m x names w S F IHF]; [constructor|]. constructor; [|apply IHF; intros I; apply N1; now right].
      destruct x as [x|]; [|intros [I|I]; [apply N1; left; now symmetry|now apply S]].
      apply next_member; [|exact S]. intros ->. apply N1. now left.
Qed.
Ltac keys := repeat constructor; cbn; intuition discriminate.
Theorem C79_soundex_round_trip : forall s, length (sx_mapping s) = 26%nat -> de_soundex (ser_soundex s) = Some s.
Proof.
  intros s L. apply C79_soundex_reads. eexists _, _. split; [|split; [split; [exact L|reflexivity]|reflexivity]].
  apply (distinct_members [$ "mapping"; $ "special_case_h_w"] [ser_mapping (sx_mapping s); JBool (sx_special_case_h_w s)]); [keys|reflexivity].
Qed.
Theorem C79_refined_round_trip : forall m, length m = 26%nat -> de_refined (ser_refined m) = Some m.
Proof.
  intros m L. apply C79_refined_reads. eexists. split; [|split; [exact L|reflexivity]].
  apply (distinct_members [$ "mapping"] [ser_mapping m]); [keys|reflexivity].
Qed.
Theorem C79_nysiis_round_trip : forall e, de_nysiis (ser_nysiis e) = Some e.
Proof.
  intros e. apply C79_nysiis_reads. apply (distinct_members [$ "strict"] [JBool (ny_strict e)]); [keys|reflexivity].
Qed.
(** Lengths are machine words. *)
Definition machine_size (n : nat) : Prop := N.of_nat n < 2 ^ 64.
Definition machine_option (o : option nat) : Prop := match o with Some n => machine_size n | None => True end.
Lemma option_size : forall o, machine_option o -> is_optional is_size (Some (ser_option ser_usize o)) o.
Proof. intros [n|] H; cbn; [|now right]. exists (ser_usize n). split; [reflexivity|]. now split. Qed.
Theorem C79_phonex_round_trip : forall e, machine_size (px_max_code_length e) -> de_phonex (ser_phonex e) = Some e.
Proof.
  intros e H. apply C79_phonex_reads. eexists. split; [|split; [reflexivity|exact H]].
  apply (distinct_members [$ "max_code_length"] [ser_usize (px_max_code_length e)]); [keys|reflexivity].
Qed.
Theorem C79_metaphone_round_trip : forall e, machine_option (mt_max_code_length e) -> de_metaphone (ser_metaphone e) = Some e.
Proof.
  intros e H. apply C79_metaphone_reads. eexists. split; [|apply option_size; exact H].
  apply (distinct_members [$ "max_code_length"] [ser_option ser_usize (mt_max_code_length e)]); [keys|reflexivity].
Qed.
Theorem C79_double_metaphone_round_trip : forall e, machine_option (dm_max_code_length e) -> de_dmetaphone (ser_dmetaphone e) = Some e.
Proof.
  intros e H. apply C79_double_metaphone_reads. eexists. split; [|apply option_size; exact H].
  apply (distinct_members [$ "max_code_length"] [ser_option ser_usize (dm_max_code_length e)]); [keys|reflexivity].
Qed.
Theorem C79_double_metaphone_result_round_trip : forall r, machine_option (dmr_max_length r) -> de_dmresult (ser_dmresult r) = Some r.
Proof.
  intros r H. apply C79_double_metaphone_result_reads. eexists. split; [|apply option_size; exact H].
  apply (distinct_members [$ "primary"; $ "alternate"; $ "max_length"]
    [JStr (dmr_primary r); JStr (dmr_alternate r); ser_option ser_usize (dmr_max_length r)]); [keys|reflexivity].
Qed.
Theorem C79_parse_error_round_trip : forall e, machine_size (pe_line_number e) -> de_parse_error (ser_parse_error e) = Some e.
Proof.
  intros e H. apply C79_parse_error_reads. eexists _, _. split; [|split; [split; [reflexivity|exact H]|]].
  - apply (distinct_members [$ "line_number"; $ "filename"; $ "line_content"; $ "description"]
      [ser_usize (pe_line_number e); ser_option JStr (pe_filename e); JStr (pe_line_content e); JStr (pe_description e)]); [keys|reflexivity].
  - destruct (pe_filename e) as [f|]; cbn; [|now right]. exists (JStr f). split; reflexivity.
Qed.
Theorem C79_char_sequence_round_trip : forall c, cs_len c < 2 ^ 64 -> de_char_sequence (ser_char_sequence c) = Some c.
Proof.
  intros c H. apply C79_char_sequence_reads. split; [|exact H].
  apply (distinct_members [$ "inner"; $ "len_in_char"] [JStr (cs_inner c); JNum (cs_len c)]); [keys|reflexivity].
Qed.
Theorem C79_unit_round_trip : forall x, de_unit (ser_unit x) = Some x.
Proof. intros []. reflexivity. Qed.
Theorem C79_enum_round_trip :
  (forall n, de_name_type (ser_name_type n) = Some n) /\ (forall r, de_rule_type (ser_rule_type r) = Some r)
  /\ (forall n, ser_name_type n = JStr (nt_display n)).
Proof. split; [|split]; intros []; reflexivity. Qed.
Theorem C79_language_set_round_trip : forall s, ls_ok s -> de_language_set (ser_language_set s) = Some s.
Proof.
  intros s W. apply C79_language_set_reads. destruct s as [| |l]; [now left|now left|]. exists l. split; [reflexivity|]. split; [exact W|reflexivity].
Qed.
(** A mapping that is read always has its 26 codes. *)
Theorem C79_mapping_complete : forall j s, de_soundex j = Some s -> length (sx_mapping s) = 26%nat.
Proof. intros j s H. apply C79_soundex_reads in H as (m & h & _ & [L _] & _). exact L. Qed.
(** Without a limit in the document: Metaphone and Double Metaphone have no limit (not their default of
    4), the other settings are refused. *)
Theorem C79_missing_setting : forall l,
  (no_member l $ "max_code_length" ->
     de_metaphone (JObj l) = Some (metaphone_new None) /\ de_dmetaphone (JObj l) = Some (dmetaphone_new None) /\ de_phonex (JObj l) = None)
  /\ (no_member l $ "strict" -> de_nysiis (JObj l) = None)
  /\ (no_member l $ "mapping" -> de_soundex (JObj l) = None /\ de_refined (JObj l) = None)
  /\ (no_member l $ "special_case_h_w" -> de_soundex (JObj l) = None).
Proof.
  intros l. assert (Q : forall n v w, slot l n (Some v) -> slot l n w -> w = Some v).
  { intros n v w S S'. apply values_of_one in S. destruct w as [w|]; [apply values_of_one in S'; congruence|apply values_of_nil in S'; congruence]. }
  assert (Z : forall n v, no_member l n -> ~ slot l n (Some v)) by (intros n v H S; now pose proof (Q _ _ None S H)).
  split; [|split; [|split]]; intros H.
  - split; [|split].
    + apply C79_metaphone_reads. exists None. rewrite gives_obj. split; [repeat constructor; exact H|now left].
    + apply C79_double_metaphone_reads. exists None. rewrite gives_obj. split; [repeat constructor; exact H|now left].
    + destruct (de_phonex (JObj l)) as [e|] eqn:E; [|reflexivity]. exfalso. apply C79_phonex_reads in E as (v & G & _). apply gives_obj in G.
      inversion G as [|? ? ? ? S _]; subst. now apply (Z _ _ H) in S.
  - destruct (de_nysiis (JObj l)) as [e|] eqn:E; [|reflexivity]. exfalso. apply C79_nysiis_reads in E as G. apply gives_obj in G.
    inversion G as [|? ? ? ? S _]; subst. now apply (Z _ _ H) in S.
  - split.
    + destruct (de_soundex (JObj l)) as [e|] eqn:E; [|reflexivity]. exfalso. apply C79_soundex_reads in E as (m & h & G & _). apply gives_obj in G.
      inversion G as [|? ? ? ? S _]; subst. now apply (Z _ _ H) in S.
    + destruct (de_refined (JObj l)) as [e|] eqn:E; [|reflexivity]. exfalso. apply C79_refined_reads in E as (m & G & _). apply gives_obj in G.
      inversion G as [|? ? ? ? S _]; subst. now apply (Z _ _ H) in S.
  - destruct (de_soundex (JObj l)) as [e|] eqn:E; [|reflexivity]. exfalso. apply C79_soundex_reads in E as (m & h & G & _). apply gives_obj in G.
    inversion G as [|? ? ? ? S G']; subst. inversion G' as [|? ? ? ? S' _]; subst. now apply (Z _ _ H) in S'.
Qed.
(** The order of the members does not matter. *)
Lemma one_member_permutation : forall l l' n v, Permutation l l' -> one_member l n v -> one_member l' n v.
Proof.
  intros l l' n v P O. apply values_of_one. apply values_of_one in O.
  assert (K : Permutation (values_of n l) (values_of n l')).
  { clear O. induction P as [|[k w] l l' P IH|[k w] [k' w'] l|l l1 l2 P1 IH1 P2 IH2].
    - constructor.
    - cbn [values_of]. destruct (seq_eqb k n); [now constructor|exact IH].
    - cbn [values_of]. destruct (seq_eqb k n), (seq_eqb k' n); try apply Permutation_refl. apply perm_swap.
    - eapply Permutation_trans; eassumption. }
  rewrite O in K. now apply Permutation_length_1_inv in K.
Qed.
Theorem C79_order_of_members : forall l l' names values, Permutation l l' -> gives (JObj l) names values -> gives (JObj l') names values.
Proof.
  intros l l' names values P G. apply gives_obj in G. apply gives_obj. induction G as [|n v names values S G IH]; constructor; [|exact IH].
  destruct v as [v|]; [eapply one_member_permutation; eassumption|]. intros I. apply S.
  apply (Permutation_in n (Permutation_sym (Permutation_map fst P))). exact I.
Qed.

(** ** Examples *)
Definition us_mapping : ustr := DEFAULT_US_ENGLISH_MAPPING_SOUNDEX.
Example C79_nonvacuous :
  (* a document with the fields in another order and one more member *)
  de_soundex (JObj [($ "special_case_h_w", JBool true); ($ "comment", JNull); ($ "mapping", ser_mapping us_mapping)])
    = Some (soundex_new us_mapping true)
  /\ de_soundex (JArr [ser_mapping us_mapping; JBool false]) = Some (soundex_new us_mapping false)
  (* a field twice, 25 codes, a code of two characters *)
  /\ de_soundex (JObj [($ "special_case_h_w", JBool true); ($ "mapping", ser_mapping us_mapping); ($ "special_case_h_w", JBool true)]) = None
  /\ de_refined (JObj [($ "mapping", ser_mapping (tl us_mapping))]) = None
  /\ de_refined (JObj [($ "mapping", JArr (JStr $ "ab" :: map ser_char (tl us_mapping)))]) = None
  (* missing, null and given limits *)
  /\ de_metaphone (JObj []) = Some (metaphone_new None) /\ metaphone_new None <> metaphone_default
  /\ de_metaphone (JArr []) = None
  /\ de_phonex (JObj [($ "max_code_length", JNum (2 ^ 64))]) = None
  /\ de_language_set (JObj [($ "SomeLanguages", JArr [JStr $ "b"; JStr $ "a"; JStr $ "b"])]) = Some (SomeLanguages [$ "a"; $ "b"])
  /\ de_name_type (JStr $ "Generic") = None /\ de_name_type (JObj [($ "gen", JNull)]) = Some Generic
  (* a result that no encoder gives *)
  /\ de_dmresult (JObj [($ "primary", JStr $ "AAAAA"); ($ "alternate", JStr []); ($ "max_length", JNum 1)])
     = Some {| dmr_primary := $ "AAAAA"; dmr_alternate := []; dmr_max_length := Some 1%nat |}
  /\ length us_mapping = 26%nat /\ machine_size 4 /\ machine_option (Some 4%nat).
Proof. repeat (split; [first [vm_compute; reflexivity | discriminate]|]). split; vm_compute; reflexivity. Qed.
