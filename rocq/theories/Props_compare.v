(** * Property C80: the comparisons of the public types. *)
From Verif Require Import Base BaseLemmas UnicodeM Lib Helper Soundex BmLanguages Api Compare Spec_bm Bm_set_proofs.
Local Open Scope N_scope.

(** ** Specification *)
(** A total order that agrees with equality. *)
Definition total_order {A} (c : A -> A -> comparison) : Prop :=
  (forall x y, c x y = Eq <-> x = y)
  /\ (forall x y, c x y = Gt <-> c y x = Lt)
  /\ (forall x y z, c x y = Lt -> c y z = Lt -> c x z = Lt).
(** [None] comes before every limit. *)
Definition limit_lt (a b : option nat) : Prop :=
  match a, b with None, Some _ => True | Some n, Some m => (n < m)%nat | _, _ => False end.
Definition name_lt (a b : option ustr) : Prop :=
  match a, b with None, Some _ => True | Some n, Some m => lex_lt n m | _, _ => False end.
Definition flag_lt (a b : bool) : Prop := a = false /\ b = true.
(** Sets of names: compared like texts, name by name. *)
Definition names_lt (a b : list ustr) : Prop :=
  (exists c r, b = a ++ c :: r)
  \/ (exists p x y ra rb, a = p ++ x :: ra /\ b = p ++ y :: rb /\ lex_lt x y).

(** ** Proofs *)
Lemma then_lt : forall a b, then_cmp a b = Lt <-> a = Lt \/ (a = Eq /\ b = Lt).
Proof. intros [] b; cbn; intuition congruence. Qed.
Lemma then_eq : forall a b, then_cmp a b = Eq <-> a = Eq /\ b = Eq.
Proof. intros [] b; cbn; intuition congruence. Qed.
Lemma then_gt : forall a b, then_cmp a b = Gt <-> a = Gt \/ (a = Eq /\ b = Gt).
Proof. intros [] b; cbn; intuition congruence. Qed.
Lemma total_inj : forall A B (c : B -> B -> comparison) (f : A -> B), total_order c -> (forall x y, f x = f y -> x = y) ->
  total_order (fun a b => c (f a) (f b)).
Proof.
  intros A B c f (E & G & T) I. split; [|split].
  - intros x y. rewrite E. split; [apply I|intros ->; reflexivity].
  - intros x y. apply G.
  - intros x y z. apply T.
Qed.
Lemma total_pair : forall A B (c : A -> A -> comparison) (d : B -> B -> comparison), total_order c -> total_order d ->
  total_order (fun a b : A * B => then_cmp (c (fst a) (fst b)) (d (snd a) (snd b))).
Proof.
  intros A B c d (E & G & T) (E' & G' & T'). split; [|split].
  - intros [x y] [x' y']. cbn [fst snd]. rewrite then_eq, E, E'. split; [intros [-> ->]; reflexivity|]. intros H. injection H as -> ->. now split.
  - intros [x y] [x' y']. cbn [fst snd]. rewrite then_gt, then_lt, G, G', E, E. intuition.
  - intros [x y] [x' y'] [x'' y'']. cbn [fst snd]. rewrite !then_lt, !E. intros [H|[-> H]] [K|[-> K]].
    + left. now apply T with x'.
    + now left.
    + now left.
    + right. split; [reflexivity|]. now apply T' with y'.
Qed.
Lemma bool_total : total_order bool_cmp.
Proof. split; [intros [] []|split; [intros [] []|intros [] [] []]]; cbn; intuition congruence. Qed.
Lemma nat_total : total_order Nat.compare.
Proof.
  split; [|split].
  - apply Nat.compare_eq_iff.
  - intros x y. rewrite Nat.compare_gt_iff, Nat.compare_lt_iff. reflexivity.
  - intros x y z. rewrite !Nat.compare_lt_iff. lia.
Qed.
Lemma N_total : total_order N.compare.
Proof.
  split; [|split].
  - apply N.compare_eq_iff.
  - intros x y. rewrite N.compare_gt_iff, N.compare_lt_iff. reflexivity.
  - intros x y z. rewrite !N.compare_lt_iff. lia.
Qed.
Lemma str_total : total_order str_cmp.
Proof. split; [exact str_cmp_eq|]. split; [exact str_cmp_gt|exact str_cmp_trans]. Qed.
Lemma option_total : forall A (c : A -> A -> comparison), total_order c -> total_order (option_cmp c).
Proof.
  intros A c (E & G & T). split; [|split].
  - intros [x|] [y|]; cbn; try (split; congruence). rewrite E. split; congruence.
  - intros [x|] [y|]; cbn; try (split; congruence). apply G.
  - intros [x|] [y|] [z|]; cbn; try congruence. apply T.
Qed.
Lemma list_total : forall A (c : A -> A -> comparison), total_order c -> total_order (list_cmp c).
Proof.
  intros A c (E & G & T). split; [|split].
  - induction x as [|a x IH]; intros [|b y]; cbn; try (split; congruence). rewrite then_eq, E, IH. split; [intros [-> ->]; reflexivity|].
    intros H. injection H as -> ->. now split.
  - induction x as [|a x IH]; intros [|b y]; cbn; try (split; congruence). rewrite then_gt, then_lt, G, E, E, IH. intuition.
  - induction x as [|a x IH]; intros [|b y] [|d z]; cbn; try congruence. rewrite !then_lt, !E. intros [H|[-> H]] [K|[-> K]].
    + left. now apply T with b.
    + now left.
    + now left.
    + right. split; [reflexivity|]. now apply IH with y.
Qed.

Theorem C80_total_orders :
  total_order soundex_cmp /\ total_order refined_cmp /\ total_order nysiis_cmp /\ total_order phonex_cmp
  /\ total_order metaphone_cmp /\ total_order dmetaphone_cmp /\ total_order dmresult_cmp /\ total_order parse_error_cmp
  /\ total_order char_sequence_cmp /\ total_order name_type_cmp /\ total_order rule_type_cmp /\ total_order language_set_cmp.
Proof.
  split; [|split; [|split; [|split; [|split; [|split; [|split; [|split; [|split; [|split; [|split]]]]]]]]]].
  - apply (total_inj _ _ _ (fun s => (sx_mapping s, sx_special_case_h_w s)) (total_pair _ _ _ _ str_total bool_total)).
    intros [] [] H. cbn in H. congruence.
  - exact str_total.
  - apply (total_inj _ _ _ ny_strict bool_total). intros [] [] H. cbn in H. congruence.
  - apply (total_inj _ _ _ px_max_code_length nat_total). intros [] [] H. cbn in H. congruence.
  - apply (total_inj _ _ _ mt_max_code_length (option_total _ _ nat_total)). intros [] [] H. cbn in H. congruence.
  - apply (total_inj _ _ _ dm_max_code_length (option_total _ _ nat_total)). intros [] [] H. cbn in H. congruence.
  - apply (total_inj _ _ _ (fun r => (dmr_primary r, (dmr_alternate r, dmr_max_length r)))
      (total_pair _ _ _ _ str_total (total_pair _ _ _ _ str_total (option_total _ _ nat_total)))). intros [] [] H. cbn in H. congruence.
  - apply (total_inj _ _ _ (fun e => (pe_line_number e, (pe_filename e, (pe_line_content e, pe_description e))))
      (total_pair _ _ _ _ nat_total (total_pair _ _ _ _ (option_total _ _ str_total) (total_pair _ _ _ _ str_total str_total)))).
    intros [] [] H. cbn in H. congruence.
  - apply (total_inj _ _ _ (fun s => (cs_inner s, cs_len s)) (total_pair _ _ _ _ str_total N_total)). intros [] [] H. cbn in H. congruence.
  - apply (total_inj _ _ _ nt_index nat_total). intros [] [] H; cbn in H; congruence.
  - apply (total_inj _ _ _ rt_index nat_total). intros [] [] H; cbn in H; congruence.
  - assert (L : total_order (list_cmp str_cmp)) by (apply list_total, str_total). destruct L as (E & G & T). split; [|split].
    + intros [| |x] [| |y]; cbn; try (split; congruence). rewrite E. split; congruence.
    + intros [| |x] [| |y]; cbn; try (split; congruence). apply G.
    + intros [| |x] [| |y] [| |z]; cbn; try congruence. apply T.
Qed.
(** ** What the orders are *)
Lemma bool_lt : forall a b, bool_cmp a b = Lt <-> flag_lt a b.
Proof. intros [] []; unfold flag_lt; cbn; intuition congruence. Qed.
Lemma limit_lt_spec : forall a b, option_cmp Nat.compare a b = Lt <-> limit_lt a b.
Proof. intros [n|] [m|]; cbn; try (intuition congruence). apply Nat.compare_lt_iff. Qed.
Lemma name_lt_spec : forall a b, option_cmp str_cmp a b = Lt <-> name_lt a b.
Proof. intros [n|] [m|]; cbn; try (intuition congruence). apply str_lt_lex. Qed.
Lemma limit_eq : forall a b, option_cmp Nat.compare a b = Eq <-> a = b.
Proof. apply (option_total _ _ nat_total). Qed.
Lemma name_eq : forall a b, option_cmp str_cmp a b = Eq <-> a = b.
Proof. apply (option_total _ _ str_total). Qed.
Lemma names_lt_spec : forall a b, list_cmp str_cmp a b = Lt <-> names_lt a b.
Proof.
  intros a b. split.
  - revert b. induction a as [|x a IH]; intros [|y b] H; cbn [list_cmp] in H; try discriminate.
    + left. exists y, b. reflexivity.
    + apply then_lt in H as [H|[H K]].
      * right. exists [], x, y, a, b. apply str_lt_lex in H. auto.
      * apply str_cmp_eq in H. subst y. apply IH in K as [(c & r & ->)|(p & c & d & ra & rb & -> & -> & L)].
        -- left. exists c, r. reflexivity.
        -- right. exists (x :: p), c, d, ra, rb. auto.
  - intros [(c & r & ->)|(p & x & y & ra & rb & -> & -> & L)].
    + induction a as [|x a IH]; [reflexivity|]. cbn [app list_cmp]. rewrite str_cmp_refl. exact IH.
    + apply str_lt_lex in L. induction p as [|z p IH]; cbn [app list_cmp]; [now rewrite L|]. rewrite str_cmp_refl. exact IH.
Qed.
Theorem C80_soundex : forall a b, soundex_cmp a b = Lt <->
  lex_lt (sx_mapping a) (sx_mapping b) \/ (sx_mapping a = sx_mapping b /\ flag_lt (sx_special_case_h_w a) (sx_special_case_h_w b)).
Proof. intros a b. unfold soundex_cmp. now rewrite then_lt, str_lt_lex, str_cmp_eq, bool_lt. Qed.
Theorem C80_refined : forall a b, refined_cmp a b = Lt <-> lex_lt a b.
Proof. exact str_lt_lex. Qed.
Theorem C80_settings :
  (forall a b, nysiis_cmp a b = Lt <-> flag_lt (ny_strict a) (ny_strict b))
  /\ (forall a b, phonex_cmp a b = Lt <-> (px_max_code_length a < px_max_code_length b)%nat)
  /\ (forall a b, metaphone_cmp a b = Lt <-> limit_lt (mt_max_code_length a) (mt_max_code_length b))
  /\ (forall a b, dmetaphone_cmp a b = Lt <-> limit_lt (dm_max_code_length a) (dm_max_code_length b)).
Proof.
  split; [|split; [|split]]; intros a b; [apply bool_lt|apply Nat.compare_lt_iff|apply limit_lt_spec|apply limit_lt_spec].
Qed.
Theorem C80_double_metaphone_result : forall a b, dmresult_cmp a b = Lt <->
  lex_lt (dmr_primary a) (dmr_primary b)
  \/ (dmr_primary a = dmr_primary b /\ lex_lt (dmr_alternate a) (dmr_alternate b))
  \/ (dmr_primary a = dmr_primary b /\ dmr_alternate a = dmr_alternate b /\ limit_lt (dmr_max_length a) (dmr_max_length b)).
Proof. intros a b. unfold dmresult_cmp. rewrite !then_lt, !str_lt_lex, !str_cmp_eq, limit_lt_spec. intuition. Qed.
Theorem C80_parse_error : forall a b, parse_error_cmp a b = Lt <->
  (pe_line_number a < pe_line_number b)%nat
  \/ (pe_line_number a = pe_line_number b /\ (name_lt (pe_filename a) (pe_filename b)
      \/ (pe_filename a = pe_filename b /\ (lex_lt (pe_line_content a) (pe_line_content b)
          \/ (pe_line_content a = pe_line_content b /\ lex_lt (pe_description a) (pe_description b)))))).
Proof.
  intros a b. unfold parse_error_cmp. rewrite !then_lt, !str_lt_lex, !str_cmp_eq, name_lt_spec, name_eq, Nat.compare_lt_iff, Nat.compare_eq_iff. reflexivity.
Qed.
(** Sequences made from texts compare as the texts. *)
Theorem C80_char_sequence : forall a b,
  (char_sequence_cmp (cs_from a) (cs_from b) = Lt <-> lex_lt a b) /\ (char_sequence_cmp (cs_from a) (cs_from b) = Eq <-> a = b).
Proof.
  intros a b. unfold char_sequence_cmp, cs_from. cbn [cs_inner cs_len]. rewrite then_lt, then_eq, str_cmp_eq, str_lt_lex. split; split.
  - intros [H|[-> H]]; [exact H|]. rewrite N.compare_refl in H. discriminate.
  - intros H. now left.
  - now intros [H _].
  - intros ->. split; [reflexivity|apply N.compare_refl].
Qed.
Theorem C80_enums :
  (forall a b, name_type_cmp a b = Lt <-> (a = Ashkenazi /\ b <> Ashkenazi) \/ (a = Generic /\ b = Sephardic))
  /\ (forall a b, rule_type_cmp a b = Lt <-> a = RtApprox /\ b = RtExact).
Proof. split; intros [] []; cbn; intuition congruence. Qed.
Theorem C80_language_set : forall a b, language_set_cmp a b = Lt <->
  match a, b with
  | LAny, LAny => False
  | LAny, _ => True
  | NoLanguages, SomeLanguages _ => True
  | SomeLanguages x, SomeLanguages y => names_lt x y
  | _, _ => False
  end.
Proof. intros [| |x] [| |y]; cbn; try (intuition congruence). apply names_lt_spec. Qed.

(** ** Texts compare by their UTF-8 bytes *)
(** The bytes of a character. *)
Definition utf8_char (c : N) : list N :=
  if c <? 128 then [c]
  else if c <? 2048 then [192 + c / 64; 128 + c mod 64]
  else if c <? 65536 then [224 + c / 4096; 128 + (c / 64) mod 64; 128 + c mod 64]
  else [240 + c / 262144; 128 + (c / 4096) mod 64; 128 + (c / 64) mod 64; 128 + c mod 64].
Definition utf8 (s : ustr) : list N := flat_map utf8_char s.
Ltac Zify.zify_post_hook ::= Z.to_euclidean_division_equations.
Lemma utf8_char_lt : forall x y, x < y -> y < 1114112 -> forall r r', str_cmp (utf8_char x ++ r) (utf8_char y ++ r') = Lt.
Proof.
  intros x y L U r r'. apply str_lt_lex. right. unfold utf8_char.
  destruct (x <? 128) eqn:X1; [|destruct (x <? 2048) eqn:X2; [|destruct (x <? 65536) eqn:X3]];
  (destruct (y <? 128) eqn:Y1; [|destruct (y <? 2048) eqn:Y2; [|destruct (y <? 65536) eqn:Y3]]);
  rewrite ?N.ltb_lt, ?N.ltb_ge in *; try lia; cbn [app].
  (* different lengths: the first byte decides *)
  all: try (exists []; do 4 eexists; split; [reflexivity|]; split; [reflexivity|]; lia).
  - destruct (N.lt_trichotomy (x / 64) (y / 64)) as [H|[H|H]]; [|rewrite H|lia].
    + exists []; do 4 eexists; split; [reflexivity|]; split; [reflexivity|]; lia.
    + exists [192 + y / 64]; do 4 eexists; split; [reflexivity|]; split; [reflexivity|]; lia.
  - destruct (N.lt_trichotomy (x / 4096) (y / 4096)) as [H|[H|H]]; [|rewrite H|lia].
    + exists []; do 4 eexists; split; [reflexivity|]; split; [reflexivity|]; lia.
    + destruct (N.lt_trichotomy ((x / 64) mod 64) ((y / 64) mod 64)) as [K|[K|K]]; [|rewrite K|exfalso; lia].
      * exists [224 + y / 4096]; do 4 eexists; split; [reflexivity|]; split; [reflexivity|]; lia.
      * exists [224 + y / 4096; 128 + (y / 64) mod 64]; do 4 eexists; split; [reflexivity|]; split; [reflexivity|]; lia.
  - destruct (N.lt_trichotomy (x / 262144) (y / 262144)) as [H|[H|H]]; [|rewrite H|lia].
    + exists []; do 4 eexists; split; [reflexivity|]; split; [reflexivity|]; lia.
    + destruct (N.lt_trichotomy ((x / 4096) mod 64) ((y / 4096) mod 64)) as [K|[K|K]]; [|rewrite K|exfalso; lia].
      * exists [240 + y / 262144]; do 4 eexists; split; [reflexivity|]; split; [reflexivity|]; lia.
      * destruct (N.lt_trichotomy ((x / 64) mod 64) ((y / 64) mod 64)) as [J|[J|J]]; [|rewrite J|exfalso; lia].
        -- exists [240 + y / 262144; 128 + (y / 4096) mod 64]; do 4 eexists; split; [reflexivity|]; split; [reflexivity|]; lia.
        -- exists [240 + y / 262144; 128 + (y / 4096) mod 64; 128 + (y / 64) mod 64]; do 4 eexists; split; [reflexivity|]; split; [reflexivity|]; lia.
Qed.
Lemma str_cmp_app : forall p a b, str_cmp (p ++ a) (p ++ b) = str_cmp a b.
Proof. induction p as [|x p IH]; intros a b; [reflexivity|]. cbn [app str_cmp]. rewrite N.compare_refl. apply IH. Qed.
Lemma utf8_char_nonempty : forall c, exists x r, utf8_char c = x :: r.
Proof. intros c. unfold utf8_char. destruct (c <? 128); [eauto|]. destruct (c <? 2048); [eauto|]. destruct (c <? 65536); eauto. Qed.
(** Characters are below 0x110000. *)
Definition characters (s : ustr) : Prop := forall c, In c s -> c < 1114112.
Theorem C80_bytes : forall a b, characters a -> characters b -> str_cmp (utf8 a) (utf8 b) = str_cmp a b.
Proof.
  induction a as [|x a IH]; intros [|y b] A B; cbn [utf8 flat_map].
  - reflexivity.
  - destruct (utf8_char_nonempty y) as (z & r & E). rewrite E. reflexivity.
  - destruct (utf8_char_nonempty x) as (z & r & E). rewrite E. reflexivity.
  - cbn [str_cmp]. assert (X : x < 1114112) by (apply A; now left). assert (Y : y < 1114112) by (apply B; now left).
    destruct (N.compare x y) eqn:C.
    + apply N.compare_eq in C. subst y. rewrite str_cmp_app. apply IH; intros c I; [apply A|apply B]; now right.
    + apply N.compare_lt_iff in C. now apply utf8_char_lt.
    + apply N.compare_gt_iff in C. apply str_cmp_gt. now apply utf8_char_lt.
Qed.
(** The lengths in bytes used throughout the model are those of the UTF-8 texts. *)
Theorem C80_byte_length : forall s, length (utf8 s) = blen s.
Proof.
  induction s as [|c s IH]; [reflexivity|]. cbn [utf8 flat_map]. rewrite app_length.
  change (flat_map utf8_char s) with (utf8 s). rewrite IH. cbn [blen]. f_equal. unfold utf8_char, utf8_len.
  destruct (c <? 128); [reflexivity|]. destruct (c <? 2048); [reflexivity|]. now destruct (c <? 65536).
Qed.
(** ** Examples *)
Example C80_nonvacuous :
  dmresult_cmp {| dmr_primary := $ "AB"; dmr_alternate := $ "A"; dmr_max_length := None |}
               {| dmr_primary := $ "AB"; dmr_alternate := $ "A"; dmr_max_length := Some 4%nat |} = Lt
  /\ language_set_cmp (SomeLanguages [$ "a"; $ "z"]) (SomeLanguages [$ "b"]) = Lt
  /\ language_set_cmp LAny NoLanguages = Lt
  /\ utf8 $ "aé€" = [97; 195; 169; 226; 130; 172] /\ str_cmp $ "z" $ "é" = Lt /\ characters $ "aé€".
Proof.
  repeat (split; [vm_compute; reflexivity|]). intros c [<-|[<-|[<-|[]]]]; vm_compute; reflexivity.
Qed.
