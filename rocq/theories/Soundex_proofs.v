(** * Proofs about Soundex and RefinedSoundex. *)
From Verif Require Import Base UnicodeM Lib Soundex BaseLemmas Spec_common Spec_soundex Lib_proofs.
Local Open Scope N_scope.

Definition uppers (s : ustr) : Prop := forall c, In c s -> is_ascii_upper c = true.

(** ** collapse *)
Lemma collapse_cons : forall d ds, collapse (d :: ds) = d :: tl (collapse (d :: ds)).
Proof.
  intros d ds. revert d. induction ds as [|e ds IH]; intros d; [reflexivity|].
  change (collapse (d :: e :: ds)) with (if d =? e then collapse (e :: ds) else d :: collapse (e :: ds)).
  destruct (d =? e) eqn:E; [|reflexivity].
  apply N.eqb_eq in E. subst e. apply IH.
Qed.
Lemma tl_collapse : forall prev d ds,
  tl (collapse (prev :: d :: ds))
  = if prev =? d then tl (collapse (d :: ds)) else d :: tl (collapse (d :: ds)).
Proof.
  intros. change (collapse (prev :: d :: ds))
    with (if prev =? d then collapse (d :: ds) else prev :: collapse (d :: ds)).
  destruct (prev =? d); [reflexivity|]. cbn [tl]. apply collapse_cons.
Qed.
Lemma collapse_nae : forall l, no_adjacent_equal (collapse l).
Proof.
  induction l as [|x l IH]; [exact I|]. destruct l as [|y l]; [exact I|].
  change (collapse (x :: y :: l)) with (if x =? y then collapse (y :: l) else x :: collapse (y :: l)).
  destruct (x =? y) eqn:E; [exact IH|]. rewrite collapse_cons in *.
  split; [now apply N.eqb_neq|exact IH].
Qed.
Lemma collapse_incl : forall l c, In c (collapse l) -> In c l.
Proof.
  induction l as [|x l IH]; intros c H; [exact H|]. destruct l as [|y l]; [exact H|].
  change (collapse (x :: y :: l)) with (if x =? y then collapse (y :: l) else x :: collapse (y :: l)) in H.
  destruct (x =? y); [right; now apply IH|]. destruct H as [H|H]; [now left|right; now apply IH].
Qed.
Lemma collapse_length : forall l, (length (collapse l) <= length l)%nat.
Proof.
  induction l as [|x l IH]; [auto|]. destruct l as [|y l]; [auto|].
  change (collapse (x :: y :: l)) with (if x =? y then collapse (y :: l) else x :: collapse (y :: l)).
  destruct (x =? y); cbn [length] in *; lia.
Qed.

(** ** pad_to *)
Lemma pad_to_length : forall n f l, length (pad_to n f l) = n.
Proof. intros. unfold pad_to. rewrite firstn_length, app_length, repeat_length. lia. Qed.
Lemma firstn_repeat : forall A (x : A) a b, firstn a (repeat x b) = repeat x (Nat.min a b).
Proof.
  induction a as [|a IH]; intros [|b]; try reflexivity. cbn. now rewrite IH.
Qed.
Lemma pad_to_alt : forall n f l, pad_to n f l = firstn n l ++ repeat f (n - length l).
Proof.
  intros. unfold pad_to. rewrite firstn_app. f_equal. rewrite firstn_repeat. f_equal. lia.
Qed.

(** ** Table lookup *)
Lemma get_mapping_upper : forall m c, length m = 26%nat -> is_ascii_upper c = true ->
  get_mapping_code m c = Ok (table_digit m c).
Proof.
  intros m c L H. unfold is_ascii_upper in H. apply andb_true_iff in H as [H1 H2].
  apply N.leb_le in H1. apply N.leb_le in H2. unfold get_mapping_code, table_digit.
  rewrite L. change (N.of_nat 26) with 26.
  replace (c <? 65) with false by (symmetry; apply N.ltb_ge; lia).
  replace (c - 65 <? 26) with true by (symmetry; apply N.ltb_lt; lia).
  rewrite (nth_error_nth' m 0) by lia. reflexivity.
Qed.
Lemma get_mapping_not_upper : forall m c, length m = 26%nat -> is_ascii_upper c = false ->
  get_mapping_code m c = Panic.
Proof.
  intros m c L H. unfold get_mapping_code. rewrite L. change (N.of_nat 26) with 26.
  destruct (c <? 65) eqn:E; [reflexivity|]. apply N.ltb_ge in E.
  unfold is_ascii_upper in H. replace (65 <=? c) with true in H by (symmetry; apply N.leb_le; lia).
  apply N.leb_gt in H. replace (c - 65 <? 26) with false; [reflexivity|].
  symmetry. apply N.ltb_ge. lia.
Qed.

Lemma is_ascii_upper_cases : forall c, is_ascii_upper c = true ->
  In c $ "ABCDEFGHIJKLMNOPQRSTUVWXYZ".
Proof.
  intros c H. apply isin_In. unfold is_ascii_upper in H.
  apply andb_true_iff in H as [H1 H2]. apply N.leb_le in H1, H2.
  assert (E : exists k, (k < 26)%nat /\ c = 65 + N.of_nat k).
  { exists (N.to_nat (c - 65)). split; lia. }
  destruct E as (k & Hk & ->). clear H1 H2.
  do 26 (destruct k as [|k]; [reflexivity|]). lia.
Qed.

(** ** The loop *)
Section Loop.
Variable sx : soundex.
Hypothesis Hlen : length (sx_mapping sx) = 26%nat.
Let digit := table_digit (sx_mapping sx).
Let transp := table_transparent (sx_mapping sx) (sx_special_case_h_w sx).
(** Digits emitted after a letter whose digit is [prev]. *)
Definition emit (prev : N) (chars : ustr) : ustr :=
  filter (fun d => negb (d =? # "0"))
    (tl (collapse (prev :: map digit (filter (fun c => negb (transp c)) chars)))).
Definition last_digit (prev : N) (chars : ustr) : N :=
  last (map digit (filter (fun c => negb (transp c)) chars)) prev.

Lemma last_cons : forall A (x d : A) l, last (x :: l) d = last l x.
Proof.
  intros A x d l. revert x d. induction l as [|y l IH]; intros x d; [reflexivity|].
  change (last (x :: y :: l) d) with (last (y :: l) d). now rewrite !IH.
Qed.

Lemma loop_app : forall p rest count code prev,
  uppers p -> (count <= 4)%nat ->
  soundex_loop sx count code prev (p ++ rest)
  = if Nat.leb 4 (count + length (emit prev p))
    then Ok (4%nat, rev (firstn (4 - count) (emit prev p)) ++ code)
    else soundex_loop sx (count + length (emit prev p)) (rev (emit prev p) ++ code)
           (last_digit prev p) rest.
Proof.
  induction p as [|c p IH]; intros rest count code prev HU Hc.
  - change (emit prev []) with (@nil N). change (last_digit prev []) with prev.
    cbn [length]. rewrite Nat.add_0_r. cbn [app rev]. destruct (Nat.leb 4 count) eqn:E.
    + apply Nat.leb_le in E. assert (count = 4%nat) by lia. subst count.
      destruct rest; reflexivity.
    + reflexivity.
  - assert (HU' : uppers p) by (intros x Hx; apply HU; now right).
    assert (Hup : is_ascii_upper c = true) by (apply HU; now left).
    cbn [app]. destruct (Nat.ltb count 4) eqn:Ec.
    2:{ apply Nat.ltb_ge in Ec. assert (count = 4%nat) by lia. subst count.
        replace (Nat.leb 4 (4 + _)) with true by (symmetry; apply Nat.leb_le; lia).
        reflexivity. }
    apply Nat.ltb_lt in Ec.
    assert (Step : soundex_loop sx count code prev (c :: p ++ rest)
      = if transp c then soundex_loop sx count code prev (p ++ rest)
        else if negb (digit c =? # "0") && negb (digit c =? prev)
             then soundex_loop sx (S count) (digit c :: code) (digit c) (p ++ rest)
             else soundex_loop sx count code (digit c) (p ++ rest)).
    { cbn [soundex_loop]. replace (Nat.ltb count 4) with true by (symmetry; apply Nat.ltb_lt; lia).
      unfold transp, table_transparent. rewrite (get_mapping_upper _ _ Hlen Hup). cbn [bind].
      unfold isin. cbn [existsb]. fold (digit c). unfold SILENT. rewrite orb_false_r.
      destruct (sx_special_case_h_w sx && ((c =? 72) || (c =? 87))); [now rewrite orb_true_r|].
      rewrite orb_false_r. destruct (digit c =? 45); reflexivity. }
    rewrite Step. clear Step. unfold emit, last_digit. cbn [filter].
    destruct (transp c); cbn [negb].
    + rewrite IH by assumption. reflexivity.
    + cbn [map]. rewrite tl_collapse, last_cons. fold (last_digit (digit c) p).
      rewrite (N.eqb_sym prev (digit c)).
      destruct (digit c =? prev) eqn:Ep.
      * rewrite andb_false_r. rewrite IH by assumption. reflexivity.
      * cbn [filter negb]. rewrite andb_true_r. destruct (negb (digit c =? 48)) eqn:E0.
        -- rewrite IH by (auto; lia). fold (emit (digit c) p). cbn [length rev].
           rewrite <- Nat.add_succ_comm. replace (4 - count)%nat with (S (4 - S count)) by lia.
           cbn [firstn rev]. rewrite <- !app_assoc. reflexivity.
        -- rewrite IH by assumption. reflexivity.
Qed.

Lemma loop_full : forall p count code prev,
  uppers p -> (count <= 4)%nat ->
  soundex_loop sx count code prev p
  = Ok (Nat.min 4 (count + length (emit prev p)), rev (firstn (4 - count) (emit prev p)) ++ code).
Proof.
  intros p count code prev HU Hc. rewrite <- (app_nil_r p) at 1. rewrite loop_app by auto.
  destruct (Nat.leb 4 (count + length (emit prev p))) eqn:E.
  - apply Nat.leb_le in E. do 2 f_equal. lia.
  - apply Nat.leb_gt in E. cbn [soundex_loop].
    rewrite firstn_all2 by lia. replace (Nat.min _ _) with (count + length (emit prev p))%nat by lia.
    destruct (Nat.ltb _ _); reflexivity.
Qed.

Lemma loop_hw : forall p c q count code prev,
  sx_special_case_h_w sx = true -> isin c $ "HW" = true ->
  soundex_loop sx count code prev (p ++ c :: q) = soundex_loop sx count code prev (p ++ q).
Proof.
  intros p c q count code prev Hs Hc. revert count code prev.
  induction p as [|x p IH]; intros count code prev.
  - cbn [app]. cbn [soundex_loop]. rewrite Hs.
    assert (E : (c =? 72) || (c =? 87) = true).
    { unfold isin in Hc. cbn [existsb] in Hc. now rewrite orb_false_r in Hc. }
    rewrite E. cbn [andb]. destruct (Nat.ltb count 4) eqn:El; [reflexivity|].
    destruct q; cbn [soundex_loop]; rewrite El; reflexivity.
  - cbn [app soundex_loop]. rewrite !IH. destruct (Nat.ltb count 4); [|reflexivity].
    destruct (_ && _); [reflexivity|]. destruct (get_mapping_code _ x) as [d| |]; cbn [bind]; try reflexivity.
    now rewrite !IH.
Qed.

(** encode on letters [first :: p ++ rest] with [p] uppercase. *)
Lemma encode_letters : forall u s first p, soundex_clean u s = first :: p ->
  is_ascii_upper first = true -> uppers p ->
  soundex_encode u sx s = Ok (soundex_code digit transp (first :: p)).
Proof.
  intros u s first p H Hf Hp. unfold soundex_encode. rewrite H.
  rewrite (get_mapping_upper _ _ Hlen Hf). cbn [bind].
  rewrite loop_full by (auto; lia). cbn [bind]. f_equal. unfold soundex_code. f_equal.
  rewrite app_nil_r, rev_involutive. rewrite pad_to_alt. unfold emit, soundex_digits.
  fold digit. f_equal. f_equal. lia.
Qed.

End Loop.

(** ** The cleaning step *)
Lemma ascii_alpha_alphabetic : forall u c, c < 128 -> is_alphabetic u c = is_ascii_alpha c.
Proof.
  intros u c H. unfold is_alphabetic, latin1_alphabetic.
  replace (c <? 256) with true by (symmetry; apply N.ltb_lt; lia).
  replace (c =? 170) with false by (symmetry; apply N.eqb_neq; lia).
  replace (c =? 181) with false by (symmetry; apply N.eqb_neq; lia).
  replace (c =? 186) with false by (symmetry; apply N.eqb_neq; lia).
  replace (192 <=? c) with false by (symmetry; apply N.leb_gt; lia).
  now rewrite !orb_false_r.
Qed.
Lemma is_ascii_alpha_lt : forall c, is_ascii_alpha c = true -> c < 128.
Proof.
  intros c H. unfold is_ascii_alpha, is_ascii_upper, is_ascii_lower in H.
  apply orb_true_iff in H as [H|H]; apply andb_true_iff in H as [_ H]; apply N.leb_le in H; lia.
Qed.
Lemma to_upper_ascii : forall u c, c < 128 -> to_upper u c = [ascii_up c].
Proof.
  intros u c H. unfold to_upper, ascii_up.
  replace (c <? 256) with true by (symmetry; apply N.ltb_lt; lia).
  destruct (is_ascii_lower c); [reflexivity|].
  replace (c =? 181) with false by (symmetry; apply N.eqb_neq; lia).
  replace (c =? 223) with false by (symmetry; apply N.eqb_neq; lia).
  replace (c =? 255) with false by (symmetry; apply N.eqb_neq; lia).
  replace (224 <=? c) with false by (symmetry; apply N.leb_gt; lia). reflexivity.
Qed.
Lemma to_upper_ascii_up : forall u c, to_upper u (ascii_up c) = to_upper u c.
Proof.
  intros u c. unfold ascii_up. destruct (is_ascii_lower c) eqn:E; [|reflexivity].
  unfold is_ascii_lower in E. apply andb_true_iff in E as [E1 E2]. apply N.leb_le in E1, E2.
  rewrite !to_upper_ascii by lia. unfold ascii_up, is_ascii_lower.
  replace (97 <=? c) with true by (symmetry; apply N.leb_le; lia).
  replace (c <=? 122) with true by (symmetry; apply N.leb_le; lia).
  replace (97 <=? c - 32) with false by (symmetry; apply N.leb_gt; lia). reflexivity.
Qed.
Lemma ascii_up_alpha_upper : forall c, is_ascii_alpha c = true -> is_ascii_upper (ascii_up c) = true.
Proof.
  intros c H. unfold ascii_up. destruct (is_ascii_lower c) eqn:E.
  - unfold is_ascii_lower in E. apply andb_true_iff in E as [E1 E2]. apply N.leb_le in E1, E2.
    unfold is_ascii_upper. apply andb_true_iff. split; apply N.leb_le; lia.
  - unfold is_ascii_alpha in H. rewrite E, orb_false_r in H. exact H.
Qed.
Lemma is_ascii_upper_lt : forall c, is_ascii_upper c = true -> 65 <= c <= 90.
Proof. intros c H. apply andb_true_iff in H as [H1 H2]. apply N.leb_le in H1, H2. lia. Qed.

Lemma clean_ascii : forall u s, letters_are_ascii (is_alphabetic u) s ->
  soundex_clean u s = ascii_letters s.
Proof.
  intros u s H. unfold soundex_clean, ascii_letters.
  induction s as [|c s IH]; [reflexivity|].
  assert (IH' : flat_map (to_upper u) (filter (is_alphabetic u) s) = map ascii_up (filter is_ascii_alpha s)).
  { apply IH. intros x Hx. apply H. now right. }
  cbn [filter]. destruct (is_alphabetic u c) eqn:E.
  - assert (L : c < 128) by (apply H; [now left|assumption]).
    rewrite ascii_alpha_alphabetic in E by assumption. rewrite E. cbn [flat_map map].
    rewrite IH', to_upper_ascii by assumption. reflexivity.
  - destruct (is_ascii_alpha c) eqn:E2; [|exact IH'].
    rewrite ascii_alpha_alphabetic in E by (now apply is_ascii_alpha_lt). congruence.
Qed.
Lemma ascii_letters_uppers : forall s, uppers (ascii_letters s).
Proof.
  intros s c Hc. unfold ascii_letters in Hc. apply in_map_iff in Hc as (d & <- & Hd).
  apply filter_In in Hd as [_ Hd]. now apply ascii_up_alpha_upper.
Qed.
Lemma ascii_str_letters : forall u s, ascii_str s -> letters_are_ascii (is_alphabetic u) s.
Proof. intros u s H c Hc _. now apply H. Qed.

Lemma clean_case : forall u s t,
  map ascii_up (filter (is_alphabetic u) s) = map ascii_up (filter (is_alphabetic u) t) ->
  soundex_clean u s = soundex_clean u t.
Proof.
  intros u s t H. unfold soundex_clean.
  assert (E : forall l, flat_map (to_upper u) (map ascii_up l) = flat_map (to_upper u) l).
  { induction l as [|x l IH]; [reflexivity|]. cbn. now rewrite IH, to_upper_ascii_up. }
  rewrite <- (E (filter _ s)), <- (E (filter _ t)). now rewrite H.
Qed.
Lemma clean_app : forall u a b, soundex_clean u (a ++ b) = soundex_clean u a ++ soundex_clean u b.
Proof. intros. unfold soundex_clean. now rewrite filter_app, flat_map_app. Qed.

Lemma to_upper_nonempty : forall u c, UnicodeOK u -> to_upper u c <> [].
Proof.
  intros u c H. unfold to_upper. destruct (c <? 256).
  - repeat (match goal with |- context[if ?b then _ else _] => destruct b end); discriminate.
  - apply (hi_upper_nonempty u H).
Qed.
Lemma clean_empty : forall u s, UnicodeOK u ->
  (soundex_clean u s = [] <-> forall c, In c s -> is_alphabetic u c = false).
Proof.
  intros u s HU. unfold soundex_clean. induction s as [|c s IH].
  - cbn. split; [intros _ c []|reflexivity].
  - cbn [filter]. destruct (is_alphabetic u c) eqn:E.
    + cbn [flat_map]. split.
      * intros H. apply app_eq_nil in H as [H _]. now apply to_upper_nonempty in H.
      * intros H. rewrite H in E by (now left). discriminate.
    + rewrite IH. split; [intros H x [<-|Hx]; auto | intros H x Hx; apply H; now right].
Qed.

(** ** American Soundex *)
Lemma american_table : forall c, is_ascii_upper c = true ->
  table_digit DEFAULT_US_ENGLISH_MAPPING_SOUNDEX c = american_digit c
  /\ table_transparent DEFAULT_US_ENGLISH_MAPPING_SOUNDEX true c = american_transparent c.
Proof.
  intros c H. apply is_ascii_upper_cases in H. cbn [In] in H.
  repeat (destruct H as [<-|H]; [split; reflexivity|]). destruct H.
Qed.
Lemma soundex_code_ext : forall d1 d2 t1 t2 l, uppers l ->
  (forall c, is_ascii_upper c = true -> d1 c = d2 c /\ t1 c = t2 c) ->
  soundex_code d1 t1 l = soundex_code d2 t2 l.
Proof.
  intros d1 d2 t1 t2 [|f l] HU H; [reflexivity|]. unfold soundex_code, soundex_digits.
  assert (E : map d1 (filter (fun c => negb (t1 c)) l) = map d2 (filter (fun c => negb (t2 c)) l)).
  { assert (HU' : uppers l) by (intros x Hx; apply HU; now right). clear HU.
    induction l as [|x l IH]; [reflexivity|].
    destruct (H x) as [H1 H2]; [apply HU'; now left|]. cbn [filter]. rewrite H2.
    assert (IH' : map d1 (filter (fun c => negb (t1 c)) l) = map d2 (filter (fun c => negb (t2 c)) l))
      by (apply IH; intros y Hy; apply HU'; now right).
    destruct (negb (t2 x)); [|exact IH']. cbn [map]. now rewrite H1, IH'. }
  rewrite E. destruct (H f) as [-> _]; [apply HU; now left|]. reflexivity.
Qed.

Lemma soundex_digits_ext : forall d1 d2 t1 t2 f l, is_ascii_upper f = true -> uppers l ->
  (forall c, is_ascii_upper c = true -> d1 c = d2 c /\ t1 c = t2 c) ->
  soundex_digits d1 t1 f l = soundex_digits d2 t2 f l.
Proof.
  intros d1 d2 t1 t2 f l Hf HU H. unfold soundex_digits.
  assert (E : map d1 (filter (fun c => negb (t1 c)) l) = map d2 (filter (fun c => negb (t2 c)) l)).
  { clear Hf. induction l as [|x l IH]; [reflexivity|].
    destruct (H x) as [H1 H2]; [apply HU; now left|]. cbn [filter]. rewrite H2.
    assert (IH' : map d1 (filter (fun c => negb (t1 c)) l) = map d2 (filter (fun c => negb (t2 c)) l))
      by (apply IH; intros y Hy; apply HU; now right).
    destruct (negb (t2 x)); [|exact IH']. cbn [map]. now rewrite H1, IH'. }
  rewrite E. destruct (H f Hf) as [-> _]. reflexivity.
Qed.
Lemma encode_table : forall u sx s, length (sx_mapping sx) = 26%nat ->
  letters_are_ascii (is_alphabetic u) s ->
  soundex_encode u sx s
  = Ok (soundex_code (table_digit (sx_mapping sx))
          (table_transparent (sx_mapping sx) (sx_special_case_h_w sx)) (ascii_letters s)).
Proof.
  intros u sx s L H. pose proof (clean_ascii u s H) as E.
  pose proof (ascii_letters_uppers s) as HU.
  destruct (ascii_letters s) as [|f p] eqn:El.
  - unfold soundex_encode. rewrite E. reflexivity.
  - apply encode_letters; auto.
    + apply HU. now left.
    + intros x Hx. apply HU. now right.
Qed.
Lemma encode_american : forall u s, letters_are_ascii (is_alphabetic u) s ->
  soundex_encode u soundex_default s = Ok (american_soundex (ascii_letters s)).
Proof.
  intros u s H. rewrite encode_table by (auto; reflexivity). f_equal.
  unfold american_soundex. apply soundex_code_ext; [apply ascii_letters_uppers|].
  intros c Hc. now apply american_table.
Qed.

(** Splitting the cleaned text before its first character outside A-Z. *)
Lemma upper_split : forall l,
  uppers l \/ exists p c r, l = p ++ c :: r /\ uppers p /\ is_ascii_upper c = false.
Proof.
  induction l as [|x l IH]; [left; intros c []|].
  destruct (is_ascii_upper x) eqn:E.
  - destruct IH as [IH|(p & c & r & -> & Hp & Hc)].
    + left. intros c [<-|Hc]; auto.
    + right. exists (x :: p), c, r. repeat split; auto. intros y [<-|Hy]; auto.
  - right. exists [], x, l. repeat split; auto. intros c [].
Qed.

Lemma encode_foreign : forall u sx s p c r, length (sx_mapping sx) = 26%nat ->
  soundex_clean u s = p ++ c :: r -> uppers p -> is_ascii_upper c = false ->
  c <> # "H" -> c <> # "W" ->
  soundex_encode u sx s =
  match p with
  | [] => Panic
  | f :: q =>
      if Nat.leb 3 (length (soundex_digits (table_digit (sx_mapping sx))
             (table_transparent (sx_mapping sx) (sx_special_case_h_w sx)) f q))
      then Ok (soundex_code (table_digit (sx_mapping sx))
             (table_transparent (sx_mapping sx) (sx_special_case_h_w sx)) (f :: q))
      else Panic
  end.
Proof.
  intros u sx s p c r L E Hp Hc H1 H2. unfold soundex_encode. rewrite E.
  destruct p as [|f q]; cbn [app].
  - now rewrite get_mapping_not_upper.
  - assert (Hf : is_ascii_upper f = true) by (apply Hp; now left).
    assert (Hq : uppers q) by (intros x Hx; apply Hp; now right).
    rewrite (get_mapping_upper _ _ L Hf). cbn [bind]. rewrite loop_app by (auto; lia).
    unfold soundex_code.
    change (emit sx (table_digit (sx_mapping sx) f) q) with
     (soundex_digits (table_digit (sx_mapping sx))
          (table_transparent (sx_mapping sx) (sx_special_case_h_w sx)) f q).
    set (ds := soundex_digits _ _ f q).
    change (Nat.leb 4 (1 + length ds)) with (Nat.leb 3 (length ds)).
    destruct (Nat.leb 3 (length ds)) eqn:E3.
    + cbn [bind]. apply Nat.leb_le in E3. rewrite pad_to_alt, (app_nil_r (rev _)), rev_involutive.
      replace (3 - length ds)%nat with 0%nat by lia. reflexivity.
    + apply Nat.leb_gt in E3. cbn [soundex_loop].
      replace (Nat.ltb (1 + length ds) 4) with true by (symmetry; apply Nat.ltb_lt; lia).
      replace (c =? 72) with false by (symmetry; now apply N.eqb_neq).
      replace (c =? 87) with false by (symmetry; now apply N.eqb_neq).
      rewrite andb_false_r, get_mapping_not_upper by auto. reflexivity.
Qed.

Lemma not_upper_not_hw : forall c, is_ascii_upper c = false -> c <> # "H" /\ c <> # "W".
Proof. intros c H. split; intros ->; discriminate. Qed.

(** Whatever is returned is the code of a prefix of the cleaned text. *)
Lemma encode_ok_prefix : forall u sx s r, length (sx_mapping sx) = 26%nat ->
  soundex_encode u sx s = Ok r ->
  exists p t, soundex_clean u s = p ++ t /\ uppers p /\ (p = [] -> t = []) /\
    r = soundex_code (table_digit (sx_mapping sx))
          (table_transparent (sx_mapping sx) (sx_special_case_h_w sx)) p.
Proof.
  intros u sx s r L H. destruct (upper_split (soundex_clean u s)) as [HU|(p & c & t & E & Hp & Hc)].
  - exists (soundex_clean u s), []. rewrite app_nil_r. repeat split; auto.
    destruct (soundex_clean u s) as [|f q] eqn:E.
    + unfold soundex_encode in H. rewrite E in H. now injection H as <-.
    + rewrite (encode_letters sx L u s f q) in H; auto.
      * now injection H as <-.
      * apply HU. now left.
      * intros x Hx. apply HU. now right.
  - destruct (not_upper_not_hw c Hc) as [H1 H2].
    rewrite (encode_foreign u sx s p c t) in H by auto.
    destruct p as [|f q]; [discriminate|].
    destruct (Nat.leb 3 _); [|discriminate]. injection H as <-.
    exists (f :: q), (c :: t). repeat split; auto. discriminate.
Qed.

(** ** RefinedSoundex *)
Lemma refined_loop_spec : forall m l prev, length m = 26%nat -> uppers l ->
  refined_loop m prev l
  = Ok (match prev with
        | None => collapse (map (table_digit m) l)
        | Some d => tl (collapse (d :: map (table_digit m) l))
        end).
Proof.
  intros m l. induction l as [|c l IH]; intros prev L HU; cbn [refined_loop map].
  - destruct prev; reflexivity.
  - rewrite (get_mapping_upper m c L) by (apply HU; now left). cbn [bind].
    rewrite IH by (auto; intros x Hx; apply HU; now right). cbn [bind]. f_equal.
    destruct prev as [d|]; cbn [opt_is].
    + rewrite tl_collapse. destruct (d =? table_digit m c); reflexivity.
    + symmetry. apply collapse_cons.
Qed.
Lemma refined_letters : forall u m s, length m = 26%nat -> uppers (soundex_clean u s) ->
  refined_encode u m s = Ok (refined_code (table_digit m) (soundex_clean u s)).
Proof.
  intros u m s L HU. unfold refined_encode. destruct (soundex_clean u s) as [|c l] eqn:E; [reflexivity|].
  rewrite refined_loop_spec by auto. reflexivity.
Qed.
Lemma refined_loop_foreign : forall m l prev, length m = 26%nat ->
  (exists c, In c l /\ is_ascii_upper c = false) -> refined_loop m prev l = Panic.
Proof.
  intros m l. induction l as [|x l IH]; intros prev L (c & Hc & Hn); [destruct Hc|].
  cbn [refined_loop]. destruct (is_ascii_upper x) eqn:E.
  - rewrite get_mapping_upper by auto. cbn [bind]. rewrite IH; auto.
    destruct Hc as [<-|Hc]; [congruence|]. eauto.
  - now rewrite get_mapping_not_upper.
Qed.
Lemma refined_panics_iff : forall u m s, length m = 26%nat ->
  (refined_encode u m s = Panic <-> exists c, In c (soundex_clean u s) /\ is_ascii_upper c = false).
Proof.
  intros u m s L. destruct (upper_split (soundex_clean u s)) as [HU|(p & c & t & E & Hp & Hc)].
  - rewrite refined_letters by auto. split; [discriminate|]. intros (c & Hc & Hn).
    rewrite HU in Hn by auto. discriminate.
  - assert (Hex : exists c, In c (soundex_clean u s) /\ is_ascii_upper c = false).
    { exists c. split; auto. rewrite E. apply in_or_app. right. now left. }
    split; [auto|]. intros _. unfold refined_encode.
    destruct (soundex_clean u s) as [|d l] eqn:E'; [destruct p; discriminate|].
    now rewrite refined_loop_foreign.
Qed.
Lemma refined_table : forall c, is_ascii_upper c = true ->
  table_digit ENGLISH_MAPPING c = refined_digit c.
Proof.
  intros c H. apply is_ascii_upper_cases in H. cbn [In] in H.
  repeat (destruct H as [<-|H]; [reflexivity|]). destruct H.
Qed.
Lemma refined_english : forall u s, letters_are_ascii (is_alphabetic u) s ->
  refined_encode u ENGLISH_MAPPING s = Ok (refined_code refined_digit (ascii_letters s)).
Proof.
  intros u s H. rewrite refined_letters; [|reflexivity|].
  - rewrite clean_ascii by auto. f_equal. pose proof (ascii_letters_uppers s) as HU.
    destruct (ascii_letters s) as [|c l]; [reflexivity|]. unfold refined_code. do 2 f_equal.
    apply map_ext_in. intros x Hx. now apply refined_table, HU.
  - rewrite clean_ascii by auto. apply ascii_letters_uppers.
Qed.
