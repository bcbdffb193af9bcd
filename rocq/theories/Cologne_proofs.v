(** * Proofs about Cologne. *)
From Verif Require Import Base UnicodeM Lib Cologne BaseLemmas Spec_common Spec_cologne Soundex_proofs.
Local Open Scope N_scope.

Lemma upper_isin : forall c, is_ascii_upper c = isin c $ "ABCDEFGHIJKLMNOPQRSTUVWXYZ".
Proof.
  intros c. destruct (is_ascii_upper c) eqn:E.
  - symmetry. now apply isin_In, is_ascii_upper_cases.
  - symmetry. apply isin_false. intros H. cbn [In] in H.
    repeat (destruct H as [<-|H]; [discriminate|]). destruct H.
Qed.

(** ** Preparation *)
Lemma replace1_map : forall a b s, replace [a] [b] s = map (fun c => if c =? a then b else c) s.
Proof.
  intros a b s. unfold replace. induction s as [|c s IH]; [reflexivity|].
  cbn [replace_aux map]. unfold starts_with. cbn [strip_prefix]. rewrite (N.eqb_sym a c).
  destruct (c =? a); cbn [length Nat.sub app]; now rewrite IH.
Qed.
Definition fold_upper (c : N) : N :=
  if c =? # "Ä" then # "A" else if c =? # "Ö" then # "O" else if c =? # "Ü" then # "U" else c.
Lemma prepare_map : forall u s, cologne_prepare u s = map fold_upper (str_upper u s).
Proof.
  intros u s. unfold cologne_prepare. rewrite !replace1_map, !map_map. apply map_ext.
  intros c. unfold fold_upper.
  destruct (c =? 196) eqn:E1; [reflexivity|].
  destruct (c =? 220) eqn:E2.
  - apply N.eqb_eq in E2. subst. reflexivity.
  - destruct (c =? 214); reflexivity.
Qed.

(** ** The loop as a list of pushes *)
Definition pushes (o : CologneOutput) (l : ustr) : CologneOutput := fold_left co_push l o.
Lemma pushes_app : forall o a b, pushes o (a ++ b) = pushes (pushes o a) b.
Proof. intros. apply fold_left_app. Qed.

Lemma collapse_snoc : forall l x,
  collapse (l ++ [x]) = if opt_is (hd_error (rev l)) x then collapse l else collapse l ++ [x].
Proof.
  induction l as [|y l IH]; intros x; [reflexivity|].
  destruct l as [|z l].
  - cbn [app rev hd_error opt_is]. cbn. destruct (y =? x) eqn:E; [|reflexivity].
    apply N.eqb_eq in E. now subst.
  - assert (Hhd : hd_error (rev (y :: z :: l)) = hd_error (rev (z :: l))).
    { cbn [rev]. destruct (rev l); reflexivity. }
    rewrite Hhd. cbn [app].
    change (collapse (y :: z :: l ++ [x]))
      with (if y =? z then collapse ((z :: l) ++ [x]) else y :: collapse ((z :: l) ++ [x])).
    rewrite IH. change (collapse (y :: z :: l)) with (if y =? z then collapse (z :: l) else y :: collapse (z :: l)).
    destruct (opt_is _ x); destruct (y =? z); reflexivity.
Qed.
Lemma reduce_snoc : forall l x,
  cologne_reduce (l ++ [x])
  = if negb (x =? # "-") && negb (opt_is (hd_error (rev l)) x)
       && (negb (x =? # "0") || match cologne_reduce l with [] => true | _ => false end)
    then cologne_reduce l ++ [x] else cologne_reduce l.
Proof.
  intros l x. unfold cologne_reduce. rewrite collapse_snoc.
  destruct (opt_is (hd_error (rev l)) x).
  - rewrite andb_false_r. reflexivity.
  - rewrite filter_app. cbn [filter]. destruct (x =? 45) eqn:E.
    + cbn [negb]. rewrite app_nil_r. reflexivity.
    + cbn [negb andb]. destruct (filter _ (collapse l)) as [|d ds]; cbn [app].
      * rewrite orb_true_r. reflexivity.
      * rewrite orb_false_r, filter_app. cbn [filter]. destruct (negb (x =? 48)); [reflexivity|].
        now rewrite app_nil_r.
Qed.
Definition co_of (l : ustr) : CologneOutput :=
  {| co_last := match hd_error (rev l) with Some c => c | None => # "/" end;
     co_rev_buffer := rev (cologne_reduce l) |}.
Lemma push_of : forall l x, x <> # "/" -> co_push (co_of l) x = co_of (l ++ [x]).
Proof.
  intros l x Hx. unfold co_push, co_of, co_is_empty. cbn [co_last co_rev_buffer].
  rewrite rev_app_distr. cbn [rev app hd_error]. f_equal. rewrite reduce_snoc.
  unfold CHAR_IGNORE.
  assert (E : opt_is (hd_error (rev l)) x
     = ((match hd_error (rev l) with Some c => c | None => # "/" end) =? x)).
  { destruct (hd_error (rev l)); cbn [opt_is]; [reflexivity|]. symmetry. apply N.eqb_neq. congruence. }
  rewrite <- E.
  assert (E2 : match rev (cologne_reduce l) with [] => true | _ => false end
             = match cologne_reduce l with [] => true | _ => false end).
  { destruct (cologne_reduce l) as [|d ds]; [reflexivity|]. cbn [rev].
    destruct (rev ds); reflexivity. }
  rewrite E2. destruct (_ && _ && _); [now rewrite rev_app_distr|reflexivity].
Qed.
Lemma co_of_nil : co_of [] = co_new.
Proof. reflexivity. Qed.
Lemma pushes_of : forall m l, ~ In (# "/") m -> pushes (co_of l) m = co_of (l ++ m).
Proof.
  induction m as [|x m IH]; intros l H; [now rewrite app_nil_r|].
  cbn [pushes fold_left]. rewrite push_of by (intros ->; apply H; now left).
  fold (pushes (co_of (l ++ [x])) m). rewrite IH by (intros K; apply H; now right).
  now rewrite <- app_assoc.
Qed.

(** One step pushes the table's codes. *)
Definition next_of (r : ustr) : N := hd CHAR_IGNORE r.
Definition prev_of (before : ustr) : N := hd CHAR_IGNORE before.

Lemma one_of_hd : forall r l, ~ In (# "-") l -> isin (hd CHAR_IGNORE r) l = one_of (hd_error r) l.
Proof.
  intros [|c r] l H; cbn [hd hd_error one_of]; [|reflexivity]. now apply isin_false.
Qed.

Lemma step_pushes : forall o before c r onset,
  isin c $ "ABCDEFGHIJKLMNOPQRSTUVWXYZ" = true ->
  co_is_empty o = onset ->
  cologne_step o (hd CHAR_IGNORE before) c (hd CHAR_IGNORE r)
  = pushes o (cologne_table onset (hd_error before) (hd_error r) c).
Proof.
  intros o before c r onset Hc <-.
  assert (K : forall l, ~ In (# "-") l -> isin (hd CHAR_IGNORE r) l = one_of (hd_error r) l)
    by (intros; now apply one_of_hd).
  assert (K' : forall l, ~ In (# "-") l -> isin (hd CHAR_IGNORE before) l = one_of (hd_error before) l)
    by (intros; now apply one_of_hd).
  unfold cologne_step, cologne_table.
  replace (hd CHAR_IGNORE r =? 72) with (isin (hd CHAR_IGNORE r) [72])
    by (unfold isin; cbn [existsb]; now rewrite orb_false_r).
  unfold AEIJOUY, CSZ, FPVW, GKQ, CKQ, AHKLOQRUX, SZ, AHKOQUX, DTX.
  rewrite !K, !K' by (vm_compute; intuition discriminate).
  apply isin_In in Hc. cbn [In] in Hc.
  repeat (destruct Hc as [<-|Hc];
    [cbn;
     repeat (match goal with |- context[if ?b then _ else _] =>
               match b with context[if _ then _ else _] => fail 1 | _ => destruct b eqn:? end end);
     cbn in *; try reflexivity; try discriminate |]).
  destruct Hc.
Qed.

(** The buffer is empty exactly while only H has been seen. *)
Lemma table_no_slash : forall onset prev next c, ~ In (# "/") (cologne_table onset prev next c).
Proof.
  intros onset prev next c. unfold cologne_table.
  repeat (match goal with |- context[if ?b then _ else _] => destruct b end);
  cbn; intuition discriminate.
Qed.
Lemma table_H : forall onset prev next, cologne_table onset prev next (# "H") = $ "-".
Proof. intros [] prev next; reflexivity. Qed.
Lemma table_not_H : forall onset prev next c, isin c $ "ABCDEFGHIJKLMNOPQRSTUVWXYZ" = true ->
  c <> # "H" -> exists d ds, cologne_table onset prev next c = d :: ds /\ d <> # "-" /\ ~ In (# "-") ds.
Proof.
  intros onset prev next c Hc Hn. unfold cologne_table.
  repeat (match goal with |- context[if ?b then _ else _] => destruct b eqn:? end);
    try (do 2 eexists; split; [reflexivity|]; split; [discriminate|cbn; intuition discriminate]).
  exfalso. apply Hn. apply isin_In in Hc. cbn [In] in Hc.
  repeat (destruct Hc as [<-|Hc]; [first [reflexivity | discriminate]|]). destruct Hc.
Qed.
Lemma reduce_nil_iff : forall l, cologne_reduce l = [] <-> forall c, In c l -> c = # "-".
Proof.
  intros l. unfold cologne_reduce. split.
  - destruct (filter _ (collapse l)) as [|d ds] eqn:E; [|discriminate]. intros _ c Hc.
    destruct (N.eq_dec c 45) as [|Hn]; [assumption|]. exfalso.
    assert (HI : forall m x, In x m -> In x (collapse m)).
    { induction m as [|y m IH]; intros x Hx; [destruct Hx|]. destruct m as [|z m]; [exact Hx|].
      change (collapse (y :: z :: m)) with (if y =? z then collapse (z :: m) else y :: collapse (z :: m)).
      destruct (y =? z) eqn:Eyz.
      - apply N.eqb_eq in Eyz. subst z. apply IH. destruct Hx as [<-|Hx]; [now left|exact Hx].
      - destruct Hx as [<-|Hx]; [now left|right; now apply IH]. }
    assert (In c (filter (fun d => negb (d =? 45)) (collapse l))).
    { apply filter_In. split; [now apply HI|]. apply negb_true_iff. now apply N.eqb_neq. }
    rewrite E in H. destruct H.
  - intros H. destruct (filter _ (collapse l)) as [|d ds] eqn:E; [reflexivity|].
    assert (In d (filter (fun d => negb (d =? 45)) (collapse l))) by (rewrite E; now left).
    apply filter_In in H0 as [H0 H1]. apply collapse_incl, H in H0. subst d. discriminate.
Qed.

Lemma loop_spec : forall text before codes,
  (cologne_reduce codes = [] <-> forallb (fun l => l =? # "H") before = true) ->
  cologne_loop (co_of codes) (hd CHAR_IGNORE before) text = co_of (codes ++ cologne_codes before text).
Proof.
  induction text as [|c r IH]; intros before codes Hinv.
  - cbn [cologne_loop cologne_codes]. now rewrite app_nil_r.
  - cbn [cologne_loop cologne_codes]. rewrite upper_isin.
    destruct (isin c $ "ABCDEFGHIJKLMNOPQRSTUVWXYZ") eqn:Ec; cbn [negb]; [|now apply IH].
    rewrite (step_pushes _ before c r (forallb (fun l => l =? # "H") before) Ec).
    2:{ unfold co_is_empty, co_of. cbn [co_rev_buffer]. destruct (cologne_reduce codes) as [|d ds] eqn:E.
        - symmetry. now apply Hinv.
        - destruct (forallb _ before) eqn:E2; [discriminate (proj2 Hinv eq_refl)|].
          cbn [rev]. destruct (rev ds); reflexivity. }
    rewrite pushes_of by apply table_no_slash.
    change c with (hd CHAR_IGNORE (c :: before)) at 2.
    rewrite IH; [now rewrite <- app_assoc|].
    cbn [forallb]. rewrite reduce_nil_iff. destruct (N.eq_dec c 72) as [->|Hn].
    + rewrite N.eqb_refl, table_H. cbn [andb]. rewrite <- Hinv, reduce_nil_iff. split.
      * intros H x Hx. apply H, in_or_app. now left.
      * intros H x Hx. apply in_app_or in Hx as [Hx|[<-|[]]]; auto.
    + replace (c =? 72) with false by (symmetry; now apply N.eqb_neq). cbn [andb].
      split; [|discriminate]. intros H. exfalso.
      destruct (table_not_H (forallb (fun l => l =? 72) before) (hd_error before) (hd_error r) c Ec Hn)
        as (d & ds & E & Hd & _). apply Hd. apply H. rewrite E. apply in_or_app. right. now left.
Qed.

Lemma encode_codes : forall u s,
  cologne_encode u s = Ok (cologne_reduce (cologne_codes [] (map fold_upper (str_upper u s)))).
Proof.
  intros u s. unfold cologne_encode. rewrite prepare_map. f_equal.
  change co_new with (co_of []). change CHAR_IGNORE with (hd CHAR_IGNORE []).
  rewrite loop_spec by (cbn; tauto). cbn [app co_of co_rev_buffer]. now rewrite rev_involutive.
Qed.

(** The lowercase umlauts of [umlaut_base] only ever fold to lowercase letters,
    which carry no code and stop no rule. *)
Lemma codes_lower : forall text before,
  cologne_codes before (map fold_upper text) = cologne_codes before (map umlaut_base text).
Proof.
  assert (Hu : forall c, isin c $ "ABCDEFGHIJKLMNOPQRSTUVWXYZ" = true -> fold_upper c = c /\ umlaut_base c = c).
  { intros c Hc. apply isin_In in Hc. cbn [In] in Hc.
    repeat (destruct Hc as [<-|Hc]; [split; reflexivity|]). destruct Hc. }
  assert (Hd : forall c, fold_upper c = umlaut_base c
     \/ (isin (fold_upper c) $ "ABCDEFGHIJKLMNOPQRSTUVWXYZ" = false /\
         isin (umlaut_base c) $ "ABCDEFGHIJKLMNOPQRSTUVWXYZ" = false)).
  { intros c. unfold fold_upper, umlaut_base.
    destruct (c =? 196) eqn:E1; [now left|].
    destruct (c =? 214) eqn:E2; [now left|].
    destruct (c =? 220) eqn:E3; [now left|].
    destruct (c =? 228) eqn:E4; [apply N.eqb_eq in E4; subst; right; split; reflexivity|].
    destruct (c =? 246) eqn:E5; [apply N.eqb_eq in E5; subst; right; split; reflexivity|].
    destruct (c =? 252) eqn:E6; [apply N.eqb_eq in E6; subst; right; split; reflexivity|].
    now left. }
  assert (Hone : forall text l, (forall x, In x l -> isin x $ "ABCDEFGHIJKLMNOPQRSTUVWXYZ" = true) ->
     one_of (hd_error (map fold_upper text)) l = one_of (hd_error (map umlaut_base text)) l).
  { intros [|c t] l Hl; [reflexivity|]. cbn [map hd_error one_of]. destruct (Hd c) as [->|[H1 H2]]; [reflexivity|].
    assert (Hno : forall x, isin x $ "ABCDEFGHIJKLMNOPQRSTUVWXYZ" = false -> isin x l = false).
    { intros x Hx. apply isin_false. intros Hin. rewrite Hl in Hx by assumption. discriminate. }
    now rewrite (Hno _ H1), (Hno _ H2). }
  assert (Htab : forall onset prev text c,
     cologne_table onset prev (hd_error (map fold_upper text)) c
     = cologne_table onset prev (hd_error (map umlaut_base text)) c).
  { intros onset prev text c. unfold cologne_table.
    rewrite !(Hone text); [reflexivity|..];
      intros x Hx; cbn [In] in Hx;
      repeat (destruct Hx as [<-|Hx]; [reflexivity|]); destruct Hx. }
  induction text as [|c r IH]; intros before; [reflexivity|].
  cbn [map cologne_codes]. destruct (Hd c) as [E|[H1 H2]].
  - rewrite <- E. rewrite Htab, !IH. reflexivity.
  - rewrite H1, H2. apply IH.
Qed.

Lemma encode_spec : forall u s, cologne_encode u s = Ok (cologne_code (str_upper u s)).
Proof. intros u s. rewrite encode_codes. unfold cologne_code. now rewrite codes_lower. Qed.

(** ** Shape of the code *)
Lemma codes_chars : forall text before c, In c (cologne_codes before text) ->
  c = # "-" \/ # "0" <= c <= # "8".
Proof.
  assert (T : forall onset prev next x c, In c (cologne_table onset prev next x) ->
     c = # "-" \/ # "0" <= c <= # "8").
  { intros onset prev next x c. unfold cologne_table.
    repeat (match goal with |- context[if ?b then _ else _] => destruct b end);
    cbn [In]; intros H; repeat (destruct H as [<-|H]; [first [left; reflexivity | right; split; discriminate]|]);
    destruct H. }
  induction text as [|x r IH]; intros before c H; [destruct H|].
  cbn [cologne_codes] in H. destruct (isin x _); [|eauto].
  apply in_app_or in H as [H|H]; eauto.
Qed.
Lemma codes_length : forall text before,
  (length (cologne_codes before text)
   <= 2 * length (filter (fun c => isin c $ "ABCDEFGHIJKLMNOPQRSTUVWXYZ") text))%nat.
Proof.
  assert (T : forall onset prev next x, (length (cologne_table onset prev next x) <= 2)%nat).
  { intros onset prev next x. unfold cologne_table.
    repeat (match goal with |- context[if ?b then _ else _] => destruct b end); cbn; lia. }
  induction text as [|x r IH]; intros before; [cbn; lia|].
  cbn [cologne_codes filter]. destruct (isin x _); [|apply IH].
  rewrite app_length. cbn [length]. specialize (IH (x :: before)).
  specialize (T (forallb (fun l => l =? # "H") before) (hd_error before) (hd_error r) x). lia.
Qed.
Lemma reduce_incl : forall l c, In c (cologne_reduce l) -> In c l /\ c <> # "-".
Proof.
  intros l c H. unfold cologne_reduce in H.
  destruct (filter _ (collapse l)) as [|d ds] eqn:E; [destruct H|].
  assert (K : In c (d :: ds)).
  { destruct H as [<-|H]; [now left|]. right. now apply filter_In in H. }
  rewrite <- E in K. apply filter_In in K as [K1 K2]. split; [now apply collapse_incl|].
  apply negb_true_iff in K2. now apply N.eqb_neq.
Qed.
Lemma filter_length_le : forall A (f : A -> bool) l, (length (filter f l) <= length l)%nat.
Proof. intros A f l. induction l as [|x l IH]; cbn; [lia|]. destruct (f x); cbn; lia. Qed.
Lemma reduce_length : forall l, (length (cologne_reduce l) <= length l)%nat.
Proof.
  intros l. unfold cologne_reduce. pose proof (collapse_length l).
  pose proof (filter_length_le _ (fun d => negb (d =? 45)) (collapse l)).
  destruct (filter _ (collapse l)) as [|d ds]; cbn [length] in *; [lia|].
  pose proof (filter_length_le _ (fun d => negb (d =? 48)) ds). lia.
Qed.
Lemma reduce_tail_no_zero : forall l c, In c (tl (cologne_reduce l)) -> c <> # "0".
Proof.
  intros l c H. unfold cologne_reduce in H.
  destruct (filter _ (collapse l)) as [|d ds]; [destruct H|]. cbn [tl] in H.
  apply filter_In in H as [_ H]. apply negb_true_iff in H. now apply N.eqb_neq.
Qed.

(** ** Invariances *)
Lemma str_upper_ascii_up : forall u s, str_upper u (map ascii_up s) = str_upper u s.
Proof.
  intros u s. unfold str_upper. induction s as [|c s IH]; [reflexivity|]. cbn.
  now rewrite IH, to_upper_ascii_up.
Qed.
Lemma str_upper_app : forall u a b, str_upper u (a ++ b) = str_upper u a ++ str_upper u b.
Proof. intros. apply flat_map_app. Qed.
Lemma upper_umlaut : forall u s,
  map fold_upper (str_upper u (map umlaut_base s)) = map fold_upper (str_upper u s).
Proof.
  intros u s. induction s as [|c s IH]; [reflexivity|].
  unfold str_upper in *. cbn [map flat_map]. rewrite !map_app. f_equal; [|exact IH].
  unfold umlaut_base.
  repeat (match goal with |- context[if c =? ?k then _ else _] =>
     let E := fresh in destruct (c =? k) eqn:E; [apply N.eqb_eq in E; subst c; reflexivity|] end).
  reflexivity.
Qed.

Lemma codes_before : forall text b1 b2,
  forallb (fun l => l =? # "H") b1 = forallb (fun l => l =? # "H") b2 ->
  hd_error b1 = hd_error b2 -> cologne_codes b1 text = cologne_codes b2 text.
Proof.
  induction text as [|c r IH]; intros b1 b2 H1 H2; [reflexivity|]. cbn [cologne_codes].
  rewrite H1, H2. destruct (isin c _); [|now apply IH]. f_equal. apply IH; [|reflexivity].
  cbn [forallb]. now rewrite H1.
Qed.
Fixpoint before_after (before text : ustr) : ustr :=
  match text with
  | [] => before
  | c :: r => before_after (if isin c $ "ABCDEFGHIJKLMNOPQRSTUVWXYZ" then c :: before else before) r
  end.
(** Codes of a concatenation: only the first character of the second part
    influences the codes of the first. *)
Fixpoint codes_with_next (before text : ustr) (next : option N) : ustr :=
  match text with
  | [] => []
  | c :: rest =>
      if isin c $ "ABCDEFGHIJKLMNOPQRSTUVWXYZ"
      then cologne_table (forallb (fun l => l =? # "H") before) (hd_error before)
             (match rest with [] => next | x :: _ => Some x end) c
             ++ codes_with_next (c :: before) rest next
      else codes_with_next before rest next
  end.
Lemma codes_split : forall a b before,
  cologne_codes before (a ++ b)
  = codes_with_next before a (hd_error b) ++ cologne_codes (before_after before a) b.
Proof.
  induction a as [|c a IH]; intros b before; [reflexivity|].
  cbn [app cologne_codes codes_with_next before_after].
  destruct (isin c $ "ABCDEFGHIJKLMNOPQRSTUVWXYZ") eqn:E; [|apply IH].
  rewrite IH, app_assoc. do 2 f_equal. f_equal. destruct a; reflexivity.
Qed.
Lemma codes_with_next_letter : forall text before n1 n2,
  (forall x, n1 = Some x -> isin x $ "ABCDEFGHIJKLMNOPQRSTUVWXYZ" = false) ->
  (forall x, n2 = Some x -> isin x $ "ABCDEFGHIJKLMNOPQRSTUVWXYZ" = false) ->
  codes_with_next before text n1 = codes_with_next before text n2.
Proof.
  assert (Hone : forall n l, (forall x, In x l -> isin x $ "ABCDEFGHIJKLMNOPQRSTUVWXYZ" = true) ->
     (forall x, n = Some x -> isin x $ "ABCDEFGHIJKLMNOPQRSTUVWXYZ" = false) -> one_of n l = false).
  { intros [x|] l Hl Hn; [|reflexivity]. cbn [one_of]. apply isin_false. intros Hin.
    specialize (Hn x eq_refl). rewrite (Hl x Hin) in Hn. discriminate. }
  induction text as [|c r IH]; intros before n1 n2 H1 H2; [reflexivity|].
  cbn [codes_with_next]. destruct (isin c _); [|now apply IH].
  rewrite (IH _ n1 n2 H1 H2). f_equal. destruct r as [|x r]; [|reflexivity].
  unfold cologne_table.
  rewrite !(Hone n1), !(Hone n2); try assumption; try reflexivity;
      intros x Hx; cbn [In] in Hx;
      repeat (destruct Hx as [<-|Hx]; [reflexivity|]); destruct Hx.
Qed.
Lemma collapse_dup : forall a x b, collapse (a ++ x :: x :: b) = collapse (a ++ x :: b).
Proof.
  induction a as [|y a IH]; intros x b.
  - cbn [app]. change (collapse (x :: x :: b)) with (if x =? x then collapse (x :: b) else x :: collapse (x :: b)).
    now rewrite N.eqb_refl.
  - destruct a as [|z a].
    + cbn [app]. change (collapse (y :: x :: x :: b))
        with (if y =? x then collapse ([] ++ x :: x :: b) else y :: collapse ([] ++ x :: x :: b)).
      now rewrite (IH x b).
    + cbn [app]. change (collapse (y :: z :: a ++ x :: x :: b))
        with (if y =? z then collapse ((z :: a) ++ x :: x :: b) else y :: collapse ((z :: a) ++ x :: x :: b)).
      now rewrite (IH x b).
Qed.
Lemma codes_SS : forall before b,
  cologne_codes before (# "S" :: # "S" :: b) = # "8" :: cologne_codes before (# "S" :: b).
Proof.
  intros before b.
  change (cologne_codes before (83 :: 83 :: b))
    with (56 :: 56 :: cologne_codes (83 :: 83 :: before) b).
  change (cologne_codes before (83 :: b)) with (56 :: cologne_codes (83 :: before) b).
  do 2 f_equal. apply codes_before; [|reflexivity]. reflexivity.
Qed.
Lemma encode_sharp_s : forall u a b,
  cologne_encode u (a ++ # "ß" :: b) = cologne_encode u (a ++ # "s" :: b).
Proof.
  intros u a b. rewrite !encode_codes. f_equal.
  change (# "ß" :: b) with ([ # "ß" ] ++ b). change (# "s" :: b) with ([ # "s" ] ++ b).
  rewrite !str_upper_app, !map_app.
  change (map fold_upper (str_upper u [ # "ß" ])) with [ # "S" ; # "S" ].
  change (map fold_upper (str_upper u [ # "s" ])) with [ # "S" ]. cbn [app].
  set (A := map fold_upper (str_upper u a)). set (B := map fold_upper (str_upper u b)).
  unfold cologne_reduce.
  assert (E : collapse (cologne_codes [] (A ++ 83 :: 83 :: B)) = collapse (cologne_codes [] (A ++ 83 :: B))).
  { rewrite !codes_split. cbn [hd_error]. rewrite codes_SS.
    change (cologne_codes (before_after [] A) (83 :: B)) with (56 :: cologne_codes (83 :: before_after [] A) B).
    apply collapse_dup. }
  now rewrite E.
Qed.

(** A character outside A-Z after uppercasing, beside another such character or
    at either end of the text, is ignored. *)
Lemma codes_nonletter : forall A n B before,
  isin n $ "ABCDEFGHIJKLMNOPQRSTUVWXYZ" = false ->
  A = [] \/ match B with [] => True | x :: _ => isin x $ "ABCDEFGHIJKLMNOPQRSTUVWXYZ" = false end ->
  cologne_codes before (A ++ n :: B) = cologne_codes before (A ++ B).
Proof.
  intros A n B before Hn H. rewrite !codes_split.
  replace (cologne_codes (before_after before A) (n :: B))
     with (cologne_codes (before_after before A) B) by (cbn [cologne_codes]; now rewrite Hn).
  f_equal. destruct H as [->|H]; [reflexivity|]. apply codes_with_next_letter.
  - intros x E. injection E as <-. exact Hn.
  - intros x E. destruct B as [|y B]; [discriminate|]. injection E as <-. exact H.
Qed.
