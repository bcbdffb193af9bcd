(** * Proofs about the serialised forms. *)
From Verif Require Import Base BaseLemmas UnicodeM Lib Helper Soundex BmLanguages Api Serde Spec_serde.
Local Open Scope N_scope.

Lemma values_of_nil : forall name l, values_of name l = [] <-> no_member l name.
Proof.
  intros name. unfold no_member. induction l as [|[k v] l IH]; cbn [values_of map fst In]; [intuition|].
  destruct (seq_eqb k name) eqn:E.
  - apply seq_eqb_eq in E. subst k. split; [discriminate|]. intros H. elim H. now left.
  - apply seq_eqb_neq in E. rewrite IH. intuition.
Qed.
Lemma values_of_app : forall name a b, values_of name (a ++ b) = values_of name a ++ values_of name b.
Proof.
  intros name. induction a as [|[k v] a IH]; intros b; [reflexivity|]. cbn [app values_of]. destruct (seq_eqb k name); [|apply IH].
  cbn [app]. now rewrite IH.
Qed.
Lemma values_of_one : forall name l v, values_of name l = [v] <-> one_member l name v.
Proof.
  intros name l v. split.
  - induction l as [|[k w] l IH]; cbn [values_of]; [discriminate|]. destruct (seq_eqb k name) eqn:E.
    + apply seq_eqb_eq in E. subst k. intros H. injection H as -> H. exists [], l. split; [reflexivity|]. split; [intros []|].
      now apply values_of_nil.
    + apply seq_eqb_neq in E. intros H. destruct (IH H) as (a & b & -> & A & B). exists ((k, w) :: a), b. split; [reflexivity|]. split; [|assumption].
      cbn [map fst In]. intuition.
  - intros (a & b & -> & A & B). rewrite values_of_app. cbn [values_of]. rewrite seq_eqb_refl.
    rewrite (proj2 (values_of_nil name a)) by exact A. rewrite (proj2 (values_of_nil name b)) by exact B. reflexivity.
Qed.

Definition rd {A} (f : json -> option A) (missing : option A) (v : option json) : option A :=
  match v with Some x => f x | None => missing end.
Definition slot (l : list (ustr * json)) (n : ustr) (v : option json) : Prop :=
  match v with Some x => one_member l n x | None => no_member l n end.
Lemma field_spec : forall (A : Type) (f : json -> option A) missing name l a,
  field f missing name l = Some a <-> exists v, slot l name v /\ rd f missing v = Some a.
Proof.
  intros A f missing name l a. unfold field. split.
  - destruct (values_of name l) as [|v [|w r]] eqn:E; intros H; [| |discriminate].
    + exists None. split; [now apply values_of_nil|exact H].
    + exists (Some v). split; [now apply values_of_one|exact H].
  - intros ([v|] & S & R); cbn [slot rd] in *.
    + apply values_of_one in S. now rewrite S.
    + apply values_of_nil in S. now rewrite S.
Qed.
Lemma obind_some : forall A B (o : option A) (f : A -> option B) y, obind o f = Some y <-> exists x, o = Some x /\ f x = Some y.
Proof. intros A B [x|] f y; cbn; split; [eauto|intros (z & E & F); now injection E as <-|discriminate|intros (z & E & _); discriminate]. Qed.

Lemma gives_obj : forall l names values, gives (JObj l) names values <-> Forall2 (slot l) names values.
Proof.
  intros l names values. split.
  - intros [(m & E & F)|(m & E & _)]; [injection E as <-; exact F|discriminate].
  - intros F. left. exists l. split; [reflexivity|exact F].
Qed.
Lemma gives_arr : forall l names values, gives (JArr l) names values <-> length l = length names /\ values = map Some l.
Proof.
  intros l names values. split.
  - intros [(m & E & F)|(m & E & F)]; [discriminate|injection E as <-; exact F].
  - intros F. right. exists l. split; [reflexivity|exact F].
Qed.
Lemma gives_shape : forall j names values, gives j names values -> exists l, j = JObj l \/ exists m, j = JArr m.
Proof. intros j names values [(l & -> & _)|(l & -> & _)]; [exists l; now left|exists []; right; now exists l]. Qed.

Lemma struct1_spec : forall A X n1 f1 m1 (mk : A -> X) j x, de_struct1 n1 f1 m1 mk j = Some x <->
  exists v1 a, gives j [n1] [v1] /\ rd f1 m1 v1 = Some a /\ x = mk a.
Proof.
  intros A X n1 f1 m1 mk j x. split.
  - intros H. destruct j as [| | | | |l|l]; try discriminate.
    + destruct l as [|v [|w l]]; try discriminate. cbn [de_struct1] in H. apply obind_some in H as (a & E & H). injection H as <-.
      exists (Some v), a. rewrite gives_arr. auto.
    + cbn [de_struct1] in H. apply obind_some in H as (a & E & H). injection H as <-. apply field_spec in E as (v & S & R).
      exists v, a. rewrite gives_obj. auto.
  - intros (v & a & G & R & ->). destruct (gives_shape _ _ _ G) as (l & [->|(m & ->)]).
    + apply gives_obj in G. inversion G as [|? ? ? ? S _]; subst. cbn [de_struct1]. apply obind_some. exists a. split; [|reflexivity].
      apply field_spec. eauto.
    + apply gives_arr in G as [L E]. destruct m as [|y [|z m]]; try discriminate. injection E as ->. cbn [de_struct1 rd] in *. now rewrite R.
Qed.
Lemma struct2_spec : forall A B X n1 f1 m1 n2 f2 m2 (mk : A -> B -> X) j x, de_struct2 n1 f1 m1 n2 f2 m2 mk j = Some x <->
  exists v1 v2 a b, gives j [n1; n2] [v1; v2] /\ rd f1 m1 v1 = Some a /\ rd f2 m2 v2 = Some b /\ x = mk a b.
Proof.
  intros A B X n1 f1 m1 n2 f2 m2 mk j x. split.
  - intros H. destruct j as [| | | | |l|l]; try discriminate.
    + destruct l as [|v [|w [|z l]]]; try discriminate. cbn [de_struct2] in H. apply obind_some in H as (a & E & H).
      apply obind_some in H as (b & F & H). injection H as <-. exists (Some v), (Some w), a, b. rewrite gives_arr. auto.
    + cbn [de_struct2] in H. apply obind_some in H as (a & E & H). apply obind_some in H as (b & F & H). injection H as <-.
      apply field_spec in E as (v & S & R). apply field_spec in F as (w & S' & R'). exists v, w, a, b. rewrite gives_obj. auto.
  - intros (v & w & a & b & G & R & R' & ->). destruct (gives_shape _ _ _ G) as (l & [->|(m & ->)]).
    + apply gives_obj in G. inversion G as [|? ? ? ? S G']; subst. inversion G' as [|? ? ? ? S' _]; subst.
      cbn [de_struct2]. apply obind_some. exists a. split; [apply field_spec; eauto|]. apply obind_some. exists b. split; [apply field_spec; eauto|reflexivity].
    + apply gives_arr in G as [L E]. destruct m as [|y [|z [|t m]]]; try discriminate. injection E as -> ->. cbn [de_struct2 rd] in *. now rewrite R, R'.
Qed.
Lemma struct3_spec : forall A B C X n1 f1 m1 n2 f2 m2 n3 f3 m3 (mk : A -> B -> C -> X) j x,
  de_struct3 n1 f1 m1 n2 f2 m2 n3 f3 m3 mk j = Some x <->
  exists v1 v2 v3 a b c, gives j [n1; n2; n3] [v1; v2; v3] /\ rd f1 m1 v1 = Some a /\ rd f2 m2 v2 = Some b /\ rd f3 m3 v3 = Some c /\ x = mk a b c.
Proof.
  intros A B C X n1 f1 m1 n2 f2 m2 n3 f3 m3 mk j x. split.
  - intros H. destruct j as [| | | | |l|l]; try discriminate.
    + destruct l as [|v [|w [|z [|t l]]]]; try discriminate. cbn [de_struct3] in H. apply obind_some in H as (a & E & H).
      apply obind_some in H as (b & F & H). apply obind_some in H as (c & G & H). injection H as <-.
      exists (Some v), (Some w), (Some z), a, b, c. rewrite gives_arr. auto.
    + cbn [de_struct3] in H. apply obind_some in H as (a & E & H). apply obind_some in H as (b & F & H). apply obind_some in H as (c & G & H).
      injection H as <-. apply field_spec in E as (v & S & R). apply field_spec in F as (w & S' & R'). apply field_spec in G as (z & S'' & R'').
      exists v, w, z, a, b, c. rewrite gives_obj. auto 10.
  - intros (v & w & z & a & b & c & G & R & R' & R'' & ->). destruct (gives_shape _ _ _ G) as (l & [->|(m & ->)]).
    + apply gives_obj in G. inversion G as [|? ? ? ? S G']; subst. inversion G' as [|? ? ? ? S' G'']; subst. inversion G'' as [|? ? ? ? S'' _]; subst.
      cbn [de_struct3]. apply obind_some. exists a. split; [apply field_spec; eauto|]. apply obind_some. exists b. split; [apply field_spec; eauto|].
      apply obind_some. exists c. split; [apply field_spec; eauto|reflexivity].
    + apply gives_arr in G as [L E]. destruct m as [|y [|y' [|y'' [|t m]]]]; try discriminate. injection E as -> -> ->. cbn [de_struct3 rd] in *.
      now rewrite R, R', R''.
Qed.
Lemma struct4_spec : forall A B C D X n1 f1 m1 n2 f2 m2 n3 f3 m3 n4 f4 m4 (mk : A -> B -> C -> D -> X) j x,
  de_struct4 n1 f1 m1 n2 f2 m2 n3 f3 m3 n4 f4 m4 mk j = Some x <->
  exists v1 v2 v3 v4 a b c d, gives j [n1; n2; n3; n4] [v1; v2; v3; v4] /\ rd f1 m1 v1 = Some a /\ rd f2 m2 v2 = Some b
    /\ rd f3 m3 v3 = Some c /\ rd f4 m4 v4 = Some d /\ x = mk a b c d.
Proof.
  intros A B C D X n1 f1 m1 n2 f2 m2 n3 f3 m3 n4 f4 m4 mk j x. split.
  - intros H. destruct j as [| | | | |l|l]; try discriminate.
    + destruct l as [|v [|w [|z [|t [|t' l]]]]]; try discriminate. cbn [de_struct4] in H. apply obind_some in H as (a & E & H).
      apply obind_some in H as (b & F & H). apply obind_some in H as (c & G & H). apply obind_some in H as (d & K & H). injection H as <-.
      exists (Some v), (Some w), (Some z), (Some t), a, b, c, d. rewrite gives_arr. auto 10.
    + cbn [de_struct4] in H. apply obind_some in H as (a & E & H). apply obind_some in H as (b & F & H). apply obind_some in H as (c & G & H).
      apply obind_some in H as (d & K & H).
      injection H as <-. apply field_spec in E as (v & S & R). apply field_spec in F as (w & S' & R'). apply field_spec in G as (z & S'' & R'').
      apply field_spec in K as (t & S3 & R3). exists v, w, z, t, a, b, c, d. rewrite gives_obj. auto 10.
  - intros (v & w & z & t & a & b & c & d & G & R & R' & R'' & R3 & ->). destruct (gives_shape _ _ _ G) as (l & [->|(m & ->)]).
    + apply gives_obj in G. inversion G as [|? ? ? ? S G']; subst. inversion G' as [|? ? ? ? S' G'']; subst. inversion G'' as [|? ? ? ? S'' G3]; subst.
      inversion G3 as [|? ? ? ? S3 _]; subst.
      cbn [de_struct4]. apply obind_some. exists a. split; [apply field_spec; eauto|]. apply obind_some. exists b. split; [apply field_spec; eauto|].
      apply obind_some. exists c. split; [apply field_spec; eauto|]. apply obind_some. exists d. split; [apply field_spec; eauto|reflexivity].
    + apply gives_arr in G as [L E]. destruct m as [|y [|y' [|y'' [|y3 [|t' m]]]]]; try discriminate. injection E as -> -> -> ->. cbn [de_struct4 rd] in *.
      now rewrite R, R', R'', R3.
Qed.

(** ** Values *)
Lemma de_bool_spec : forall v b, rd de_bool None v = Some b <-> v = Some (JBool b).
Proof. intros [[| | | | | |]|] x; cbn; intuition congruence. Qed.
Lemma de_string_spec : forall v s, rd de_string None v = Some s <-> v = Some (JStr s).
Proof. intros [[| | | | | |]|] x; cbn; intuition congruence. Qed.
Lemma usize_bound_eq : usize_bound = 2 ^ 64.
Proof. reflexivity. Qed.
Lemma de_usize_some : forall j n, de_usize j = Some n <-> is_size j n.
Proof.
  intros j n. unfold is_size. rewrite <- usize_bound_eq. split.
  - destruct j; try discriminate. cbn [de_usize]. destruct (n0 <? usize_bound) eqn:E; [|discriminate]. intros H. injection H as <-.
    apply N.ltb_lt in E. rewrite N2Nat.id. now split.
  - intros [-> L]. cbn [de_usize]. apply N.ltb_lt in L. rewrite L. now rewrite Nat2N.id.
Qed.
Lemma de_usize_spec : forall v n, rd de_usize None v = Some n <-> exists j, v = Some j /\ is_size j n.
Proof.
  intros [j|] n; cbn [rd]; [|split; [discriminate|intros (x & E & _); discriminate]]. rewrite de_usize_some. split; [eauto|].
  intros (x & E & H). now injection E as <-.
Qed.
Lemma de_option_spec : forall A (f : json -> option A) (is : json -> A -> Prop),
  (forall j x, f j = Some x <-> is j x) -> (forall x, ~ is JNull x) ->
  forall v o, rd (de_option f) (Some None) v = Some o <-> is_optional is v o.
Proof.
  intros A f is F NN v o. destruct v as [j|]; cbn [rd].
  - split.
    + intros H. destruct j; cbn [de_option] in H;
      try (destruct (f _) as [x|] eqn:E; [|discriminate]; injection H as <-; cbn [is_optional]; eexists; split; [reflexivity|now apply F]).
      injection H as <-. cbn. now right.
    + destruct o as [x|]; cbn [is_optional].
      * intros (y & E & I). injection E as <-. pose proof I as I'. apply F in I. destruct j; cbn [de_option]; try (now rewrite I). now elim (NN x).
      * intros [E|E]; [discriminate|]. now injection E as ->.
  - split.
    + intros H. injection H as <-. now left.
    + destruct o as [x|]; cbn [is_optional]; [intros (y & E & _); discriminate|reflexivity].
Qed.
Lemma de_all_spec : forall A (f : json -> option A) (g : A -> json), (forall j x, f j = Some x <-> j = g x) ->
  forall l xs, de_all f l = Some xs <-> l = map g xs.
Proof.
  intros A f g F. induction l as [|j l IH]; intros xs; cbn [de_all].
  - split; [intros H; injection H as <-; reflexivity|]. destruct xs; [reflexivity|discriminate].
  - split.
    + destruct (f j) as [x|] eqn:E; [|discriminate]. destruct (de_all f l) as [ys|] eqn:E2; [|discriminate]. intros H. injection H as <-.
      apply F in E. subst j. cbn [map]. f_equal. now apply IH.
    + destruct xs as [|x xs]; [discriminate|]. intros H. injection H as -> ->. rewrite (proj2 (F _ _) eq_refl). now rewrite (proj2 (IH xs) eq_refl).
Qed.
Lemma de_char_some : forall j c, de_char j = Some c <-> j = JStr [c].
Proof. intros j c. destruct j as [| | | |[|x [|y s]]| |]; cbn; intuition congruence. Qed.
Lemma de_mapping_some : forall j m, de_mapping j = Some m <-> is_mapping j m.
Proof.
  intros j m. unfold is_mapping. split.
  - destruct j as [| | | | |l|]; try discriminate. cbn [de_mapping]. destruct (Nat.eqb (length l) 26) eqn:E; [|discriminate].
    intros H. apply (de_all_spec N de_char (fun c => JStr [c]) de_char_some) in H. subst l. rewrite map_length in E. apply Nat.eqb_eq in E. now split.
  - intros [L ->]. cbn [de_mapping]. rewrite map_length, L. cbn [Nat.eqb]. now apply (de_all_spec N de_char (fun c => JStr [c]) de_char_some).
Qed.
Lemma de_mapping_spec : forall v m, rd de_mapping None v = Some m <-> exists j, v = Some j /\ is_mapping j m.
Proof.
  intros [j|] m; cbn [rd]; [|split; [discriminate|intros (x & E & _); discriminate]]. rewrite de_mapping_some. split; [eauto|].
  intros (x & E & H). now injection E as <-.
Qed.
Lemma de_string_some : forall j s, de_string j = Some s <-> is_text j s.
Proof. intros j s. destruct j; cbn; unfold is_text; intuition congruence. Qed.

Lemma variant_spec : forall A (variants : list (ustr * A)) j x, NoDup (map fst variants) ->
  (de_unit_variant variants j = Some x <-> exists name, In (name, x) variants /\ names_variant j name).
Proof.
  intros A variants j x ND.
  assert (K : forall s, match filter (fun v => seq_eqb (fst v) s) variants with (_, x) :: _ => Some x | [] => None end = Some x <-> In (s, x) variants).
  { intros s. clear j. induction variants as [|[k v] l IH]; cbn [filter fst].
    - split; [discriminate|intros []].
    - cbn [map fst] in ND. inversion ND as [|? ? N1 N2]; subst. destruct (seq_eqb k s) eqn:E.
      + apply seq_eqb_eq in E. subst k. split; [intros H; inversion H; subst; now left|]. intros [H|H]; [inversion H; now subst|].
        elim N1. now apply (in_map fst) in H.
      + apply seq_eqb_neq in E. rewrite (IH N2). cbn [In]. split; [now right|]. intros [H|H]; [inversion H; subst; now elim E|assumption]. }
  unfold de_unit_variant, names_variant. split.
  - intros H. destruct j as [| | | |s| |[|[k [| | | | | |]] [|? ?]]]; try discriminate.
    + apply K in H. eauto.
    + apply K in H. eauto.
  - intros (name & I & [E|E]); subst j; now apply K.
Qed.
