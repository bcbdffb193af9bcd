(** * Proofs about DoubleMetaphone. *)
From Verif Require Import Base UnicodeM Lib Helper DoubleMetaphone BaseLemmas Spec_common
  Soundex_proofs UnicodeLemmas Cologne_proofs.
Local Open Scope N_scope.

(** ** No panic on ASCII text *)
Definition oks {A} (r : res A) : Prop := exists a, r = Ok a.
Lemma oks_Ok : forall A (a : A), oks (Ok a).
Proof. intros. now exists a. Qed.
Lemma oks_bind : forall A B (x : res A) (f : A -> res B), oks x -> (forall a, oks (f a)) -> oks (bind x f).
Proof. intros A B x f [a ->] H. apply H. Qed.
Lemma oks_andr : forall a b, oks a -> oks b -> oks (andr a b).
Proof. intros a b Ha Hb. apply oks_bind; [assumption|]. intros []; [assumption|apply oks_Ok]. Qed.
Lemma oks_orr : forall a b, oks a -> oks b -> oks (orr a b).
Proof. intros a b Ha Hb. apply oks_bind; [assumption|]. intros []; [apply oks_Ok|assumption]. Qed.
Lemma oks_notr : forall a, oks a -> oks (notr a).
Proof. intros a Ha. apply oks_bind; [assumption|]. intros x. apply oks_Ok. Qed.
Lemma oks_pure : forall b, oks (pure b).
Proof. intros b. apply oks_Ok. Qed.
Lemma oks_done : forall ops n, oks (done ops n).
Proof. intros. apply oks_Ok. Qed.
Lemma oks_contains : forall v st n l, ascii_str v -> oks (contains v st n l).
Proof.
  intros v st n l A. unfold contains. destruct (Z.ltb st 0); [apply oks_Ok|].
  destruct (Nat.leb _ _) eqn:L; [|apply oks_Ok]. apply Nat.leb_le in L.
  rewrite ascii_blen in L by assumption. rewrite slice_ascii by (assumption || lia). apply oks_Ok.
Qed.
Lemma oks_contains_array : forall v st n l, ascii_str v -> oks (contains_array v st n l).
Proof. exact oks_contains. Qed.
Lemma oks_char_at : forall v i, ascii_str v -> oks (char_at v i).
Proof.
  intros v i A. unfold char_at, len. destruct (Z.leb 0 i && Z.ltb i _)%bool eqn:E; [|apply oks_Ok].
  apply andb_true_iff in E as [E1 E2]. apply Z.leb_le in E1. apply Z.ltb_lt in E2.
  rewrite ascii_blen in E2 by assumption. rewrite slice_from_ascii by (assumption || lia). apply oks_Ok.
Qed.
Lemma oks_at_is : forall v i c, ascii_str v -> oks (at_is v i c).
Proof. intros v i c A. apply oks_bind; [now apply oks_char_at|]. intros x. apply oks_Ok. Qed.
Lemma oks_at_vowel : forall v i, ascii_str v -> oks (at_vowel v i).
Proof. intros v i A. apply oks_bind; [now apply oks_char_at|]. intros x. apply oks_Ok. Qed.
Lemma oks_then_skip : forall ops b, oks b -> oks (then_skip_if ops b).
Proof. intros ops b H. apply oks_bind; [assumption|]. intros []; apply oks_Ok. Qed.

Ltac oks :=
  repeat (first
    [ apply oks_Ok | apply oks_pure | apply oks_done
    | apply oks_contains; assumption | apply oks_contains_array; assumption
    | apply oks_char_at; assumption | apply oks_at_is; assumption | apply oks_at_vowel; assumption
    | apply oks_andr | apply oks_orr | apply oks_notr | apply oks_then_skip
    | apply oks_bind; [|intros ?]
    | match goal with |- oks (if ?b then _ else _) => destruct b end ]).

Lemma dm_char_ok : forall v slavo i c, ascii_str v -> oks (dm_char v slavo i c).
Proof.
  intros v sg i c A. unfold dm_char.
  destruct (isin c _); [destruct (Z.eqb i 0); apply oks_done|].
  repeat (match goal with |- oks (if N.eqb c ?k then _ else _) =>
     destruct (N.eqb c k); [try (now oks)|] end); try (apply oks_done).
  - unfold condition_c0, handle_c, condition_c0, handle_cc, handle_ch, condition_ch0, condition_ch1. now oks.
  - unfold handle_x. now oks.
Qed.

(** ** The characters appended *)
Definition dm_cons : ustr := $ "FHJKLMNPRSTX0".
Definition dm_cons_alt : ustr := $ "FHJKLMNPRSTX0 ".
Definition op_primary (op : app_op) : ustr :=
  match op with AppChar c _ => [c] | AppPrimary c => [c] | AppAlternate _ => [] | AppStr v _ => v end.
Definition op_alternate (op : app_op) : ustr :=
  match op with
  | AppChar c a => [opt_or a c] | AppPrimary _ => [] | AppAlternate c => [c] | AppStr v a => opt_or a v
  end.
Definition sub (l set : ustr) : bool := forallb (fun c => isin c set) l.
Definition op_good (op : app_op) : bool := sub (op_primary op) dm_cons && sub (op_alternate op) dm_cons_alt.
Definition one_op (l : list app_op) : bool :=
  match l with
  | [AppChar c a] => isin c (# "A" :: dm_cons) && isin (opt_or a c) (# "A" :: dm_cons_alt)
  | _ => false
  end.
Definition short_ops (l : list app_op) : bool :=
  Nat.leb (length (flat_map op_primary l)) 2 && Nat.leb (length (flat_map op_alternate l)) 2.
Definition step_good (z : bool) (x : list app_op * nat) : bool :=
  (forallb op_good (fst x) || (z && one_op (fst x))) && short_ops (fst x) && Nat.leb (snd x) 3.

Definition sat {A} (P : A -> bool) (r : res A) : Prop := forall a, r = Ok a -> P a = true.
Lemma sat_Ok : forall A (P : A -> bool) a, P a = true -> sat P (Ok a).
Proof. intros A P a H b E. now injection E as <-. Qed.
Lemma sat_bind : forall A B (P : B -> bool) (x : res A) f, (forall a, sat P (f a)) -> sat P (bind x f).
Proof. intros A B P [a| |] f H; cbn; [apply H|intros b E; discriminate|intros b E; discriminate]. Qed.
Lemma sat_bind2 : forall A B (Q : A -> bool) (P : B -> bool) (x : res A) f,
  sat Q x -> (forall a, Q a = true -> sat P (f a)) -> sat P (bind x f).
Proof.
  intros A B Q P [a| |] f HQ H; cbn; [|intros b E; discriminate|intros b E; discriminate].
  apply H, HQ. reflexivity.
Qed.
Lemma sat_then_skip : forall z ops b, step_good z (ops, 3%nat) = true ->
  sat (step_good z) (then_skip_if ops b).
Proof.
  intros z ops b H. apply sat_bind. intros [];
   (apply sat_Ok; unfold step_good in *; cbn [fst snd] in *; apply andb_true_iff in H as [-> _]; reflexivity).
Qed.

Definition ops_good (z : bool) (l : list app_op) : bool := step_good z (l, 3%nat).

Ltac sats :=
  repeat (first
    [ apply sat_Ok; reflexivity
    | apply sat_then_skip; (reflexivity || assumption)
    | apply sat_bind; intros []
    | match goal with |- sat _ (if ?b then _ else _) => destruct b end ]).

Lemma dm_char_good : forall v slavo i c, sat (step_good (Z.eqb i 0)) (dm_char v slavo i c).
Proof.
  intros v sg i c. unfold dm_char.
  destruct (isin c _); [destruct (Z.eqb i 0); apply sat_Ok; reflexivity|].
  repeat (match goal with |- sat _ (if N.eqb c ?k then _ else _) =>
     destruct (N.eqb c k); [try (now sats)|] end); try (apply sat_Ok; reflexivity).
  - unfold handle_j. apply sat_bind. intros []; [now sats|].
    apply (sat_bind2 _ _ (ops_good (Z.eqb i 0))); [|intros a Ha; now apply sat_then_skip].
    destruct (Z.eqb i 0) eqn:E; [|cbn [pure andr bind]];
      (apply sat_bind; intros []; [now sats|]; now sats).
  - unfold handle_r. apply (sat_bind2 _ _ (ops_good (Z.eqb i 0))); [|intros a Ha; now apply sat_then_skip].
    now sats.
  - unfold handle_s. unfold handle_sc. apply sat_bind; intros []; [now sats|]. apply sat_bind; intros []; [now sats|].
    apply sat_bind; intros []; [now sats|]. apply sat_bind; intros []; [now sats|].
    apply sat_bind; intros []; [now sats|]. apply sat_bind; intros []; [now sats|].
    apply (sat_bind2 _ _ (ops_good (Z.eqb i 0))); [|intros a Ha; now apply sat_then_skip]. now sats.
  - unfold handle_w. apply sat_bind; intros []; [now sats|].
    destruct (Z.eqb i 0) eqn:E; [|cbn [pure andr bind]]; now sats.
  - unfold handle_x. destruct (Z.eqb i 0) eqn:E; [now sats|].
    apply (sat_bind2 _ _ (ops_good false)); [|intros a Ha; now apply sat_then_skip]. now sats.
  - unfold handle_z. apply sat_bind; intros []; [now sats|].
    apply (sat_bind2 _ _ (ops_good (Z.eqb i 0))); [|intros a Ha; now apply sat_then_skip]. now sats.
Qed.

(** ** Applying the operations *)
Definition dm_of (p a : ustr) : dm_result := {| dm_primary := p; dm_alternate := a |}.

Lemma dm_apply_none : forall ops p a,
  dm_apply None (dm_of p a) ops = Ok (dm_of (p ++ flat_map op_primary ops) (a ++ flat_map op_alternate ops)).
Proof.
  induction ops as [|op ops IH]; intros p a; cbn [dm_apply flat_map].
  - now rewrite !app_nil_r.
  - destruct op as [c alt|c|c|v alt]; cbn [dm_apply1 dm_push dm_push_str bind dm_of dm_primary dm_alternate
      op_primary op_alternate app];
    match goal with |- dm_apply None {| dm_primary := ?p; dm_alternate := ?a |} ops = _ =>
      change {| dm_primary := p; dm_alternate := a |} with (dm_of p a); rewrite (IH p a) end;
    rewrite <- ?app_assoc; reflexivity.
Qed.

Lemma dm_push_cut : forall n p c, ascii_str p -> dm_push (Some n) (firstn n p) c = firstn n (p ++ [c]).
Proof.
  intros n p c A. unfold dm_push. rewrite ascii_blen, firstn_length by (now apply ascii_str_firstn).
  destruct (Nat.ltb (Nat.min n (length p)) n) eqn:L.
  - apply Nat.ltb_lt in L. rewrite firstn_app. f_equal.
    destruct (n - length p)%nat as [|k] eqn:E; [lia|]. cbn [firstn]. now rewrite firstn_nil.
  - apply Nat.ltb_ge in L. rewrite firstn_app. replace (n - length p)%nat with 0%nat by lia.
    cbn [firstn]. now rewrite app_nil_r.
Qed.
Lemma dm_push_str_cut : forall n p v, ascii_str p -> ascii_str v ->
  dm_push_str (Some n) (firstn n p) v = Ok (firstn n (p ++ v)).
Proof.
  intros n p v A B. unfold dm_push_str. rewrite !ascii_blen by (try apply ascii_str_firstn; assumption).
  rewrite firstn_length. replace (Nat.ltb n (Nat.min n (length p))) with false by (symmetry; apply Nat.ltb_ge; lia).
  rewrite firstn_app. destruct (Nat.leb (length v) (n - Nat.min n (length p))) eqn:L.
  - apply Nat.leb_le in L. rewrite (firstn_all2 (n := n - length p) v) by lia. reflexivity.
  - apply Nat.leb_gt in L. rewrite slice_ascii by (assumption || lia). cbn [bind skipn].
    do 3 f_equal. lia.
Qed.

Lemma sub_ascii : forall l set, ascii_str set -> sub l set = true -> ascii_str l.
Proof.
  intros l set A H c Hc. unfold sub in H. rewrite forallb_forall in H. apply H in Hc.
  apply isin_In in Hc. now apply A.
Qed.
Lemma dm_sets_ascii : ascii_str (# "A" :: dm_cons_alt).
Proof. apply ascii_strb. reflexivity. Qed.
Lemma dm_cons_ascii : ascii_str dm_cons.
Proof. apply ascii_strb. reflexivity. Qed.
Lemma dm_cons_alt_ascii : ascii_str dm_cons_alt.
Proof. apply ascii_strb. reflexivity. Qed.

Definition op_ascii (op : app_op) : Prop := ascii_str (op_primary op) /\ ascii_str (op_alternate op).
Lemma step_good_ascii : forall z ops k, step_good z (ops, k) = true -> Forall op_ascii ops.
Proof.
  intros z ops k H. unfold step_good in H. cbn [fst snd] in H.
  apply andb_true_iff in H as [H _]. apply andb_true_iff in H as [H _]. apply orb_true_iff in H as [H|H].
  - rewrite forallb_forall in H. apply Forall_forall. intros op Hop. apply H in Hop.
    unfold op_good in Hop. apply andb_true_iff in Hop as [H1 H2]. split.
    + eapply sub_ascii; [|exact H1]. apply dm_cons_ascii.
    + eapply sub_ascii; [|exact H2]. apply dm_cons_alt_ascii.
  - apply andb_true_iff in H as [_ H]. destruct ops as [|[c a|c|c|v a] [|]]; try discriminate H.
    cbn [one_op] in H. apply andb_true_iff in H as [H1 H2]. constructor; [|constructor]. split.
    + intros x [<-|[]]. apply isin_In in H1. destruct H1 as [<-|H1]; [reflexivity|now apply dm_cons_ascii].
    + intros x [<-|[]]. apply isin_In in H2. now apply dm_sets_ascii.
Qed.

Lemma dm_apply_cut : forall n ops p a, ascii_str p -> ascii_str a -> Forall op_ascii ops ->
  dm_apply (Some n) (dm_of (firstn n p) (firstn n a)) ops
  = Ok (dm_of (firstn n (p ++ flat_map op_primary ops)) (firstn n (a ++ flat_map op_alternate ops))).
Proof.
  intros n. induction ops as [|op ops IH]; intros p a Ap Aa H; cbn [dm_apply flat_map].
  - now rewrite !app_nil_r.
  - inversion H as [|? ? [H1 H2] H3]; subst.
    assert (K : dm_apply1 (Some n) (dm_of (firstn n p) (firstn n a)) op
              = Ok (dm_of (firstn n (p ++ op_primary op)) (firstn n (a ++ op_alternate op)))).
    { destruct op as [c alt|c|c|v alt]; cbn [dm_apply1 dm_of dm_primary dm_alternate op_primary op_alternate].
      - now rewrite !dm_push_cut by assumption.
      - now rewrite dm_push_cut, app_nil_r by assumption.
      - now rewrite dm_push_cut, app_nil_r by assumption.
      - now rewrite !dm_push_str_cut by assumption. }
    rewrite K. cbn [bind]. rewrite IH; [now rewrite <- !app_assoc| | |assumption];
      apply ascii_str_app; auto.
Qed.
Lemma flat_map_ascii : forall ops, Forall op_ascii ops ->
  ascii_str (flat_map op_primary ops) /\ ascii_str (flat_map op_alternate ops).
Proof.
  induction 1 as [|op ops [H1 H2] _ [I1 I2]]; [split; apply ascii_str_nil|].
  cbn [flat_map]. split; apply ascii_str_app; auto.
Qed.

(** ** The loop *)
Lemma dm_loop_none_extends : forall v sg items k p a r,
  dm_loop v None sg k items (dm_of p a) = Ok r ->
  exists p' a', r = dm_of (p ++ p') (a ++ a').
Proof.
  intros v sg. induction items as [|[o c] items IH]; intros k p a r H; cbn [dm_loop] in H.
  - injection H as <-. exists [], []. now rewrite !app_nil_r.
  - destruct k as [|k]; [|eauto]. cbn [dm_is_complete] in H.
    apply bind_Ok in H as ([ops sk] & _ & H). rewrite dm_apply_none in H. cbn [bind] in H.
    apply IH in H as (p' & a' & ->). rewrite <- !app_assoc. eauto.
Qed.

Lemma dm_loop_cut : forall v sg n items k p a r,
  ascii_str p -> ascii_str a ->
  dm_loop v None sg k items (dm_of p a) = Ok r ->
  dm_loop v (Some n) sg k items (dm_of (firstn n p) (firstn n a))
  = Ok (dm_of (firstn n (dm_primary r)) (firstn n (dm_alternate r))).
Proof.
  intros v sg n. induction items as [|[o c] items IH]; intros k p a r Ap Aa H; cbn [dm_loop] in *.
  - now injection H as <-.
  - destruct k as [|k]; [|eauto].
    destruct (dm_is_complete (Some n) _) eqn:C.
    + cbn [dm_is_complete dm_of dm_primary dm_alternate] in C.
      rewrite !ascii_blen, !firstn_length in C by (now apply ascii_str_firstn).
      apply andb_true_iff in C as [C1 C2]. apply Nat.leb_le in C1. apply Nat.leb_le in C2.
      cbn [dm_is_complete] in H. apply bind_Ok in H as ([ops sk] & _ & H).
      rewrite dm_apply_none in H. cbn [bind] in H. apply dm_loop_none_extends in H as (p' & a' & ->).
      cbn [dm_of dm_primary dm_alternate]. rewrite <- !app_assoc, !firstn_app.
      replace (n - length p)%nat with 0%nat by lia. replace (n - length a)%nat with 0%nat by lia.
      cbn [firstn]. now rewrite !app_nil_r.
    + clear C. cbn [dm_is_complete] in H. apply bind_Ok in H as ([ops sk] & E & H). rewrite E. cbn [bind].
      pose proof (step_good_ascii _ _ _ (dm_char_good v sg (Z.of_nat o) c _ E)) as G.
      rewrite dm_apply_none in H. cbn [bind] in H. rewrite dm_apply_cut by assumption. cbn [bind].
      destruct (flat_map_ascii _ G) as [G1 G2].
      apply IH; [apply ascii_str_app; auto|apply ascii_str_app; auto|exact H].
Qed.

(** The same between two limits, for every text. *)
Lemma dm_loop_some_extends : forall v sg m items k p a r,
  ascii_str p -> ascii_str a -> (length p <= m)%nat -> (length a <= m)%nat ->
  dm_loop v (Some m) sg k items (dm_of p a) = Ok r ->
  exists p' a', r = dm_of (p ++ p') (a ++ a').
Proof.
  intros v sg m. induction items as [|[o c] items IH]; intros k p a r Ap Aa Lp La H; cbn [dm_loop] in H.
  - injection H as <-. exists [], []. now rewrite !app_nil_r.
  - destruct k as [|k]; [|eauto]. destruct (dm_is_complete _ _).
    + injection H as <-. exists [], []. now rewrite !app_nil_r.
    + apply bind_Ok in H as ([ops sk] & E & H).
      pose proof (step_good_ascii _ _ _ (dm_char_good v sg (Z.of_nat o) c _ E)) as G.
      destruct (flat_map_ascii _ G) as [G1 G2].
      rewrite <- (firstn_all2 p Lp), <- (firstn_all2 a La) in H.
      rewrite dm_apply_cut in H by assumption. cbn [bind] in H.
      apply IH in H as (p' & a' & ->);
        [|apply ascii_str_firstn, ascii_str_app; auto|apply ascii_str_firstn, ascii_str_app; auto
         |rewrite firstn_length; lia|rewrite firstn_length; lia].
      rewrite !firstn_app, (firstn_all2 p Lp), (firstn_all2 a La), <- !app_assoc. eauto.
Qed.
Lemma dm_loop_cut2 : forall v sg n m items k p a r,
  ascii_str p -> ascii_str a -> (n <= m)%nat -> (length p <= m)%nat -> (length a <= m)%nat ->
  dm_loop v (Some m) sg k items (dm_of p a) = Ok r ->
  dm_loop v (Some n) sg k items (dm_of (firstn n p) (firstn n a))
  = Ok (dm_of (firstn n (dm_primary r)) (firstn n (dm_alternate r))).
Proof.
  intros v sg n m. induction items as [|[o c] items IH]; intros k p a r Ap Aa L Lp La H; cbn [dm_loop] in *.
  - now injection H as <-.
  - destruct k as [|k]; [|eauto].
    assert (HX : exists p' a', r = dm_of (p ++ p') (a ++ a')).
    { apply (dm_loop_some_extends v sg m ((o, c) :: items) 0 p a r); auto. }
    destruct (dm_is_complete (Some n) _) eqn:C.
    + clear H. cbn [dm_is_complete dm_of dm_primary dm_alternate] in C.
      rewrite !ascii_blen, !firstn_length in C by (now apply ascii_str_firstn).
      apply andb_true_iff in C as [C1 C2]. apply Nat.leb_le in C1. apply Nat.leb_le in C2.
      destruct HX as (p' & a' & ->).
      cbn [dm_of dm_primary dm_alternate]. rewrite !firstn_app.
      replace (n - length p)%nat with 0%nat by lia. replace (n - length a)%nat with 0%nat by lia.
      cbn [firstn]. now rewrite !app_nil_r.
    + destruct (dm_is_complete (Some m) (dm_of p a)) eqn:Cm.
      { exfalso. cbn [dm_is_complete dm_of dm_primary dm_alternate] in C, Cm.
        rewrite !ascii_blen, !firstn_length in C by (now apply ascii_str_firstn).
        rewrite !ascii_blen in Cm by assumption.
        apply andb_true_iff in Cm as [C1 C2]. apply Nat.leb_le in C1. apply Nat.leb_le in C2.
        apply andb_false_iff in C as [C|C]; apply Nat.leb_gt in C; lia. }
      clear C Cm HX. apply bind_Ok in H as ([ops sk] & E & H). rewrite E. cbn [bind].
      pose proof (step_good_ascii _ _ _ (dm_char_good v sg (Z.of_nat o) c _ E)) as G.
      destruct (flat_map_ascii _ G) as [G1 G2].
      rewrite <- (firstn_all2 p Lp), <- (firstn_all2 a La) in H.
      rewrite dm_apply_cut in H |- * by assumption. cbn [bind] in H |- *.
      assert (Kp : firstn n (p ++ flat_map op_primary ops)
                   = firstn n (firstn m (p ++ flat_map op_primary ops)))
        by (rewrite firstn_firstn, Nat.min_l by assumption; reflexivity).
      assert (Ka : firstn n (a ++ flat_map op_alternate ops)
                   = firstn n (firstn m (a ++ flat_map op_alternate ops)))
        by (rewrite firstn_firstn, Nat.min_l by assumption; reflexivity).
      rewrite Kp, Ka.
      apply IH; [apply ascii_str_firstn, ascii_str_app; auto|apply ascii_str_firstn, ascii_str_app; auto|exact L
         |rewrite firstn_length; lia|rewrite firstn_length; lia|exact H].
Qed.

Lemma dm_loop_ok : forall v max sg items k p a, ascii_str v -> ascii_str p -> ascii_str a ->
  (forall n, max = Some n -> (length p <= n)%nat /\ (length a <= n)%nat) ->
  oks (dm_loop v max sg k items (dm_of p a)).
Proof.
  intros v max sg items. induction items as [|[o c] items IH]; intros k p a A Ap Aa L; cbn [dm_loop].
  - apply oks_Ok.
  - destruct k as [|k]; [|eauto]. destruct (dm_is_complete max _); [apply oks_Ok|].
    destruct (dm_char_ok v sg (Z.of_nat o) c A) as [[ops sk] E]. rewrite E. cbn [bind].
    pose proof (step_good_ascii _ _ _ (dm_char_good v sg (Z.of_nat o) c _ E)) as G.
    destruct (flat_map_ascii _ G) as [G1 G2].
    destruct max as [n|].
    + destruct (L n eq_refl) as [L1 L2]. rewrite <- (firstn_all2 p L1), <- (firstn_all2 a L2).
      rewrite dm_apply_cut by assumption. cbn [bind]. apply IH; [assumption| | |].
      * apply ascii_str_firstn, ascii_str_app; auto.
      * apply ascii_str_firstn, ascii_str_app; auto.
      * intros m Hm. injection Hm as <-. rewrite !firstn_length. lia.
    + rewrite dm_apply_none. cbn [bind]. apply IH; [assumption| | |intros ? [=]].
      * apply ascii_str_app; auto.
      * apply ascii_str_app; auto.
Qed.

(** Invariant of both codes, whatever the input and limit. *)
Record dm_inv (max : option nat) (p a : ustr) : Prop := {
  inv_p : sub p (# "A" :: dm_cons) = true;
  inv_pt : sub (tl p) dm_cons = true;
  inv_a : sub a (# "A" :: dm_cons_alt) = true;
  inv_at : sub (tl a) dm_cons_alt = true;
  inv_len : forall n, max = Some n -> (length p <= n)%nat /\ (length a <= n)%nat
}.
Lemma sub_app : forall a b s, sub (a ++ b) s = sub a s && sub b s.
Proof. intros. unfold sub. apply forallb_app. Qed.
Lemma sub_firstn : forall n a s, sub a s = true -> sub (firstn n a) s = true.
Proof.
  intros n a s H. rewrite <- (firstn_skipn n a), sub_app in H. now apply andb_true_iff in H as [H _].
Qed.
Lemma sub_weaken : forall a x s, sub a s = true -> sub a (x :: s) = true.
Proof.
  intros a x s H. unfold sub in *. rewrite forallb_forall in *. intros c Hc. apply H in Hc.
  apply isin_In. right. now apply isin_In.
Qed.
Lemma sub_flat_map : forall f s ops, forallb (fun op : app_op => sub (f op) s) ops = true ->
  sub (flat_map f ops) s = true.
Proof.
  intros f s. induction ops as [|op ops IH]; [reflexivity|]. cbn [forallb flat_map]. intros H.
  apply andb_true_iff in H as [H1 H2]. rewrite sub_app, H1. now apply IH.
Qed.
Lemma tl_firstn : forall A n (l : list A), exists m, tl (firstn n l) = firstn m (tl l).
Proof. intros A [|n] [|x l]; cbn; [exists 0%nat|exists 0%nat|exists 0%nat|exists n]; reflexivity. Qed.

Lemma dm_step_inv : forall max v sg o c ops sk p a r,
  dm_char v sg (Z.of_nat o) c = Ok (ops, sk) ->
  (o = 0%nat -> p = [] /\ a = []) ->
  dm_inv max p a -> dm_apply max (dm_of p a) ops = Ok r ->
  exists p' a', r = dm_of p' a' /\ dm_inv max p' a'
    /\ (length p' <= length p + 2)%nat /\ (length a' <= length a + 2)%nat.
Proof.
  intros max v sg o c ops sk p a r E Z I H.
  pose proof (dm_char_good v sg (Z.of_nat o) c _ E) as G.
  pose proof (step_good_ascii _ _ _ G) as GA.
  assert (K : exists q b, r = dm_of q b
     /\ (q = p ++ flat_map op_primary ops /\ b = a ++ flat_map op_alternate ops /\ max = None
         \/ exists n, max = Some n /\ q = firstn n (p ++ flat_map op_primary ops)
                /\ b = firstn n (a ++ flat_map op_alternate ops))).
  { destruct max as [n|].
    - destruct (inv_len _ _ _ I n eq_refl) as [L1 L2].
      rewrite <- (firstn_all2 p L1), <- (firstn_all2 a L2) in H.
      rewrite dm_apply_cut in H; [|..|assumption].
      + injection H as <-. eexists _, _. split; [reflexivity|]. right. exists n. auto.
      + eapply sub_ascii; [apply dm_sets_ascii|]. pose proof (inv_p _ _ _ I) as X.
        unfold sub in *. rewrite forallb_forall in *. intros y Hy. apply X in Hy. apply isin_In in Hy.
        apply isin_In. destruct Hy as [<-|Hy]; [now left|right].
        change (In y (dm_cons ++ $ " ")). apply (in_or_app dm_cons). now left.
      + eapply sub_ascii; [apply dm_sets_ascii|]. apply (inv_a _ _ _ I).
    - rewrite dm_apply_none in H. injection H as <-. eexists _, _. split; [reflexivity|]. auto. }
  destruct K as (q & b & -> & K). exists q, b. split; [reflexivity|].
  unfold step_good in G. cbn [fst snd] in G. apply andb_true_iff in G as [G _].
  apply andb_true_iff in G as [G S]. unfold short_ops in S. apply andb_true_iff in S as [S1 S2].
  apply Nat.leb_le in S1. apply Nat.leb_le in S2.
  assert (F : dm_inv None (p ++ flat_map op_primary ops) (a ++ flat_map op_alternate ops)).
  { apply orb_true_iff in G as [G|G].
    - assert (G1 : sub (flat_map op_primary ops) dm_cons = true
                 /\ sub (flat_map op_alternate ops) dm_cons_alt = true).
      { split; apply sub_flat_map; apply forallb_forall; intros op Hop; rewrite forallb_forall in G;
          apply G in Hop; unfold op_good in Hop; apply andb_true_iff in Hop as [? ?]; assumption. }
      destruct G1 as [G1 G2]. destruct I as [I1 I2 I3 I4 _]. split.
      + rewrite sub_app, I1. now apply sub_weaken.
      + destruct p as [|x p]; [cbn [app]|cbn [app tl] in *; now rewrite sub_app, I2].
        destruct (flat_map op_primary ops) as [|y l]; [reflexivity|]. cbn [tl].
        change (sub ([y] ++ l) dm_cons = true) in G1. rewrite sub_app in G1.
        now apply andb_true_iff in G1 as [_ G1].
      + rewrite sub_app, I3. now apply sub_weaken.
      + destruct a as [|x a]; [cbn [app]|cbn [app tl] in *; now rewrite sub_app, I4].
        destruct (flat_map op_alternate ops) as [|y l]; [reflexivity|]. cbn [tl].
        change (sub ([y] ++ l) dm_cons_alt = true) in G2. rewrite sub_app in G2.
        now apply andb_true_iff in G2 as [_ G2].
      + intros ? [=].
    - apply andb_true_iff in G as [G0 G]. apply Z.eqb_eq in G0.
      destruct Z as [-> ->]; [lia|]. destruct ops as [|[x y|x|x|x y] [|]]; try discriminate G.
      cbn [one_op] in G. apply andb_true_iff in G as [G1 G2]. cbn [flat_map op_primary op_alternate app].
      split; try reflexivity.
      + unfold sub. cbn [forallb]. now rewrite G1.
      + unfold sub. cbn [forallb]. now rewrite G2.
      + intros ? [=]. }
  assert (LL : (length (p ++ flat_map op_primary ops) <= length p + 2)%nat
     /\ (length (a ++ flat_map op_alternate ops) <= length a + 2)%nat) by (rewrite !app_length; lia).
  destruct K as [(-> & -> & ->)|(n & -> & -> & ->)]; [auto|].
  split; [|rewrite !firstn_length; lia]. destruct F as [I1 I2 I3 I4 _]. split.
  - now apply sub_firstn.
  - destruct (tl_firstn _ n (p ++ flat_map op_primary ops)) as [m ->]. now apply sub_firstn.
  - now apply sub_firstn.
  - destruct (tl_firstn _ n (a ++ flat_map op_alternate ops)) as [m ->]. now apply sub_firstn.
  - intros m Hm. injection Hm as <-. rewrite !firstn_length. lia.
Qed.

Lemma dm_loop_inv : forall max v sg items k p a r,
  (forall o c, In (o, c) (tl items) -> o <> 0%nat) ->
  (forall o c, hd_error items = Some (o, c) -> o = 0%nat -> p = [] /\ a = []) ->
  dm_inv max p a ->
  dm_loop v max sg k items (dm_of p a) = Ok r ->
  exists p' a', r = dm_of p' a' /\ dm_inv max p' a'
    /\ (length p' <= length p + 2 * length items)%nat /\ (length a' <= length a + 2 * length items)%nat.
Proof.
  intros max v sg. induction items as [|[o c] items IH]; intros k p a r T Z I H; cbn [dm_loop] in H.
  - injection H as <-. exists p, a. split; [reflexivity|]. split; [assumption|]. cbn. lia.
  - assert (T' : forall o c, In (o, c) (tl items) -> o <> 0%nat).
    { intros o' c' Hc. apply (T o' c'). cbn [tl]. destruct items; [destruct Hc|now right]. }
    assert (Z' : forall p a : ustr, forall o c, hd_error items = Some (o, c) -> o = 0%nat -> p = [] /\ a = []).
    { intros p' a' o' c' Hc ->. exfalso. apply (T 0%nat c'); [|reflexivity]. cbn [tl].
      destruct items; [discriminate|]. injection Hc as ->. now left. }
    destruct k as [|k].
    + destruct (dm_is_complete max _).
      * injection H as <-. exists p, a. split; [reflexivity|]. split; [assumption|]. cbn. lia.
      * apply bind_Ok in H as ([ops sk] & E & H). apply bind_Ok in H as (r' & E' & H).
        destruct (dm_step_inv max v sg o c ops sk p a r' E (Z o c eq_refl) I E') as (p' & a' & -> & I' & L1 & L2).
        apply IH in H as (p2 & a2 & -> & I2 & L3 & L4); [|assumption|apply Z'|assumption].
        exists p2, a2. split; [reflexivity|]. split; [assumption|]. cbn [length]. lia.
    + apply IH in H as (p2 & a2 & -> & I2 & L3 & L4); [|assumption|apply Z'|assumption].
      exists p2, a2. split; [reflexivity|]. split; [assumption|]. cbn [length]. lia.
Qed.

Lemma char_indices_length : forall s i, length (char_indices_from i s) = length s.
Proof. induction s as [|c s IH]; intros i; [reflexivity|]. cbn. now rewrite IH. Qed.
Lemma char_indices_pos : forall s i o c, (0 < i)%nat -> In (o, c) (char_indices_from i s) -> o <> 0%nat.
Proof.
  induction s as [|x s IH]; intros i o c H K; [destruct K|]. cbn in K. destruct K as [K|K].
  - injection K as <- <-. lia.
  - eapply IH; [|exact K]. lia.
Qed.

Lemma double_metaphone_inv : forall u max s r,
  double_metaphone u max s = Ok r -> dm_inv max (dm_primary r) (dm_alternate r)
   /\ (length (dm_primary r) <= 2 * length (str_upper u (trim u s)))%nat
   /\ (length (dm_alternate r) <= 2 * length (str_upper u (trim u s)))%nat.
Proof.
  intros u max s r H. unfold double_metaphone in H.
  assert (I0 : dm_inv max [] []) by (split; try reflexivity; intros; cbn; lia).
  destruct (trim u s) as [|x l] eqn:E.
  - injection H as <-. cbn. auto.
  - set (v := str_upper u (x :: l)) in *. cbv zeta in H.
    apply dm_loop_inv in H as (p & a & -> & I & L1 & L2); [| |auto|assumption].
    + unfold char_indices in L1, L2. rewrite char_indices_length in L1, L2. cbn [length] in *.
      cbn [dm_of dm_primary dm_alternate]. split; [assumption|]. lia.
    + unfold char_indices. intros o c. destruct v as [|y v]; [intros []|]. cbn [char_indices_from tl].
      apply char_indices_pos. pose proof (utf8_len_pos y). lia.
Qed.

(** ** Trimming *)
Definition all_ws (u : Unicode) (s : ustr) : Prop := forall c, In c s -> is_whitespace u c = true.
Lemma trim_start_ws : forall u w s, all_ws u w -> trim_start u (w ++ s) = trim_start u s.
Proof.
  intros u. induction w as [|c w IH]; intros s H; [reflexivity|]. cbn [app trim_start].
  rewrite (H c) by (now left). apply IH. intros x Hx. apply H. now right.
Qed.
Lemma all_ws_rev : forall u w, all_ws u w -> all_ws u (rev w).
Proof. intros u w H c Hc. apply H. now apply in_rev. Qed.
Lemma trim_start_split : forall u s, exists w, s = w ++ trim_start u s /\ all_ws u w.
Proof.
  intros u. induction s as [|c s (w & IH & H)]; [exists []; split; [reflexivity|intros ? []]|].
  cbn [trim_start]. destruct (is_whitespace u c) eqn:E.
  - exists (c :: w). split; [cbn; congruence|]. intros x [<-|Hx]; auto.
  - exists []. split; [reflexivity|intros ? []].
Qed.
Lemma trim_start_app_keep : forall u s t, trim_start u s <> [] -> trim_start u (s ++ t) = trim_start u s ++ t.
Proof.
  intros u. induction s as [|c s IH]; intros t H; [now elim H|]. cbn [app trim_start] in *.
  destruct (is_whitespace u c); [now apply IH|reflexivity].
Qed.
Lemma trim_start_nil : forall u s, trim_start u s = [] <-> all_ws u s.
Proof.
  intros u. induction s as [|c s IH]; cbn [trim_start]; [split; [intros _ ? []|reflexivity]|].
  destruct (is_whitespace u c) eqn:E.
  - rewrite IH. split; intros H; [intros x [<-|Hx]; auto|intros x Hx; apply H; now right].
  - split; [discriminate|]. intros H. specialize (H c (or_introl eq_refl)). congruence.
Qed.
Lemma trim_surround : forall u w s w', all_ws u w -> all_ws u w' -> trim u (w ++ s ++ w') = trim u s.
Proof.
  intros u w s w' Hw Hw'. unfold trim. rewrite trim_start_ws by assumption.
  destruct (trim_start u s) as [|c l] eqn:E.
  - pose proof (proj1 (trim_start_nil u s) E) as E'. rewrite trim_start_ws by assumption.
    rewrite (proj2 (trim_start_nil u w') Hw'). reflexivity.
  - rewrite trim_start_app_keep by congruence. rewrite E, rev_app_distr.
    rewrite trim_start_ws by (now apply all_ws_rev). reflexivity.
Qed.
Lemma is_whitespace_up : forall u c, is_whitespace u (ascii_up c) = is_whitespace u c.
Proof.
  intros u c. destruct (ascii_up_cases c) as [[? E]|[? E]]; rewrite E; [|reflexivity].
  unfold is_whitespace. nbool. reflexivity.
Qed.
Lemma trim_start_up : forall u s, trim_start u (map ascii_up s) = map ascii_up (trim_start u s).
Proof.
  intros u. induction s as [|c s IH]; [reflexivity|]. cbn [map trim_start]. rewrite is_whitespace_up.
  destruct (is_whitespace u c); [apply IH|reflexivity].
Qed.
Lemma trim_up : forall u s, trim u (map ascii_up s) = map ascii_up (trim u s).
Proof.
  intros u s. unfold trim. rewrite trim_start_up, <- map_rev, trim_start_up, <- map_rev. reflexivity.
Qed.
Lemma trim_incl : forall u s, incl (trim u s) s.
Proof.
  intros u s c Hc. unfold trim in Hc. apply in_rev in Hc.
  destruct (trim_start_split u (rev (trim_start u s))) as (w & E & _).
  assert (In c (trim_start u s)) as K by (apply in_rev; rewrite E; apply in_or_app; now right).
  destruct (trim_start_split u s) as (w' & E' & _). rewrite E'. apply in_or_app. now right.
Qed.
