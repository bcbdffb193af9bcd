(** * C95, Double Metaphone: encoding the primary code again and again comes to an end. *)
From Verif Require Import Base UnicodeM Lib Helper DoubleMetaphone BaseLemmas Spec_common Spec_contextual Spec_double_metaphone
  UnicodeLemmas Codes_proofs Contextual_proofs Props_size Props_size_dm Props_double_metaphone Props_double_metaphone_spec Typo_double_metaphone_proofs
  Props_again Props_again_dm.
Local Open Scope N_scope.

(** Conditions that cannot hold in a text of the letters [al] that has only letters of [al1] after its first. *)
Fixpoint never (al al1 : ustr) (c : cond) : bool :=
  match c with
  | At d ws => foreign (if (1 <=? d)%Z then al1 else al) ws
  | Begins ws | Somewhere ws | Finishes ws => foreign al ws
  | Both c d => never al al1 c || never al al1 d
  | Either c d => never al al1 c && never al al1 d
  | _ => false
  end.
Definition text_of (al al1 t : ustr) : Prop := (forall x, In x t -> In x al) /\ (forall x, In x (tl t) -> In x al1).
Lemma never_no : forall al al1 t i c, text_of al al1 t -> never al al1 c = true -> ~ holds t i c.
Proof.
  intros al al1 t i c [A A1]. induction c as [d ws|n|n|n|ws|ws|ws|c IHc d IHd|c IHc d IHd|c _]; cbn [never]; intros F; try discriminate F.
  - destruct (1 <=? d)%Z eqn:D; [|exact (absent_no al t i (At d ws) A F)]. apply Z.leb_le in D.
    cbn [holds]. intros (w & I & (a & b & E & L)). destruct (foreign_no al1 (tl t) ws w A1 F I) as (x & Ix & Nx). apply Nx.
    destruct a as [|y a]; [cbn in L; lia|]. rewrite E. cbn. apply in_or_app. right. apply in_or_app. now left.
  - exact (absent_no al t i (Begins ws) A F).
  - exact (absent_no al t i (Finishes ws) A F).
  - exact (absent_no al t i (Somewhere ws) A F).
  - cbn [holds]. apply orb_true_iff in F as [F|F]; [intros [H _]|intros [_ H]]; [now apply IHc in F|now apply IHd in F].
  - cbn [holds]. apply andb_true_iff in F as [F1 F2]. intros [H|H]; [now apply IHc in F1|now apply IHd in F2].
Qed.
Fixpoint outcomes (al al1 : ustr) (r : rule sound) : list sound :=
  match r with
  | Out s => [s]
  | If c r1 r2 => (if never al al1 c then [] else outcomes al al1 r1) ++ outcomes al al1 r2
  end.
Lemma outcomes_ok : forall al al1 t i r s, text_of al al1 t -> gives t i r s -> In s (outcomes al al1 r).
Proof.
  intros al al1 t i r s T G. induction G as [s|c r1 r2 s H G IH|c r1 r2 s H G IH]; cbn [outcomes]; [now left| |]; apply in_or_app; [left|now right].
  destruct (never al al1 c) eqn:E; [|exact IH]. now destruct (never_no al al1 t i c T E).
Qed.
(** All that the letters of such texts can give. *)
Definition all_give (ok : N -> ustr -> bool) (al al1 : ustr) : bool :=
  forallb (fun c => ok c [] && forallb (fun e => negb (isin c (fst e)) || forallb (fun s => ok c (fst (fst s))) (outcomes al al1 (snd e c))) double_metaphone_table) al.
Lemma all_give_ok : forall ok al al1 t i c r p a k, all_give ok al al1 = true -> text_of al al1 t ->
  nth_error t i = Some c -> rule_of double_metaphone_table (nothing 0) c r -> gives t i r (p, a, k) -> ok c p = true.
Proof.
  intros ok al al1 t i c r p a k G T N0 R Gi. unfold all_give in G. rewrite forallb_forall in G.
  assert (I : In c al) by (apply T; now apply nth_error_In in N0). specialize (G c I). apply andb_true_iff in G as [G0 G].
  destruct R as [ls f J Ic|_].
  - rewrite forallb_forall in G. specialize (G (ls, f) J). cbn [fst snd] in G. apply isin_In in Ic. rewrite Ic in G. cbn [negb orb] in G.
    rewrite forallb_forall in G. exact (G (p, a, k) (outcomes_ok al al1 t i (f c) (p, a, k) T Gi)).
  - inversion Gi; subst. exact G0.
Qed.
Lemma reads_in : forall set al al1 t, all_give (fun _ p => forallb (fun x => isin x set) p) al al1 = true -> text_of al al1 t ->
  forall i ps als, dm_reads t i ps als -> forall x, In x ps -> In x set.
Proof.
  intros set al al1 t G T i ps als R. induction R as [i L|i c r p a k ps als N0 Ru Gi R IH]; intros x Hx; [destruct Hx|].
  apply in_app_or in Hx as [Hx|Hx]; [|now apply IH].
  pose proof (all_give_ok _ al al1 t i c r p a k G T N0 Ru Gi) as F. cbn beta in F. rewrite forallb_forall in F. apply isin_In. now apply F.
Qed.
Definition stays (c : N) (p : ustr) : bool := match p with [] => true | [x] => x =? c | _ => false end.
Lemma reads_stay : forall al al1 t, all_give stays al al1 = true -> text_of al al1 t -> forall i ps als, dm_reads t i ps als ->
  (length ps <= length t - i)%nat /\ ((length t - i <= length ps)%nat -> ps = skipn i t).
Proof.
  intros al al1 t G T i ps als R. induction R as [i L|i c r p a k ps als N0 Ru Gi R (IH1 & IH2)].
  - cbn [length]. split; [lia|]. intros _. symmetry. now apply skipn_all2.
  - pose proof (all_give_ok _ al al1 t i c r p a k G T N0 Ru Gi) as F.
    assert (Li : (i < length t)%nat) by (apply nth_error_Some; congruence).
    assert (P : p = [] \/ p = [c]).
    { destruct p as [|x [|y p]]; [now left| |discriminate F]. cbn in F. apply N.eqb_eq in F. subst x. now right. }
    destruct P as [->| ->]; cbn [app length].
    + split; [lia|]. intros Le. lia.
    + split; [lia|]. intros Le. apply nth_error_split in N0 as (x & y & E & Lx).
      assert (Sk : skipn i t = c :: y).
      { rewrite E, <- Lx, skipn_app, skipn_all, Nat.sub_diag. reflexivity. }
      rewrite Sk. f_equal. assert (Lt : length t = (i + 1 + length y)%nat) by (rewrite E, app_length; cbn; lia).
      destruct y as [|y0 y].
      { apply length_zero_iff_nil. cbn [length] in Lt. lia. }
      assert (k = 0%nat) by (cbn [length] in Lt; lia). subst k. rewrite IH2 by lia.
      replace (i + 1 + 0)%nat with (1 + i)%nat by lia. rewrite <- skipn_skipn, Sk. reflexivity.
Qed.

Lemma primary_reads : forall u max t p, ascii_str t -> (forall x, In x t -> ~ blank x /\ ascii_up x = x) ->
  primary_of u max t = Ok p -> exists i ps als, dm_start t i /\ dm_reads t i ps als /\ p = dm_cut max ps.
Proof.
  intros u max t p A B H. unfold primary_of in H. apply bind_Ok in H as ([p0 a] & H & E). injection E as <-. cbn [dm_primary].
  assert (U : map ascii_up t = t).
  { clear A H. induction t as [|x t IH]; [reflexivity|]. cbn. f_equal; [apply B; now left|]. apply IH. intros y Hy. apply B. now right. }
  apply (C69_double_metaphone_is_its_definition u max t t _ _ A) in H; [|apply trimmed_none; intros c Hc; now apply B].
  rewrite U in H. destruct H as (i & ps & als & St & R & -> & _). now exists i, ps, als.
Qed.
Lemma over_code : forall t, (forall x, In x t -> In x $ "AFHJKLMNPRSTX0") -> ascii_str t /\ (forall x, In x t -> ~ blank x /\ ascii_up x = x).
Proof.
  intros t H. assert (K : forall x, In x t -> x < 128 /\ ~ blank x /\ ascii_up x = x).
  { intros x Hx. apply H in Hx. cbn in Hx. unfold blank. repeat (destruct Hx as [<-|Hx]; [repeat split; try reflexivity; lia|]). destruct Hx. }
  split; intros x Hx; now apply K.
Qed.
Lemma cut_in : forall max l x, In x (dm_cut max l) -> In x l.
Proof. intros [n|] l x H; [now apply In_firstn in H|exact H]. Qed.

Lemma second_primary : forall u max t p, text_of $ "AFHJKLMNPRSTX0" $ "FHJKLMNPRSTX0" t -> primary_of u max t = Ok p ->
  forall x, In x p -> In x $ "AFJKLMNPRSTX0".
Proof.
  intros u max t p T H x Hx. destruct (over_code t (proj1 T)) as [A B].
  destruct (primary_reads u max t p A B H) as (i & ps & als & _ & R & ->). apply cut_in in Hx.
  refine (reads_in $ "AFJKLMNPRSTX0" _ _ t _ T i ps als R x Hx). vm_compute. reflexivity.
Qed.
Lemma third_primary : forall u max t p, (forall x, In x t -> In x $ "AFJKLMNPRSTX0") -> primary_of u max t = Ok p ->
  forall x, In x p -> In x $ "AFJKLMNPRST".
Proof.
  intros u max t p T H x Hx. destruct (over_code t) as [A B]; [intros y Hy; apply T in Hy; cbn in Hy |- *; tauto|].
  destruct (primary_reads u max t p A B H) as (i & ps & als & _ & R & ->). apply cut_in in Hx.
  refine (reads_in $ "AFJKLMNPRST" $ "AFJKLMNPRSTX0" $ "AFJKLMNPRSTX0" t _ _ i ps als R x Hx); [vm_compute; reflexivity|].
  split; [exact T|]. intros y Hy. apply T. destruct t; [destruct Hy|now right].
Qed.
Lemma later_primary : forall u max t p, (forall x, In x t -> In x $ "AFJKLMNPRST") -> primary_of u max t = Ok p ->
  (length p < length t)%nat \/ p = t.
Proof.
  intros u max t p T H. destruct (over_code t) as [A B]; [intros y Hy; apply T in Hy; cbn in Hy |- *; tauto|].
  destruct (primary_reads u max t p A B H) as (i & ps & als & St & R & ->).
  destruct (reads_stay $ "AFJKLMNPRST" $ "AFJKLMNPRST" t) with (i := i) (ps := ps) (als := als) as [L E]; [vm_compute; reflexivity| |exact R|].
  { split; [exact T|]. intros y Hy. apply T. destruct t; [destruct Hy|now right]. }
  assert (C : (length (dm_cut max ps) <= length ps)%nat) by (destruct max as [n|]; cbn; [rewrite firstn_length; lia|lia]).
  destruct (Nat.lt_ge_cases (length (dm_cut max ps)) (length t)) as [S|S]; [now left|]. right.
  destruct St as [(-> & w & r & I & Ew)|(-> & _)].
  - exfalso. assert (0 < length t)%nat; [|lia]. rewrite Ew, app_length. cbn in I. repeat (destruct I as [<-|I]; [cbn; lia|]). destruct I.
  - assert (Q : ps = t) by (apply E; lia). subst ps. destruct max as [n|]; [|reflexivity]. cbn in *. rewrite firstn_length in S. apply firstn_all2. lia.
Qed.
Lemma primary_total : forall u max t, ascii_str t -> exists p, primary_of u max t = Ok p.
Proof. intros u max t A. destruct (C27_total_ascii u max t A) as [r H]. exists (dm_primary r). unfold primary_of. now rewrite H. Qed.
Lemma encoded_more : forall f n m s c, encoded f n s = Ok c -> encoded f (n + m) s = encoded f m c.
Proof.
  intros f. induction n as [|n IH]; intros m s c H; [now injection H as ->|]. cbn [encoded Nat.add] in *.
  destruct (f s) as [d| |]; try discriminate H. cbn [bind] in *. now apply IH.
Qed.
Lemma settles : forall u max k t, (length t <= k)%nat -> (forall x, In x t -> In x $ "AFJKLMNPRST") ->
  exists n final, (n <= length t)%nat /\ encoded (primary_of u max) n t = Ok final /\ primary_of u max final = Ok final.
Proof.
  intros u max. induction k as [|k IH]; intros t L T; (destruct (over_code t) as [A _]; [intros y Hy; apply T in Hy; cbn in Hy |- *; tauto|]);
    destruct (primary_total u max t A) as [p Hp]; destruct (later_primary u max t p T Hp) as [Sh| ->];
    try lia; try (exists 0%nat, t; split; [lia|]; split; [reflexivity|exact Hp]).
  destruct (IH p) as (n & final & Ln & E & F); [lia| |].
  { intros x Hx. apply (third_primary u max t p); [|exact Hp|exact Hx]. intros y Hy. apply T in Hy. cbn in Hy |- *. tauto. }
  exists (S n), final. split; [lia|]. split; [|exact F]. cbn [encoded]. rewrite Hp. exact E.
Qed.
(** For every name and every limit there is a last primary code. *)
Theorem C95_double_metaphone_primary_settles : forall u max s code, primary_of u max s = Ok code ->
  exists n final, (4 * n <= 9 * length code + 12)%nat /\ encoded (primary_of u max) n s = Ok final /\ primary_of u max final = Ok final.
Proof.
  intros u max s c1 H1.
  assert (T1 : text_of $ "AFHJKLMNPRSTX0" $ "FHJKLMNPRSTX0" c1).
  { unfold primary_of in H1. apply bind_Ok in H1 as (r & H & E). injection E as <-. destruct (C27_alphabet u max s r H) as (K1 & K2 & _). now split. }
  assert (Sz : forall t p, ascii_str t -> primary_of u max t = Ok p -> (2 * length p <= 3 * length t)%nat).
  { intros t p A H. unfold primary_of in H. apply bind_Ok in H as ([p0 a] & H & E). injection E as <-. exact (proj1 (C94_double_metaphone u max t p0 a A H)). }
  destruct (over_code c1 (proj1 T1)) as [A1 _]. destruct (primary_total u max c1 A1) as [c2 H2].
  pose proof (second_primary u max c1 c2 T1 H2) as T2.
  destruct (over_code c2) as [A2 _]; [intros y Hy; apply T2 in Hy; cbn in Hy |- *; tauto|]. destruct (primary_total u max c2 A2) as [c3 H3].
  pose proof (third_primary u max c2 c3 T2 H3) as T3.
  destruct (settles u max (length c3) c3 (le_n _) T3) as (n & final & Ln & E & F).
  exists (3 + n)%nat, final. pose proof (Sz c1 c2 A1 H2). pose proof (Sz c2 c3 A2 H3). split; [lia|]. split; [|exact F].
  assert (E3 : encoded (primary_of u max) 3 s = Ok c3) by (cbn [encoded]; rewrite H1; cbn [bind]; rewrite H2; cbn [bind]; now rewrite H3).
  rewrite (encoded_more _ 3 n s c3 E3). exact E.
Qed.
Example C95_double_metaphone_nonvacuous : let f := primary_of latin1_only None in
  f $ "Alexjajusha" = Ok $ "ALKSJJX" /\ encoded f 2 $ "Alexjajusha" = Ok $ "ALKSKS" /\ f $ "ALKSKS" = Ok $ "ALKSKS".
Proof. cbv zeta. repeat (match goal with |- _ /\ _ => split end); vm_compute; reflexivity. Qed.
