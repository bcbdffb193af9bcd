(** * Proofs about spelling mistakes. *)
From Verif Require Import Base UnicodeM Lib Soundex Cologne BaseLemmas Spec_common Spec_soundex Spec_cologne Spec_exchange Spec_typo UnicodeLemmas
  Soundex_proofs Cologne_proofs Exchange_proofs.
Local Open Scope N_scope.

(** ** Replacing a stretch takes as many mistakes as the longer of the two has characters *)
Lemma mistakes_more : forall ok n m s t, mistakes ok n s t -> (n <= m)%nat -> mistakes ok m s t.
Proof.
  intros ok n m s t H. revert m. induction H as [n s|n s t w M _ IH]; intros m L; [constructor|].
  destruct m as [|m]; [lia|]. apply (one_more ok m s t w M). apply IH. lia.
Qed.
Lemma mistakes_trans : forall ok n m s t w, mistakes ok n s t -> mistakes ok m t w -> mistakes ok (n + m) s w.
Proof.
  intros ok n m s t w H. revert m. induction H as [n s|n s t x M _ IH]; intros m K.
  - apply (mistakes_more ok m); [exact K|lia].
  - cbn [Nat.add]. apply (one_more ok _ s t w M). now apply IH.
Qed.
Lemma stretch : forall old new n a b, (length old <= n)%nat -> (length new <= n)%nat ->
  mistakes any_character n (a ++ old ++ b) (a ++ new ++ b).
Proof.
  induction old as [|x old IH]; intros new n a b L1 L2.
  - clear L1. revert n a L2. induction new as [|y new IN]; intros n a L2; [constructor|].
    destruct n as [|n]; [cbn in L2; lia|].
    apply (one_more _ n _ (a ++ y :: b)); [apply (too_many _ a y b I)|].
    cbn [app]. replace (a ++ y :: b) with ((a ++ [y]) ++ b) by now rewrite <- app_assoc.
    replace (a ++ y :: new ++ b) with ((a ++ [y]) ++ new ++ b) by now rewrite <- app_assoc.
    apply IN. cbn in L2. lia.
  - destruct n as [|n]; [cbn in L1; lia|]. destruct new as [|y new].
    + apply (one_more _ n _ (a ++ old ++ b)); [apply (missing _ a x (old ++ b) I)|].
      apply IH; cbn in L1 |- *; lia.
    + apply (one_more _ n _ (a ++ y :: old ++ b)); [apply (mistaken _ a x y (old ++ b) I I)|].
      cbn [app]. replace (a ++ y :: old ++ b) with ((a ++ [y]) ++ old ++ b) by now rewrite <- app_assoc.
      replace (a ++ y :: new ++ b) with ((a ++ [y]) ++ new ++ b) by now rewrite <- app_assoc.
      apply IH; cbn in L1, L2; lia.
Qed.

(** One mistake in the name moves the code by at most [k]: so do any number of them. *)
Lemma follows_each : forall ok (code : ustr -> ustr -> Prop) k,
  (forall s p q, code s p -> code s q -> p = q) ->
  (forall s t p, mistake ok s t -> code s p -> exists q, code t q /\ mistakes any_character k p q) ->
  follows ok code k.
Proof.
  intros ok code k D One n s t p q H. revert p q. induction H as [n s|n s t w M _ IH]; intros p q P Q.
  - rewrite (D s p q P Q). constructor.
  - destruct (One s t p M P) as (r & R & E). replace (k * S n)%nat with (k + k * n)%nat by lia.
    apply (mistakes_trans _ k (k * n) p r q E). now apply IH.
Qed.
(** A mistake as a stretch of at most one character for another. *)
Lemma mistake_parts : forall ok s t, mistake ok s t ->
  exists a x y b, s = a ++ x ++ b /\ t = a ++ y ++ b /\ (length x <= 1)%nat /\ (length y <= 1)%nat
  /\ (forall c, In c x -> ok c) /\ (forall c, In c y -> ok c).
Proof.
  intros ok s t [a c b K|a c b K|a c d b K K2]; [exists a, [], [c], b|exists a, [c], [], b|exists a, [c], [d], b];
    (split; [reflexivity|]; split; [reflexivity|]; split; [cbn; lia|]; split; [cbn; lia|]; split; intros z Hz; cbn [In] in Hz;
     repeat (destruct Hz as [<-|Hz]; [assumption|]); contradiction).
Qed.

(** ** Refined Soundex *)
Lemma collapse_step : forall x l, exists o, (length o <= 1)%nat /\ collapse (x :: l) = o ++ collapse l.
Proof.
  intros x [|y l]; [exists [x]; split; [cbn; lia|reflexivity]|].
  change (collapse (x :: y :: l)) with (if x =? y then collapse (y :: l) else x :: collapse (y :: l)).
  destruct (x =? y); [exists []|exists [x]]; (split; [cbn; lia|reflexivity]).
Qed.
Lemma collapse_few : forall m l, exists o, (length o <= length m)%nat /\ collapse (m ++ l) = o ++ collapse l.
Proof.
  induction m as [|x m IH]; intros l; [now exists []|]. destruct (IH l) as (o & L & E).
  destruct (collapse_step x (m ++ l)) as (o1 & L1 & E1). exists (o1 ++ o). split.
  - rewrite app_length. cbn [length]. lia.
  - cbn [app]. rewrite E1, E. now rewrite app_assoc.
Qed.
Lemma collapse_tl : forall (a : ustr) z, exists p, forall r, collapse (a ++ z :: r) = p ++ collapse (z :: r).
Proof.
  induction a as [|x a IH]; intros z; [now exists []|]. destruct (IH z) as (p & E).
  destruct a as [|y a].
  - exists (if x =? z then [] else [x]). intros r. cbn [app].
    change (collapse (x :: z :: r)) with (if x =? z then collapse (z :: r) else x :: collapse (z :: r)).
    destruct (x =? z); reflexivity.
  - exists ((if x =? y then [] else [x]) ++ p). intros r. cbn [app].
    change (collapse (x :: y :: a ++ z :: r)) with (if x =? y then collapse (y :: a ++ z :: r) else x :: collapse (y :: a ++ z :: r)).
    pose proof (E r) as Er. cbn [app] in Er. rewrite Er. destruct (x =? y); reflexivity.
Qed.

(** Letters, with a stretch of at most one replaced: the code's stretch is of at most two. *)
Lemma refined_stretch : forall digit a x y b, (length x <= 1)%nat -> (length y <= 1)%nat ->
  mistakes any_character 2 (refined_code digit (a ++ x ++ b)) (refined_code digit (a ++ y ++ b)).
Proof.
  intros digit a x y b Lx Ly. destruct a as [|f a].
  - (* at the beginning *)
    assert (B : forall x, (length x <= 1)%nat -> exists o r, (length o <= 2)%nat /\
              refined_code digit (x ++ b) = o ++ collapse (map digit b) ++ r /\ (b <> [] -> r = [])).
    { clear. intros x Lx. destruct x as [|c x].
      - destruct b as [|c b]; [exists [], []; split; [cbn; lia|]; split; [reflexivity|congruence]|].
        exists [c], []. split; [cbn; lia|]. rewrite app_nil_r. split; reflexivity.
      - destruct x; [|cbn in Lx; lia]. cbn [app]. unfold refined_code. cbn [map].
        destruct (collapse_step (digit c) (map digit b)) as (o & L & E). exists (c :: o), [].
        rewrite app_nil_r, E. split; [cbn; lia|]. split; reflexivity. }
    destruct (B x Lx) as (o1 & r1 & L1 & E1 & R1). destruct (B y Ly) as (o2 & r2 & L2 & E2 & R2).
    cbn [app]. rewrite E1, E2. destruct b as [|c b].
    + assert (R : forall x o r, (length x <= 1)%nat -> refined_code digit (x ++ []) = o ++ [] ++ r ->
                  (length (o ++ [] ++ r) <= 2)%nat).
      { clear. intros x o r L <-. rewrite app_nil_r. destruct x as [|c x]; [cbn; lia|].
        destruct x; [cbn; lia|cbn in L; lia]. }
      cbn [map collapse] in *. pose proof (R x o1 r1 Lx E1) as K1. pose proof (R y o2 r2 Ly E2) as K2.
      pose proof (stretch _ _ 2 [] [] K1 K2) as K. cbn [app] in K |- *. now rewrite !app_nil_r in K.
    + rewrite R1, R2, !app_nil_r by discriminate. exact (stretch o1 o2 2 [] _ L1 L2).
  - (* later *)
    cbn [app]. unfold refined_code.
    change (f :: a ++ x ++ b) with ((f :: a) ++ x ++ b). change (f :: a ++ y ++ b) with ((f :: a) ++ y ++ b).
    rewrite !map_app. destruct (exists_last (l := map digit (f :: a))) as (d & z & Ez); [discriminate|].
    rewrite Ez, <- !app_assoc. cbn [app]. destruct (collapse_tl d z) as (p & Ep). rewrite !Ep.
    destruct (collapse_few (z :: map digit x) (map digit b)) as (o1 & L1 & E1).
    destruct (collapse_few (z :: map digit y) (map digit b)) as (o2 & L2 & E2).
    cbn [app] in E1, E2. rewrite E1, E2. cbn [length] in L1, L2. rewrite map_length in L1, L2.
    exact (stretch o1 o2 2 (f :: p) _ ltac:(lia) ltac:(lia)).
Qed.
Lemma clean_short : forall u x, (length x <= 1)%nat -> (forall c, In c x -> c < 128) ->
  (length (soundex_clean u x) <= 1)%nat /\ uppers (soundex_clean u x).
Proof.
  intros u x L A. rewrite clean_ascii by (intros c Hc _; now apply A). split.
  - unfold ascii_letters. rewrite map_length. pose proof (filter_length_le _ is_ascii_alpha x). lia.
  - apply ascii_letters_uppers.
Qed.
Lemma refined_follows : forall u m, length m = 26%nat ->
  follows (fun c => c < 128) (fun s p => refined_encode u m s = Ok p) 2.
Proof.
  intros u m L. apply follows_each; [intros s p q P Q; rewrite P in Q; now injection Q|].
  intros s t p M P. destruct (mistake_parts _ s t M) as (a & x & y & b & -> & -> & Lx & Ly & Ax & Ay).
  destruct (clean_short u x Lx Ax) as [Cx Ux]. destruct (clean_short u y Ly Ay) as [Cy Uy].
  assert (U : uppers (soundex_clean u (a ++ x ++ b))).
  { destruct (upper_split (soundex_clean u (a ++ x ++ b))) as [HU|(r & c & v & E & Hp & Hc)]; [exact HU|].
    exfalso. assert (Q : refined_encode u m (a ++ x ++ b) = Panic).
    { apply refined_panics_iff; [exact L|]. exists c. split; [|exact Hc]. rewrite E. apply in_or_app. right. now left. }
    rewrite P in Q. discriminate Q. }
  assert (V : uppers (soundex_clean u (a ++ y ++ b))).
  { intros c Hc. rewrite !clean_app in *. apply in_app_or in Hc as [Hc|Hc].
    - apply U. apply in_or_app. now left.
    - apply in_app_or in Hc as [Hc|Hc]; [now apply Uy|]. apply U. apply in_or_app. right. apply in_or_app. now right. }
  rewrite refined_letters in P by assumption. injection P as <-. eexists. split; [now apply refined_letters|].
  rewrite !clean_app. now apply refined_stretch.
Qed.

(** ** Cologne *)
Definition says_now (last : option N) (empty : bool) (x : N) : bool :=
  negb (x =? # "-") && negb (opt_is last x) && (negb (x =? # "0") || empty).
Fixpoint scan (last : option N) (empty : bool) (l : ustr) : ustr :=
  match l with
  | [] => []
  | x :: r => (if says_now last empty x then [x] else []) ++ scan (Some x) (empty && negb (says_now last empty x)) r
  end.
Fixpoint scan_last (last : option N) (l : ustr) : option N := match l with [] => last | x :: r => scan_last (Some x) r end.
Fixpoint scan_empty (last : option N) (empty : bool) (l : ustr) : bool :=
  match l with [] => empty | x :: r => scan_empty (Some x) (empty && negb (says_now last empty x)) r end.
Lemma scan_app : forall a b last empty,
  scan last empty (a ++ b) = scan last empty a ++ scan (scan_last last a) (scan_empty last empty a) b.
Proof.
  induction a as [|x a IH]; intros b last empty; [reflexivity|]. cbn [app scan scan_last scan_empty].
  now rewrite IH, app_assoc.
Qed.
Definition none (l : ustr) : bool := match l with [] => true | _ => false end.
Lemma reduce_scan : forall m l, cologne_reduce (l ++ m) = cologne_reduce l ++ scan (hd_error (rev l)) (none (cologne_reduce l)) m.
Proof.
  induction m as [|x m IH]; intros l; [now rewrite !app_nil_r|].
  replace (l ++ x :: m) with ((l ++ [x]) ++ m) by now rewrite <- app_assoc.
  rewrite IH, reduce_snoc, rev_app_distr. cbn [rev app hd_error scan]. fold (none (cologne_reduce l)).
  fold (says_now (hd_error (rev l)) (none (cologne_reduce l)) x).
  destruct (says_now (hd_error (rev l)) (none (cologne_reduce l)) x).
  - rewrite <- app_assoc. cbn [app negb]. rewrite andb_false_r.
    replace (none (cologne_reduce l ++ [x])) with false; [reflexivity|]. now destruct (cologne_reduce l).
  - cbn [app negb]. now rewrite andb_true_r.
Qed.
(** Something has been written once a digit has been met. *)
Definition seen (last : option N) (empty : bool) : Prop := forall d, last = Some d -> d <> # "-" -> empty = false.
Lemma seen_next : forall last empty x, seen last empty -> seen (Some x) (empty && negb (says_now last empty x)).
Proof.
  intros last empty x H d E Nd. injection E as <-. unfold says_now.
  replace (x =? 45) with false by (symmetry; now apply N.eqb_neq). cbn [negb andb].
  destruct (opt_is last x) eqn:O.
  - destruct last as [z|]; [|discriminate O]. cbn [opt_is] in O. apply N.eqb_eq in O. subst z. now rewrite (H x eq_refl Nd).
  - destruct empty; [|reflexivity]. cbn [negb andb]. now rewrite orb_true_r.
Qed.
Lemma seen_after : forall l last empty, seen last empty -> seen (scan_last last l) (scan_empty last empty l).
Proof.
  induction l as [|x l IH]; intros last empty H; [exact H|]. cbn [scan_last scan_empty]. apply IH. now apply seen_next.
Qed.
Lemma seen_reduce : forall l, seen (hd_error (rev l)) (none (cologne_reduce l)).
Proof.
  intros l d E Nd. destruct (cologne_reduce l) eqn:R; [|reflexivity]. exfalso. apply Nd. apply (proj1 (reduce_nil_iff l) R).
  apply in_rev. destruct (rev l) as [|z r]; [discriminate E|]. injection E as ->. now left.
Qed.
(** From two places on, the same text is read with at most one digit more or less. *)
Lemma scan_meet : forall b l1 e1 l2 e2, seen l1 e1 -> seen l2 e2 ->
  exists o1 o2 r, scan l1 e1 b = o1 ++ r /\ scan l2 e2 b = o2 ++ r /\ (length o1 <= 1)%nat /\ (length o2 <= 1)%nat.
Proof.
  induction b as [|x b IH]; intros l1 e1 l2 e2 S1 S2; [exists [], [], []; cbn; repeat split; lia|].
  cbn [scan]. pose proof (seen_next _ _ x S1) as T1. pose proof (seen_next _ _ x S2) as T2.
  destruct (N.eq_dec x (# "-")) as [->|Nx].
  - unfold says_now in *. cbn [N.eqb Pos.eqb negb andb app] in *. exact (IH _ _ _ _ T1 T2).
  - rewrite (T1 x eq_refl Nx), (T2 x eq_refl Nx).
    exists (if says_now l1 e1 x then [x] else []), (if says_now l2 e2 x then [x] else []), (scan (Some x) false b).
    split; [reflexivity|]. split; [reflexivity|]. split; [destruct (says_now l1 e1 x)|destruct (says_now l2 e2 x)]; cbn; lia.
Qed.
Definition marks (l : ustr) : nat := length (filter (fun d => negb (d =? # "-")) l).
Lemma marks_app : forall a b, marks (a ++ b) = (marks a + marks b)%nat.
Proof. intros a b. unfold marks. now rewrite filter_app, app_length. Qed.
Lemma scan_marks : forall l last empty, (length (scan last empty l) <= marks l)%nat.
Proof.
  induction l as [|x l IH]; intros last empty; [cbn; lia|]. cbn [scan]. rewrite app_length. unfold marks in *. cbn [filter].
  specialize (IH (Some x) (empty && negb (says_now last empty x))). unfold says_now in *.
  destruct (x =? 45); cbn [negb andb length] in *; [lia|].
  match goal with |- context[if ?q then [x] else []] => destruct q end; cbn [length]; lia.
Qed.
Lemma reduce_stretch : forall a m1 m2 b k, (marks m1 <= k)%nat -> (marks m2 <= k)%nat ->
  mistakes any_character (k + 1) (cologne_reduce (a ++ m1 ++ b)) (cologne_reduce (a ++ m2 ++ b)).
Proof.
  intros a m1 m2 b k L1 L2. rewrite !reduce_scan, !scan_app.
  set (l := hd_error (rev a)). set (e := none (cologne_reduce a)). assert (SE : seen l e) by apply seen_reduce.
  destruct (scan_meet b _ _ _ _ (seen_after m1 l e SE) (seen_after m2 l e SE)) as (o1 & o2 & r & -> & -> & K1 & K2).
  pose proof (scan_marks m1 l e). pose proof (scan_marks m2 l e). rewrite !(app_assoc (scan l e _)).
  apply stretch; rewrite app_length; lia.
Qed.

(** What the letter before the mistake, and those after it, are worth. *)
Lemma table_short : forall onset prev next c, (length (cologne_table onset prev next c) <= 2)%nat
  /\ (length (cologne_table onset prev next c) <= 1 \/ forall next', cologne_table onset prev next' c = cologne_table onset prev next c)%nat.
Proof.
  intros onset prev next c. unfold cologne_table.
  repeat (match goal with |- context[if isin c ?k then _ else _] => destruct (isin c k) end);
  repeat (match goal with |- context[length (if ?q then _ else _)] => destruct q end);
  (split; [cbn; lia|]); first [left; cbn; lia|right; intros; reflexivity].
Qed.
Lemma marks_le : forall l, (marks l <= length l)%nat.
Proof. intros l. apply filter_length_le. Qed.
Lemma codes_before_mistake : forall text before n1 n2, exists a t1 t2,
  codes_with_next before text n1 = a ++ t1 /\ codes_with_next before text n2 = a ++ t2 /\ (marks t1 <= 1)%nat /\ (marks t2 <= 1)%nat.
Proof.
  induction text as [|c r IH]; intros before n1 n2; [exists [], [], []; cbn; repeat split; lia|].
  cbn [codes_with_next]. destruct (isin c _) eqn:Ec; [|apply IH]. destruct r as [|x r].
  - cbn [codes_with_next]. rewrite !app_nil_r.
    destruct (table_short (forallb (fun l => l =? 72) before) (hd_error before) n1 c) as [_ [K|K]].
    + destruct (table_short (forallb (fun l => l =? 72) before) (hd_error before) n2 c) as [_ [K2|K2]].
      * do 3 eexists. split; [symmetry; apply app_nil_l|]. split; [symmetry; apply app_nil_l|].
        split; (eapply Nat.le_trans; [apply marks_le|assumption]).
      * rewrite (K2 n1) in *. exists (cologne_table (forallb (fun l => l =? 72) before) (hd_error before) n2 c), [], [].
        rewrite app_nil_r. cbn; repeat split; lia.
    + rewrite (K n2). exists (cologne_table (forallb (fun l => l =? 72) before) (hd_error before) n1 c), [], [].
      rewrite app_nil_r. cbn; repeat split; lia.
  - destruct (IH (c :: before) n1 n2) as (a & t1 & t2 & -> & -> & K1 & K2).
    eexists (_ ++ a), t1, t2. rewrite !app_assoc. repeat split; assumption.
Qed.
Lemma codes_after_mistake : forall b before1 before2, exists m1 m2 r,
  cologne_codes before1 b = m1 ++ r /\ cologne_codes before2 b = m2 ++ r /\ (marks m1 <= 1)%nat /\ (marks m2 <= 1)%nat.
Proof.
  induction b as [|c b IH]; intros before1 before2; [exists [], [], []; cbn; repeat split; lia|].
  cbn [cologne_codes]. destruct (isin c $ "ABCDEFGHIJKLMNOPQRSTUVWXYZ") eqn:Ec; [|apply IH].
  destruct (N.eq_dec c (# "H")) as [->|Nh].
  - rewrite !table_H. destruct (IH (72 :: before1) (72 :: before2)) as (m1 & m2 & r & E1 & E2 & K1 & K2).
    cbn in E1, E2 |- *. rewrite E1, E2. exists (45 :: m1), (45 :: m2), r. repeat split; assumption.
  - assert (E : cologne_codes (c :: before1) b = cologne_codes (c :: before2) b).
    { apply codes_before; [|reflexivity]. cbn [forallb]. now replace (c =? 72) with false by (symmetry; now apply N.eqb_neq). }
    rewrite E. set (r := cologne_codes (c :: before2) b).
    assert (T : forall onset1 prev1 onset2 prev2 next, exists m1 m2 t, cologne_table onset1 prev1 next c = m1 ++ t
      /\ cologne_table onset2 prev2 next c = m2 ++ t /\ (length m1 <= 1)%nat /\ (length m2 <= 1)%nat).
    { clear. intros onset1 prev1 onset2 prev2 next. unfold cologne_table.
      repeat (match goal with |- context[if isin c ?k then _ else _] => destruct (isin c k) end);
      repeat (match goal with |- context[if ?q then _ else _] => destruct q end);
      first [now (do 2 exists []; eexists; cbn [app length]; repeat split; lia)
            |now (exists [], [52], [56]; cbn; repeat split; lia)|now (exists [52], [], [56]; cbn; repeat split; lia)
            |now (do 2 eexists; exists []; rewrite !app_nil_r; repeat split; cbn; lia)]. }
    destruct (T (forallb (fun l => l =? 72) before1) (hd_error before1) (forallb (fun l => l =? 72) before2) (hd_error before2) (hd_error b))
      as (m1 & m2 & t & -> & -> & K1 & K2). exists m1, m2, (t ++ r). rewrite !app_assoc. repeat split;
      (eapply Nat.le_trans; [apply marks_le|assumption]).
Qed.
Lemma codes_stretch : forall a x y b, (length x <= 1)%nat -> (length y <= 1)%nat ->
  mistakes any_character 5 (cologne_reduce (cologne_codes [] (a ++ x ++ b))) (cologne_reduce (cologne_codes [] (a ++ y ++ b))).
Proof.
  intros a x y b Lx Ly. rewrite (codes_split a (x ++ b)), (codes_split a (y ++ b)).
  destruct (codes_before_mistake a [] (hd_error (x ++ b)) (hd_error (y ++ b))) as (A & t1 & t2 & -> & -> & K1 & K2).
  set (before := before_after [] a).
  assert (X : forall x, (length x <= 1)%nat -> exists m before', cologne_codes before (x ++ b) = m ++ cologne_codes before' b /\ (marks m <= 2)%nat).
  { clear. intros x L. destruct x as [|c x]; [exists [], before; cbn; split; [reflexivity|lia]|].
    destruct x; [|cbn in L; lia]. cbn [app cologne_codes]. destruct (isin c _); [|exists [], before; cbn; split; [reflexivity|lia]].
    eexists _, (c :: before). split; [reflexivity|]. eapply Nat.le_trans; [apply marks_le|]. apply table_short. }
  destruct (X x Lx) as (m1 & b1 & -> & M1). destruct (X y Ly) as (m2 & b2 & -> & M2).
  destruct (codes_after_mistake b b1 b2) as (n1 & n2 & r & -> & -> & N1 & N2).
  rewrite <- !app_assoc. rewrite (app_assoc t1), (app_assoc t2), (app_assoc (t1 ++ m1)), (app_assoc (t2 ++ m2)).
  apply (reduce_stretch A _ _ r 4); rewrite !marks_app; lia.
Qed.
(** A character whose capital form is at most one character. *)
Definition single_capital (u : Unicode) (c : N) : Prop := (length (to_upper u c) <= 1)%nat.
Lemma cologne_follows : forall u, follows (single_capital u) (fun s p => cologne_encode u s = Ok p) 5.
Proof.
  intros u. apply follows_each; [intros s p q P Q; rewrite P in Q; now injection Q|].
  intros s t p M P. destruct (mistake_parts _ s t M) as (a & x & y & b & -> & -> & Lx & Ly & Ax & Ay).
  rewrite encode_codes in P. injection P as <-. eexists. split; [apply encode_codes|].
  rewrite !str_upper_app, !map_app.
  assert (X : forall x, (length x <= 1)%nat -> (forall c, In c x -> single_capital u c) -> (length (map fold_upper (str_upper u x)) <= 1)%nat).
  { clear. intros x L A. rewrite map_length. destruct x as [|c x]; [cbn; lia|]. destruct x; [|cbn in L; lia].
    unfold str_upper. cbn [flat_map]. rewrite app_nil_r. apply A. now left. }
  apply codes_stretch; apply X; assumption.
Qed.
