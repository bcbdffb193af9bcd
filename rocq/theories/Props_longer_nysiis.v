(** * C86: NYSIIS takes back at most four letters. *)
From Verif Require Import Base UnicodeM Lib Helper Soundex Nysiis BaseLemmas Spec_common Spec_doubled Spec_longer Spec_rewrite Spec_nysiis
  UnicodeLemmas Props_doubled Props_nysiis Rewrite_proofs Soundex_proofs Nysiis_proofs Nysiis_spec_proofs Props_longer.
Local Open Scope N_scope.

(** ** The loop: a letter for each, then repetitions dropped *)
Definition stepped (p c : N) (r : ustr) : ustr :=
  let t := ny_transcode p c (hd_error r) (hd_error (tl r)) in t ++ skipn (length t - 1) r.
Fixpoint written (n : nat) (p : N) (s : ustr) : ustr :=
  match n, s with
  | S n', c :: r => match stepped p c r with [] => [] | c' :: r' => c' :: written n' c' r' end
  | _, _ => []
  end.
Fixpoint squeezed (p : N) (s : ustr) : ustr :=
  match s with [] => [] | c :: r => if p =? c then squeezed c r else c :: squeezed c r end.
Lemma fits : forall p c r, (length (ny_transcode p c (hd_error r) (hd_error (tl r))) <= length (c :: r))%nat.
Proof.
  intros p c r. destruct (transcode_len p c (hd_error r) (hd_error (tl r))) as (H1 & H2 & H3 & H4).
  destruct r as [|x r]; cbn [hd_error tl length] in *; [pose proof (H2 eq_refl); lia|]. destruct r as [|y r]; cbn [hd_error tl length] in *; [pose proof (H3 eq_refl); lia|lia].
Qed.
Lemma stepped_shape : forall p c r, exists c' r', stepped p c r = c' :: r' /\ length r' = length r.
Proof.
  intros p c r. pose proof (fits p c r) as F. destruct (transcode_len p c (hd_error r) (hd_error (tl r))) as (H1 & _). unfold stepped. cbv zeta.
  destruct (ny_transcode p c (hd_error r) (hd_error (tl r))) as [|x t]; [cbn in H1; lia|]. cbn [app]. eexists _, _. split; [reflexivity|].
  cbn [length] in *. rewrite app_length, skipn_length. lia.
Qed.
Lemma loop_written : forall n s p, (length s <= n)%nat -> ny_loop n p s = Ok (squeezed p (written n p s)).
Proof.
  induction n as [|n IH]; intros s p L; [destruct s; [reflexivity|cbn in L; lia]|]. destruct s as [|c r]; [reflexivity|].
  cbn [ny_loop written]. cbv zeta. rewrite (proj2 (Nat.ltb_ge _ _) (fits p c r)).
  assert (E : ny_transcode p c (hd_error r) (hd_error (tl r)) ++ skipn (length (ny_transcode p c (hd_error r) (hd_error (tl r)))) (c :: r) = stepped p c r).
  { unfold stepped. cbv zeta. destruct (transcode_len p c (hd_error r) (hd_error (tl r))) as (H1 & _).
    destruct (length (ny_transcode p c (hd_error r) (hd_error (tl r)))) as [|k] eqn:K; [lia|]. cbn [skipn]. rewrite Nat.sub_succ, Nat.sub_0_r. reflexivity. }
  rewrite E. destruct (stepped_shape p c r) as (c' & r' & -> & L'). rewrite (IH r' c') by (cbn [length] in L; lia). cbn [bind squeezed]. reflexivity.
Qed.
Lemma written_length : forall n s p, (length s <= n)%nat -> length (written n p s) = length s.
Proof.
  induction n as [|n IH]; intros s p L; [destruct s; [reflexivity|cbn in L; lia]|]. destruct s as [|c r]; [reflexivity|]. cbn [written].
  destruct (stepped_shape p c r) as (c' & r' & -> & L'). cbn [length] in *. rewrite IH by lia. now rewrite L'.
Qed.
Lemma last_cons : forall (a : ustr) c p, last (c :: a) p = last a c.
Proof. induction a as [|d a IH]; intros c p; [reflexivity|]. change (last (c :: d :: a) p) with (last (d :: a) p). rewrite (IH d p), (IH d c). reflexivity. Qed.
Lemma squeezed_app : forall a b p, squeezed p (a ++ b) = squeezed p a ++ squeezed (last a p) b.
Proof.
  induction a as [|c a IH]; intros b p; [reflexivity|]. cbn [app squeezed]. rewrite IH, last_cons. destruct (p =? c); reflexivity.
Qed.
Lemma squeezed_length : forall s p, (length (squeezed p s) <= length s)%nat.
Proof. induction s as [|c s IH]; intros p; [cbn; lia|]. cbn [squeezed length]. specialize (IH c). destruct (p =? c); cbn [length]; lia. Qed.
Lemma squeezed_last : forall s p q, last (p :: squeezed p s) q = last s p.
Proof.
  induction s as [|c s IH]; intros p q; [reflexivity|]. cbn [squeezed]. rewrite (last_cons s c p). destruct (N.eqb_spec p c) as [->|N0]; [apply IH|].
  rewrite last_cons. apply IH.
Qed.
Lemma squeezed_nil : forall s p, squeezed p s = [] -> forall c, In c s -> c = p.
Proof.
  induction s as [|c s IH]; intros p H d I; [destruct I|]. cbn [squeezed] in H. destruct (p =? c) eqn:E; [apply N.eqb_eq in E; subst c|discriminate H].
  destruct I as [<-|I]; [reflexivity|]. exact (IH p H d I).
Qed.

(** ** How far the loop looks ahead *)
Definition no_H (s : ustr) : Prop := hd_error s <> Some (# "H").
Lemma transcode_three : forall p c n nn, nn <> Some (# "H") -> (length (ny_transcode p c n nn) <= 2)%nat /\ ny_transcode p c n nn = ny_transcode p c n None.
Proof.
  intros p c n nn H. assert (E : opt_is nn (# "H") = false).
  { destruct nn as [x|]; [|reflexivity]. cbn [opt_is]. apply N.eqb_neq. congruence. }
  assert (K : ny_transcode p c n nn = ny_transcode p c n None) by (unfold ny_transcode; rewrite E; reflexivity).
  split; [|exact K]. rewrite K. now apply transcode_len.
Qed.
Lemma skipn_within : forall k (a b : ustr), (k <= length a)%nat -> skipn k (a ++ b) = skipn k a ++ b.
Proof. intros k a b L. rewrite skipn_app. replace (k - length a)%nat with 0%nat by lia. reflexivity. Qed.
Lemma stepped_far : forall p c x y r u, stepped p c ((x :: y :: r) ++ u) = stepped p c (x :: y :: r) ++ u.
Proof.
  intros p c x y r u. unfold stepped. cbv zeta. cbn [app hd_error tl].
  destruct (transcode_len p c (Some x) (Some y)) as (_ & _ & _ & H4). rewrite <- app_assoc. f_equal.
  change (x :: y :: r ++ u) with ((x :: y :: r) ++ u). apply skipn_within. cbn [length]. lia.
Qed.
Lemma stepped_near : forall p c x u, no_H u -> stepped p c ([x] ++ u) = stepped p c [x] ++ u.
Proof.
  intros p c x u H. unfold stepped. cbv zeta. cbn [app hd_error tl].
  destruct (transcode_three p c (Some x) (hd_error u) H) as [L ->]. rewrite <- app_assoc. f_equal.
  change (x :: u) with ([x] ++ u). apply skipn_within. cbn [length]. pose proof (transcode_three p c (Some x) None ltac:(discriminate)) as [L2 _]. lia.
Qed.
(** Reading on the same letters with different ends. *)
Lemma written_common : forall n s p u v m k, (length s <= n)%nat -> (length (s ++ u) <= m)%nat -> (length (s ++ v) <= k)%nat ->
  exists P d e, written m p (s ++ u) = P ++ d /\ written k p (s ++ v) = P ++ e
    /\ (length P <= length s)%nat
    /\ (no_H u -> no_H v -> length s <= length P + 1)%nat
    /\ ((length s <= length P + 1)%nat \/ (length s = length P + 2)%nat /\ (u = [] -> no_H v \/ exists d', d = # "S" :: d')).
Proof.
  induction n as [|n IH]; intros s p u v m k Ls Lm Lk.
  { destruct s; [|cbn in Ls; lia]. exists [], (written m p ([] ++ u)), (written k p ([] ++ v)). cbn [length app]. repeat split; try lia. }
  destruct s as [|c s].
  { exists [], (written m p ([] ++ u)), (written k p ([] ++ v)). cbn [length app]. repeat split; try lia. }
  destruct s as [|x s].
  { exists [], (written m p ([c] ++ u)), (written k p ([c] ++ v)). cbn [length app]. repeat split; try lia. }
  destruct m as [|m]; [cbn in Lm; lia|]. destruct k as [|k]; [cbn in Lk; lia|].
  assert (Go : forall r', stepped p c ((x :: s) ++ u) = stepped p c (x :: s) ++ u -> stepped p c ((x :: s) ++ v) = stepped p c (x :: s) ++ v ->
    r' = x :: s -> exists P d e, written (S m) p ((c :: x :: s) ++ u) = P ++ d /\ written (S k) p ((c :: x :: s) ++ v) = P ++ e
    /\ (length P <= length (c :: x :: s))%nat
    /\ (no_H u -> no_H v -> length (c :: x :: s) <= length P + 1)%nat
    /\ ((length (c :: x :: s) <= length P + 1)%nat \/ (length (c :: x :: s) = length P + 2)%nat /\ (u = [] -> no_H v \/ exists d', d = # "S" :: d'))).
  { intros r' Eu Ev ->. destruct (stepped_shape p c (x :: s)) as (c' & r & E & Lr).
    assert (A1 : (length r <= n)%nat) by (cbn [length] in *; lia).
    assert (A2 : (length (r ++ u) <= m)%nat) by (rewrite app_length in *; cbn [length] in *; lia).
    assert (A3 : (length (r ++ v) <= k)%nat) by (rewrite app_length in *; cbn [length] in *; lia).
    destruct (IH r c' u v m k A1 A2 A3) as (P & d & e & E1 & E2 & L0 & L1 & L2).
    exists (c' :: P), d, e. change ((c :: x :: s) ++ u) with (c :: ((x :: s) ++ u)). change ((c :: x :: s) ++ v) with (c :: ((x :: s) ++ v)). cbn [written].
    rewrite Eu, Ev, E. cbn [app]. rewrite E1, E2. cbn [length] in *. split; [reflexivity|]. split; [reflexivity|]. split; [lia|]. split; [intros A B; specialize (L1 A B); lia|].
    destruct L2 as [L2|[L2 L3]]; [left; lia|right; split; [lia|exact L3]]. }
  destruct s as [|y s].
  - destruct (hd_error u) as [hu|] eqn:Hu.
    + destruct (N.eq_dec hu (# "H")) as [->|Nu].
      * exists [], (written (S m) p ([c; x] ++ u)), (written (S k) p ([c; x] ++ v)). cbn [length app]. split; [reflexivity|]. split; [reflexivity|]. split; [lia|].
        split; [intros A; exfalso; now apply A|]. right. split; [reflexivity|]. intros ->. discriminate Hu.
      * destruct (hd_error v) as [hv|] eqn:Hv.
        -- destruct (N.eq_dec hv (# "H")) as [->|Nv].
           ++ exists [], (written (S m) p ([c; x] ++ u)), (written (S k) p ([c; x] ++ v)). cbn [length app]. split; [reflexivity|]. split; [reflexivity|]. split; [lia|].
              split; [intros _ A; exfalso; now apply A|]. right. split; [reflexivity|]. intros ->. discriminate Hu.
           ++ apply (Go [x]); [apply stepped_near; unfold no_H; congruence|apply stepped_near; unfold no_H; congruence|reflexivity].
        -- apply (Go [x]); [apply stepped_near; unfold no_H; congruence|apply stepped_near; unfold no_H; congruence|reflexivity].
    + destruct (hd_error v) as [hv|] eqn:Hv; [destruct (N.eq_dec hv (# "H")) as [->|Nv]|];
        [|apply (Go [x]); [apply stepped_near; unfold no_H; congruence|apply stepped_near; unfold no_H; congruence|reflexivity]..].
      destruct u as [|hu u]; [|discriminate Hu]. destruct v as [|hv v]; [discriminate Hv|]. injection Hv as ->.
      destruct ((c =? # "S") && (x =? # "C")) eqn:SC.
      * apply andb_true_iff in SC as [Sc Sx]. apply N.eqb_eq in Sc, Sx. subst c x.
        exists [], (written (S m) p ($ "SC" ++ [])), (written (S k) p ($ "SC" ++ # "H" :: v)). cbn [length app]. split; [reflexivity|]. split; [reflexivity|]. split; [lia|].
        split; [intros _ A; exfalso; now apply A|]. right. split; [reflexivity|]. intros _. right. now eexists.
      * assert (T : ny_transcode p c (Some x) (Some (# "H")) = ny_transcode p c (Some x) None).
        { unfold ny_transcode. cbn [opt_is]. destruct (c =? # "S"); [|reflexivity]. cbn [andb] in SC. now rewrite SC. }
        apply (Go [x]); [now rewrite !app_nil_r| |reflexivity].
        unfold stepped. cbv zeta. cbn [app hd_error tl]. rewrite T, <- app_assoc. f_equal.
        change (x :: # "H" :: v) with ([x] ++ # "H" :: v). apply skipn_within. cbn [length]. pose proof (transcode_three p c (Some x) None ltac:(discriminate)) as [L2 _]. lia.
  - apply (Go (x :: y :: s)); [apply stepped_far|apply stepped_far|reflexivity].
Qed.

(** After letters of any kind, these are written as something other than S. *)
Lemma stepped_keeps : forall p c v1 v, In v1 $ "YDEIRN" -> exists c', stepped p c (v1 :: v) = c' :: v1 :: v.
Proof.
  intros p c v1 v H. unfold stepped. cbv zeta. cbn [hd_error tl].
  assert (V : opt_is (Some v1) (# "V") = false /\ opt_is (Some v1) (# "C") = false /\ opt_is (Some v1) (# "H") = false).
  { cbn in H. repeat (destruct H as [<-|H]; [repeat split|]). destruct H. }
  destruct V as (V1 & V2 & V3). unfold ny_transcode. rewrite V1, V2, V3, !andb_false_r. cbn [andb].
  destruct (ny_vowel c); [now exists (# "A")|]. destruct (c =? # "Q"); [now exists (# "G")|]. destruct (c =? # "Z"); [now exists (# "S")|].
  destruct (c =? # "M"); [now exists (# "N")|]. destruct ((c =? # "K") && opt_is (Some v1) (# "N")) eqn:K.
  - apply andb_true_iff in K as [_ K]. cbn [opt_is] in K. apply N.eqb_eq in K. subst v1. exists (# "N"). reflexivity.
  - destruct (c =? # "K"); [now exists (# "C")|]. destruct (_ || _); [now exists p|now exists c].
Qed.
Lemma written_not_S : forall n s p v1 v m, (length s <= n)%nat -> (length (s ++ v1 :: v) <= m)%nat -> In v1 $ "YDEIRN" ->
  exists z, nth_error (written m p (s ++ v1 :: v)) (length s) = Some z /\ z <> # "S".
Proof.
  assert (NH : forall v1 v, In v1 $ "YDEIRN" -> no_H (v1 :: v)).
  { intros v1 v H E. cbn in E. injection E as ->. cbn in H. repeat (destruct H as [H|H]; [discriminate H|]). destruct H. }
  induction n as [|n IH]; intros s p v1 v m Ls Lm H.
  - destruct s; [|cbn in Ls; lia]. destruct m as [|m]; [cbn in Lm; lia|]. cbn [app length nth_error written].
    destruct (stepped_shape p v1 v) as (c' & r' & E & _). rewrite E. exists c'. split; [reflexivity|].
    unfold stepped in E. cbv zeta in E. intros ->. cbn in H.
    repeat (destruct H as [<-|H]; [unfold ny_transcode in E; cbn in E; repeat (match type of E with context [if ?b then _ else _] => destruct b end); discriminate E|]). destruct H.
  - destruct s as [|c s]; [apply (IH [] p v1 v m); [cbn; lia|exact Lm|exact H]|]. destruct m as [|m]; [cbn in Lm; lia|].
    cbn [app written]. cbn [app length] in Lm.
    assert (G : exists c' r, stepped p c (s ++ v1 :: v) = c' :: r ++ v1 :: v /\ length r = length s).
    { destruct s as [|x [|y s]].
      - destruct (stepped_keeps p c v1 v H) as (c' & E). exists c', []. now split.
      - rewrite (stepped_near p c x (v1 :: v) (NH v1 v H)). destruct (stepped_shape p c [x]) as (c' & r & E & L). exists c', r. rewrite E. now split.
      - rewrite (stepped_far p c x y s (v1 :: v)). destruct (stepped_shape p c (x :: y :: s)) as (c' & r & E & L). exists c', r. rewrite E. now split. }
    destruct G as (c' & r & -> & L). cbn [length nth_error]. rewrite <- L. apply IH; [cbn [length] in Ls; lia| |exact H].
    rewrite app_length in *. lia.
Qed.

(** ** The end of a key *)
Lemma finished_parts : forall w, exists kept lost new, w = kept ++ lost /\ ny_finish w = kept ++ new /\ (length new <= length lost)%nat
  /\ ((length lost <= 2)%nat \/ lost = $ "AYS").
Proof.
  intros w. assert (E : nysiis_ended w (ny_finish w)) by now apply ny_finish_spec. generalize dependent (ny_finish w). intros f E.
  destruct E as [[_ ->]|(_ & k1 & k2 & D1 & Y & D2)].
  { exists w, [], []. rewrite app_nil_r. repeat split. left. cbn. lia. }
  destruct Y as [(a & -> & _ & ->)|[-> _]].
  - destruct D2 as [E|[E _]].
    { exfalso. destruct (exists_last (l := f ++ $ "A") ltac:(destruct (f); discriminate)) as (q & z & Q).
      assert (H : # "Y" = # "A"); [|discriminate H]. apply (f_equal (fun l => last l 0)) in E. rewrite !last_last in E. exact E. }
    destruct D1 as [E1|[E1 _]].
    + exists a, $ "AYS", $ "Y". rewrite E1, E, <- app_assoc. repeat split; [cbn; lia|now right].
    + exists a, $ "AY", $ "Y". rewrite <- E1, E. repeat split; [cbn; lia|left; cbn; lia].
  - destruct D2 as [E2|[E2 _]]; [|subst f]; destruct D1 as [E1|[E1 _]].
    + exists (f), $ "AS", []. rewrite app_nil_r. rewrite E1, E2, <- app_assoc. repeat split; [cbn; lia|left; cbn; lia].
    + exists (f), $ "A", []. rewrite app_nil_r. rewrite <- E1, E2. repeat split; [cbn; lia|left; cbn; lia].
    + exists k1, $ "S", []. rewrite app_nil_r. repeat split; [exact E1|cbn; lia|left; cbn; lia].
    + exists k1, [], []. rewrite app_nil_r. repeat split; [now symmetry|cbn; lia|left; cbn; lia].
Qed.
Lemma finished_within : forall Q y, exists kept lost new, Q = kept ++ lost /\ ny_finish (Q ++ y) = kept ++ new
  /\ (length new <= length lost + length y)%nat /\ (length lost <= 3)%nat /\ (y <> [] \/ last Q 0 <> # "S" -> (length lost <= 2)%nat).
Proof.
  intros Q y. destruct (finished_parts (Q ++ y)) as (k0 & l0 & new & E & F & L & T). rewrite F. symmetry in E.
  apply app_eq_app in E as (l & [[E1 E2]|[E1 E2]]).
  - exists Q, [], (l ++ new). rewrite app_nil_r, E1, <- app_assoc. split; [reflexivity|]. split; [reflexivity|].
    rewrite E2. rewrite !app_length. cbn [length]. split; [lia|]. split; [lia|]. intros _. lia.
  - exists k0, l, new. split; [exact E1|]. split; [reflexivity|]. subst l0. rewrite app_length in *. split; [exact L|].
    destruct T as [T|T]; [split; [lia|]; intros _; lia|]. apply (f_equal (@length N)) in T as T'. rewrite app_length in T'. cbn [length] in T'.
    change (length $ "AYS") with 3%nat in T'. split; [lia|]. intros H. destruct y as [|h y]; [|cbn [length] in T'; lia].
    destruct H as [H|H]; [congruence|]. rewrite app_nil_r in T. subst l. exfalso. apply H. rewrite E1. change $ "AYS" with ($ "AY" ++ [# "S"]). rewrite app_assoc. apply last_last.
Qed.
Lemma finish_length : forall w, (length (ny_finish w) <= length w)%nat.
Proof. intros w. destruct (finished_parts w) as (k & l & n & E & F & L & _). rewrite F. rewrite E at 1. rewrite !app_length. lia. Qed.

(** ** The whole key *)
Definition raw (s : ustr) : ustr := match s with [] => [] | c :: r => c :: squeezed c (written (length r) c r) end.
Definition key (s : ustr) : ustr := ny_finish (raw (ny_end (ny_start s))).
Lemma raw_length : forall s, (length (raw s) <= length s)%nat.
Proof.
  intros [|c r]; [cbn; lia|]. cbn [raw length]. pose proof (squeezed_length (written (length r) c r) c) as H. rewrite written_length in H by lia. lia.
Qed.
(** Ways in which the ends of two names differ. *)
Definition ends_apart (u v : ustr) : Prop :=
  u = [] \/ exists x y v', u = [x] /\ v = y :: v' /\ In x $ "YDEIRN" /\ In y $ "YDEIRN".
Lemma hd_not_H : forall y v, In y $ "YDEIRN" -> no_H (y :: v).
Proof. intros y v I H. cbn in H. injection H as ->. cbn in I. repeat (destruct I as [I|I]; [discriminate I|]). destruct I. Qed.
Lemma last_raw : forall c P, last (c :: squeezed c P) 0 = last P c.
Proof. intros. apply squeezed_last. Qed.
Lemma raw_apart : forall c s u v, ends_apart u v ->
  exists Q x y, raw (c :: s ++ u) = Q ++ x /\ raw (c :: s ++ v) = Q ++ y
    /\ ((length x <= 1)%nat \/ (length x <= 2)%nat /\ (last Q 0 <> # "S" \/ x <> [] /\ y <> [])).
Proof.
  intros c s u v H.
  destruct (written_common (length s) s c u v (length (s ++ u)) (length (s ++ v)) (le_n _) (le_n _) (le_n _)) as (P & d & e & E1 & E2 & L0 & L1 & L2).
  exists (c :: squeezed c P), (squeezed (last P c) d), (squeezed (last P c) e). cbn [raw]. rewrite E1, E2, !squeezed_app.
  split; [reflexivity|]. split; [reflexivity|]. rewrite last_raw.
  assert (Ld : (length P + length d = length s + length u)%nat).
  { pose proof (written_length (length (s ++ u)) (s ++ u) c (le_n _)) as H1. rewrite E1, !app_length in H1. exact H1. }
  pose proof (squeezed_length d (last P c)) as Lx.
  destruct H as [->|(x & y & v' & -> & -> & Ix & Iy)].
  - cbn [length] in Ld. destruct L2 as [L2|[L2 L3]]; [left; lia|].
    destruct (L3 eq_refl) as [Nv|(d' & ->)]; [left; assert (length s <= length P + 1)%nat by (apply L1; [discriminate|exact Nv]); lia|].
    destruct (N.eq_dec (last P c) (# "S")) as [El|Nl].
    + left. rewrite El. cbn [squeezed]. replace (# "S" =? # "S") with true by reflexivity. pose proof (squeezed_length d' (# "S")). cbn [length] in Ld. lia.
    + right. split; [lia|now left].
  - cbn [length] in Ld. assert (L : (length s <= length P + 1)%nat) by (apply L1; now apply hd_not_H).
    destruct (le_lt_dec (length (squeezed (last P c) d)) 1) as [K|K]; [now left|right]. split; [lia|].
    destruct (N.eq_dec (last P c) (# "S")) as [El|Nl]; [right|now left]. split; [intros Z; rewrite Z in K; cbn in K; lia|].
    intros Z. destruct (written_not_S (length s) s c y v' (length (s ++ y :: v')) (le_n _) (le_n _) Iy) as (z & Ez & Nz).
    rewrite E2, nth_error_app2 in Ez by lia. apply nth_error_In in Ez. apply Nz. rewrite <- El. exact (squeezed_nil _ _ Z _ Ez).
Qed.
Lemma raw_settled : forall c s u v, ends_apart u v -> exists kept given_up added,
  ny_finish (raw (c :: s ++ u)) = kept ++ given_up /\ ny_finish (raw (c :: s ++ v)) = kept ++ added /\ (length given_up <= 4)%nat.
Proof.
  intros c s u v H. destruct (raw_apart c s u v H) as (Q & x & y & -> & -> & T).
  destruct (finished_within Q x) as (k1 & l1 & n1 & E1 & -> & A1 & B1 & C1). destruct (finished_within Q y) as (k2 & l2 & n2 & E2 & -> & A2 & B2 & C2).
  assert (G : (length l1 + length x <= 4)%nat /\ (length l2 + length x <= 4)%nat).
  { destruct T as [T|[T [T2|[T2 T3]]]]; [lia| |].
    - specialize (C1 (or_intror T2)). specialize (C2 (or_intror T2)). lia.
    - specialize (C1 (or_introl T2)). specialize (C2 (or_introl T3)). lia. }
  rewrite E1 in E2. apply app_eq_app in E2 as (m & [[F1 F2]|[F1 F2]]).
  - exists k2, (m ++ n1), n2. rewrite F1, <- app_assoc. split; [reflexivity|]. split; [reflexivity|]. rewrite app_length. subst l2. rewrite app_length in G. lia.
  - exists k1, n1, (m ++ n2). rewrite F1, <- app_assoc. split; [reflexivity|]. split; [reflexivity|]. lia.
Qed.
(** ** Rewriting the ends *)
Lemma start_further : forall x y z a b, exists x' y' z', ny_start (x :: y :: z :: a) = x' :: y' :: z' :: a
  /\ ny_start ((x :: y :: z :: a) ++ b) = x' :: y' :: z' :: a ++ b.
Proof.
  intros x y z a b. rewrite !ny_start_spec. unfold start_rw, nysiis_start, starts_with. cbn -[N.eqb].
  caseN; eexists _, _, _; split; reflexivity.
Qed.
Lemma start_length : forall s, length (ny_start s) = length s.
Proof.
  intros [|x [|y [|z a]]]; [reflexivity| | |destruct (start_further x y z a []) as (? & ? & ? & -> & _); reflexivity];
  rewrite ny_start_spec; unfold start_rw, nysiis_start, starts_with; cbn -[N.eqb]; caseN.
Qed.
Lemma end_changes : forall s, ny_end s = s \/ exists t x y z, s = t ++ [x; y] /\ ny_end s = t ++ [z] /\ In x $ "YDEIRN" /\ In z $ "YDEIRN".
Proof.
  intros s. assert (E : end_rewritten nysiis_end s (ny_end s)) by (apply end_rewritten_iff; apply ny_end_spec).
  destruct E as [(p & q & r & t1 & t2 & T & E1 & E2 & _)|[_ E]]; [right|now left].
  assert (I : In (p, q) nysiis_end) by (rewrite T; apply in_or_app; right; now left).
  cbn in I. repeat (destruct I as [I|I]; [injection I as <- <-; exists r; eexists _, _, _; split; [exact E1|]; split; [exact E2|]; cbn; tauto|]). destruct I.
Qed.
Lemma ends_of_keys : forall s b, (3 <= length s)%nat -> exists c t u v, ny_end s = c :: t ++ u /\ ny_end (s ++ b) = c :: t ++ v /\ ends_apart u v.
Proof.
  intros s b L.
  assert (One : forall k u v, k <> [] -> ny_end s = k ++ u -> ny_end (s ++ b) = k ++ v -> ends_apart u v ->
    exists c t u v, ny_end s = c :: t ++ u /\ ny_end (s ++ b) = c :: t ++ v /\ ends_apart u v).
  { intros k u v Nk A B C. destruct k as [|c t]; [congruence|]. exists c, t, u, v. split; [exact A|]. split; [exact B|exact C]. }
  destruct (snoc_cases b) as [->|(m & y & ->)].
  { apply (One (ny_end s) [] []); [|now rewrite app_nil_r|now rewrite !app_nil_r|now left].
    destruct (end_changes s) as [->|(t & x & y & z & _ & -> & _)]; [destruct s; [cbn in L; lia|discriminate]|destruct t; discriminate]. }
  assert (B : (exists v, ny_end (s ++ m ++ [y]) = s ++ v) \/ (exists t x z, s = t ++ [x] /\ ny_end (s ++ m ++ [y]) = t ++ [z] /\ In x $ "YDEIRN" /\ In z $ "YDEIRN")).
  { destruct (end_changes (s ++ m ++ [y])) as [->|(t & x & y' & z & E & -> & Ix & Iz)]; [left; now exists (m ++ [y])|].
    change [x; y'] with ([x] ++ [y']) in E. rewrite !app_assoc in E. apply app_inj_tail in E as [E ->].
    destruct (snoc_cases m) as [->|(m' & x' & ->)].
    - rewrite app_nil_r in E. right. exists t, x, z. now split.
    - rewrite app_assoc in E. apply app_inj_tail in E as [<- ->]. left. exists (m' ++ [z]). now rewrite app_assoc. }
  destruct (end_changes s) as [Ea|(t1 & x1 & y1 & z1 & S1 & Ea & I1x & I1z)]; destruct B as [(v & Eb)|(t & x & z & S2 & Eb & Ix & Iz)].
  - apply (One s [] v); [destruct s; [cbn in L; lia|discriminate]|rewrite app_nil_r; exact Ea|exact Eb|now left].
  - apply (One t [x] [z]); [intros ->; subst s; cbn in L; lia|rewrite Ea; exact S2|exact Eb|]. right. exists x, z, []. now repeat split.
  - apply (One t1 [z1] (x1 :: y1 :: v)); [intros ->; subst s; cbn in L; lia|exact Ea|rewrite Eb, S1, <- app_assoc; reflexivity|]. right. exists z1, x1, (y1 :: v). now repeat split.
  - apply (One t1 [z1] [x1; z]); [intros ->; rewrite S1 in L; cbn in L; lia|exact Ea| |right; exists z1, x1, [z]; now repeat split].
    rewrite Eb. rewrite S1 in S2. change [x1; y1] with ([x1] ++ [y1]) in S2. rewrite app_assoc in S2. apply app_inj_tail in S2 as [<- _]. rewrite <- app_assoc. reflexivity.
Qed.
Lemma end_length : forall s, (length (ny_end s) <= length s)%nat.
Proof.
  intros s. destruct (end_changes s) as [->|(t & x & y & z & -> & -> & _)]; [lia|]. rewrite !app_length. cbn [length]. lia.
Qed.
Lemma end_empty : forall s, ny_end s = [] -> s = [].
Proof. intros s H. destruct (end_changes s) as [<-|(t & x & y & z & _ & E & _)]; [exact H|]. rewrite E in H. destruct t; discriminate H. Qed.
Lemma encoded : forall u s, nysiis_encode u false s = Ok (key (soundex_clean u s)).
Proof.
  intros u s. unfold nysiis_encode, key. cbv zeta. destruct (soundex_clean u s) as [|c r]; [reflexivity|].
  pose proof (start_length (c :: r)) as L. destruct (ny_end (ny_start (c :: r))) as [|d t] eqn:Ee; [apply end_empty in Ee; rewrite Ee in L; discriminate L|].
  rewrite loop_written by lia. reflexivity.
Qed.
Lemma key_length : forall s, (length (key s) <= length s)%nat.
Proof.
  intros s. unfold key. pose proof (finish_length (raw (ny_end (ny_start s)))). pose proof (raw_length (ny_end (ny_start s))).
  pose proof (end_length (ny_start s)). rewrite start_length in *. lia.
Qed.
Lemma key_settled : forall a b, exists kept given_up added,
  key a = kept ++ given_up /\ key (a ++ b) = kept ++ added /\ (length given_up <= 4)%nat.
Proof.
  intros a b. destruct (le_lt_dec (length a) 3) as [L|L].
  { exists [], (key a), (key (a ++ b)). pose proof (key_length a). repeat split. lia. }
  destruct a as [|x [|y [|z a]]]; [cbn in L; lia..|]. destruct (start_further x y z a b) as (x' & y' & z' & E1 & E2).
  destruct (ends_of_keys (x' :: y' :: z' :: a) b ltac:(cbn [length]; lia)) as (c & t & u & v & F1 & F2 & H).
  unfold key. rewrite E1, E2, F1. change (x' :: y' :: z' :: a ++ b) with ((x' :: y' :: z' :: a) ++ b). rewrite F2. now apply raw_settled.
Qed.

Theorem C86_nysiis : forall u, settled (nysiis_encode u false) any_text 4.
Proof.
  intros u a b _. rewrite !encoded, clean_app. destruct (key_settled (soundex_clean u a) (soundex_clean u b)) as (p & q & q' & -> & -> & L).
  exists p, q, q'. now repeat split.
Qed.
Lemma nysiis_both : forall u strict, exists a b p x q y, ascii_text (a ++ b) /\ nysiis_encode u strict a = Ok (p ++ x :: q)
  /\ nysiis_encode u strict (a ++ b) = Ok (p ++ y) /\ (forall z, y = x :: z -> False) /\ length q = 3%nat.
Proof.
  intros u strict. exists $ "BAYSC", $ "H", $ "B", (# "A"), $ "YSC", $ "Y".
  split; [apply ascii_lit; reflexivity|]. destruct strict; (split; [vm_compute; reflexivity|]; split; [vm_compute; reflexivity|]; split; [intros z H; discriminate H|reflexivity]).
Qed.
Lemma needs_four : forall u strict n, settled (nysiis_encode u strict) ascii_text n -> (4 <= n)%nat.
Proof.
  intros u strict n H. destruct (nysiis_both u strict) as (a & b & p & x & q & y & T & E1 & E2 & D & L).
  destruct (H a b T) as (k & g & d & F1 & F2 & G). rewrite E1 in F1. rewrite E2 in F2. injection F1 as F1. injection F2 as F2.
  apply app_eq_app in F1 as (l & [[-> ->]|[-> F1]]).
  - rewrite app_length in G. cbn [length] in G. lia.
  - destruct l as [|h l]; [cbn [app] in F1; subst g; cbn [length] in G; lia|]. injection F1 as <- ->.
    rewrite <- app_assoc in F2. apply app_inv_head in F2. exfalso. now apply (D _ F2).
Qed.
Theorem C86_nysiis_iff : forall u n, settled (nysiis_encode u false) any_text n <-> (4 <= n)%nat.
Proof.
  intros u n. split.
  - intros H. apply (needs_four u false). intros a b _. exact (H a b Logic.I).
  - intros L a b H. destruct (C86_nysiis u a b H) as (p & q & q' & E1 & E2 & Q). exists p, q, q'. repeat split; auto. lia.
Qed.
(** The strict keys, which are cut after six letters. *)
Theorem C86_nysiis_strict_iff : forall u n, settled (nysiis_encode u true) ascii_text n <-> (4 <= n)%nat.
Proof.
  intros u n. split; [apply needs_four|].
  intros L a b H.
  assert (Hab : letters_are_ascii (is_alphabetic u) (a ++ b)) by (intros c Hc _; now apply H).
  assert (Ha : letters_are_ascii (is_alphabetic u) a) by (intros c Hc; apply Hab, in_or_app; now left).
  destruct (C18_strict_is_truncation u a Ha) as (fa & A1 & ->). destruct (C18_strict_is_truncation u (a ++ b) Hab) as (fb & B1 & ->).
  destruct (C86_nysiis u a b Logic.I) as (p & q & q' & E1 & E2 & Q). rewrite A1 in E1. rewrite B1 in E2. injection E1 as ->. injection E2 as ->.
  exists (firstn 6 p), (firstn (6 - length p) q), (firstn (6 - length p) q'). rewrite !firstn_app. split; [reflexivity|]. split; [reflexivity|].
  rewrite firstn_length. lia.
Qed.
Example C86_nysiis_nonvacuous : nysiis_encode latin1_only false $ "BAYSC" = Ok $ "BAYSC" /\ nysiis_encode latin1_only false $ "BAYSCH" = Ok $ "BY".
Proof. split; vm_compute; reflexivity. Qed.
