(** * Facts about the rewriting vocabulary of Spec_rewrite. *)
From Verif Require Import Base BaseLemmas Spec_common Spec_rewrite.
Local Open Scope N_scope.

Definition start_rw (t : rewriting_table) (s : ustr) : ustr :=
  match find (fun e => starts_with s (fst e)) t with
  | Some (p, q) => q ++ skipn (length p) s
  | None => s
  end.
Definition end_rw (t : rewriting_table) (s : ustr) : ustr :=
  match find (fun e => ends_with s (fst e)) t with
  | Some (p, q) => firstn (length s - length p) s ++ q
  | None => s
  end.

Lemma find_split : forall A (f : A -> bool) l x, find f l = Some x ->
  exists l1 l2, l = l1 ++ x :: l2 /\ f x = true /\ forall y, In y l1 -> f y = false.
Proof.
  intros A f l x. induction l as [|a l IH]; [discriminate|]. cbn [find].
  destruct (f a) eqn:E.
  - intros H. injection H as ->. exists [], l. split; [reflexivity|]. split; [exact E|]. intros y [].
  - intros H. destruct (IH H) as (l1 & l2 & -> & Hx & Hl). exists (a :: l1), l2.
    split; [reflexivity|]. split; [exact Hx|]. intros y [<-|Hy]; auto.
Qed.
Lemma find_split_inv : forall A (f : A -> bool) l1 x l2, f x = true ->
  (forall y, In y l1 -> f y = false) -> find f (l1 ++ x :: l2) = Some x.
Proof.
  intros A f l1 x l2 Hx. induction l1 as [|a l1 IH]; intros H; cbn [app find].
  - now rewrite Hx.
  - rewrite (H a (or_introl eq_refl)). apply IH. intros y Hy. apply H. now right.
Qed.
Lemma starts_with_not : forall s p, starts_with s p = false <-> forall r, s <> p ++ r.
Proof.
  intros s p. split.
  - intros E r ->. assert (T : starts_with (p ++ r) p = true) by (apply starts_with_spec; eauto). congruence.
  - intros H. destruct (starts_with s p) eqn:E; [|reflexivity].
    apply starts_with_spec in E as [r ->]. now destruct (H r).
Qed.
Lemma ends_with_not : forall s p, ends_with s p = false <-> forall r, s <> r ++ p.
Proof.
  intros s p. split.
  - intros E r ->. assert (T : ends_with (r ++ p) p = true) by (apply ends_with_spec; eauto). congruence.
  - intros H. destruct (ends_with s p) eqn:E; [|reflexivity].
    apply ends_with_spec in E as [r ->]. now destruct (H r).
Qed.

Lemma first_entry_iff : forall t s p q r,
  first_entry t s p q r <-> find (fun e => starts_with s (fst e)) t = Some (p, q) /\ s = p ++ r.
Proof.
  intros t s p q r. split.
  - intros (t1 & t2 & -> & Es & H). split; [|exact Es]. apply find_split_inv.
    + cbn. apply starts_with_spec. eauto.
    + intros [p' q'] Hy. cbn. apply starts_with_not. intros r'. now apply (H p' q').
  - intros [F Es]. destruct (find_split _ _ _ _ F) as (t1 & t2 & Et & _ & H).
    exists t1, t2. split; [exact Et|]. split; [exact Es|]. intros p' q' r' Hi.
    specialize (H _ Hi). cbn in H. now apply starts_with_not.
Qed.
Lemma no_entry_iff : forall t s, no_entry t s <-> find (fun e => starts_with s (fst e)) t = None.
Proof.
  intros t s. split.
  - intros H. destruct (find _ t) as [[p q]|] eqn:F; [|reflexivity].
    destruct (find_some _ _ F) as [Hi Hs]. cbn in Hs. apply starts_with_spec in Hs as [r ->].
    now destruct (H p q r Hi).
  - intros F p q r Hi. pose proof (find_none _ _ F _ Hi) as E. cbn in E. now apply starts_with_not.
Qed.

Lemma start_rewritten_iff : forall t s s', start_rewritten t s s' <-> s' = start_rw t s.
Proof.
  intros t s s'. unfold start_rewritten, start_rw. split.
  - intros [(p & q & r & F & ->)|[F ->]].
    + apply first_entry_iff in F as [-> Es]. subst s. now rewrite skipn_app_exact.
    + apply no_entry_iff in F. now rewrite F.
  - destruct (find _ t) as [[p q]|] eqn:F; intros ->.
    + left. assert (F' := F). apply find_some in F' as [_ Hs]. cbn in Hs. apply starts_with_spec in Hs as [r Es].
      exists p, q, r. split; [now apply first_entry_iff|]. subst s. now rewrite skipn_app_exact.
    + right. split; [now apply no_entry_iff|reflexivity].
Qed.
Lemma end_rewritten_iff : forall t s s', end_rewritten t s s' <-> s' = end_rw t s.
Proof.
  intros t s s'. unfold end_rewritten, end_rw. split.
  - intros [(p & q & r & t1 & t2 & -> & Es & -> & H)|[H ->]].
    + assert (F : find (fun e : ustr * ustr => ends_with s (fst e)) (t1 ++ (p, q) :: t2) = Some (p, q)).
      { apply find_split_inv; [cbn; apply ends_with_spec; eauto|].
        intros [p' q'] Hi. cbn. apply ends_with_not. intros r'. now apply (H p' q'). }
      rewrite F. subst s. rewrite app_length.
      replace (length r + length p - length p)%nat with (length r) by lia. now rewrite firstn_app_exact.
    + destruct (find _ t) as [[p q]|] eqn:F; [|reflexivity].
      apply find_some in F as [Hi Hs]. cbn in Hs. apply ends_with_spec in Hs as [r ->].
      now destruct (H p q r Hi).
  - destruct (find _ t) as [[p q]|] eqn:F; intros ->.
    + left. destruct (find_split _ _ _ _ F) as (t1 & t2 & Et & Hs & H). cbn in Hs.
      apply ends_with_spec in Hs as [r Es]. exists p, q, r, t1, t2. split; [exact Et|]. split; [exact Es|].
      split; [|intros p' q' r' Hi; specialize (H _ Hi); cbn in H; now apply ends_with_not].
      subst s. rewrite app_length.
      replace (length r + length p - length p)%nat with (length r) by lia. now rewrite firstn_app_exact.
    + right. split; [|reflexivity]. intros p q r Hi. pose proof (find_none _ _ F _ Hi) as E. cbn in E.
      now apply ends_with_not.
Qed.
