(** * Names without a Caverphone code: proofs. *)
From Verif Require Import Base UnicodeM Lib Helper Caverphone BaseLemmas Spec_common Spec_rewrite Spec_caverphone
  Rewrite_proofs UnicodeLemmas Caverphone_proofs Caverphone_spec_proofs Props_caverphone_spec.
Local Open Scope N_scope.

Definition meets (G s : ustr) : Prop := exists c, In c G /\ In c s.
Definition meetsb (G s : ustr) : bool := existsb (fun c => isin c G) s.
Lemma meetsb_iff : forall G s, meetsb G s = true <-> meets G s.
Proof.
  intros G s. unfold meetsb, meets. rewrite existsb_exists. split; intros (c & A & B); exists c; rewrite isin_In in *; auto.
Qed.
(** The letters one of which is still there after a pass. *)
Definition with_q (G G' q : ustr) : ustr := if meetsb G' q then G' else G' ++ q.
Definition keeps (p : pass) (G : ustr) : ustr :=
  match p with
  | Starts p q | Ends p q => if meetsb G p then with_q G G q else G
  | All [c] q => if isin c G then with_q G (filter (fun x => negb (x =? c)) G) q else G
  | All p q => if meetsb G p then with_q G G q else G
  | InitialVowel => # "A" :: G
  | Vowels => (if meetsb G $ "aeiou" then $ "3" else []) ++ filter (fun x => negb (isin x $ "aeiou")) G
  | Runs l => map (fun c => if isin c l then c - 32 else c) G
  end.
Definition nonempty_q (p : pass) (G : ustr) : bool :=
  match p with
  | Starts p q | Ends p q | All p q => if meetsb G p then match q with [] => false | _ => true end else true
  | _ => true
  end.
Lemma with_q_meets : forall G G' q, q <> [] -> meets (with_q G G' q) q /\ incl G' (with_q G G' q).
Proof.
  intros G G' q H. unfold with_q. destruct (meetsb G' q) eqn:E.
  - split; [now apply meetsb_iff|]. intros x. auto.
  - split; [|intros x Hx; apply in_or_app; auto]. destruct q as [|x q]; [congruence|]. exists x. split; [apply in_or_app; right; now left|now left].
Qed.
Lemma meets_app : forall G a b, meets G (a ++ b) <-> meets G a \/ meets G b.
Proof.
  intros G a b. unfold meets. split.
  - intros (c & I & H). apply in_app_or in H as [H|H]; [left|right]; eauto.
  - intros [(c & I & H)|(c & I & H)]; exists c; split; auto; apply in_or_app; auto.
Qed.
Lemma meets_incl : forall G G' s, incl G G' -> meets G s -> meets G' s.
Proof. intros G G' s H (c & I & K). exists c. auto. Qed.
Lemma not_meets : forall G s, meetsb G s = false -> ~ meets G s.
Proof. intros G s H K. apply meetsb_iff in K. congruence. Qed.

Lemma all_keeps : forall p q G G', (meets G p -> meets G' q) -> (forall c, In c G -> p = [c] \/ In c G') ->
  forall s s', all_replaced p q s s' -> meets G s -> meets G' s'.
Proof.
  intros p q G G' H1 H2 s s' R. induction R as [|r r' R IH|c r r' Nm R IH]; intros (x & I & Hx).
  - destruct Hx.
  - apply meets_app. apply in_app_or in Hx as [Hx|Hx].
    + left. apply H1. exists x. auto.
    + right. apply IH. exists x. auto.
  - destruct Hx as [<-|Hx].
    + destruct (H2 c I) as [->|K]; [exfalso; now apply (Nm r)|]. exists c. split; [exact K|now left].
    + destruct IH as (y & I' & Hy); [exists x; auto|]. exists y. split; [exact I'|now right].
Qed.
Lemma runs_keeps : forall l G s s', runs_raised l s s' -> meets G s -> meets (map (fun c => if isin c l then c - 32 else c) G) s'.
Proof.
  intros l G s s' R. induction R as [|c r r' Nc R IH|c k r r' Ic Nr R IH]; intros (x & I & Hx).
  - destruct Hx.
  - destruct Hx as [<-|Hx].
    + exists c. split; [|now left]. apply in_map_iff. exists c. split; [|exact I].
      destruct (isin c l) eqn:E; [apply isin_In in E; tauto|reflexivity].
    + destruct IH as (y & I' & Hy); [exists x; auto|]. exists y. split; [exact I'|now right].
  - apply in_app_or in Hx as [Hx|Hx].
    + apply repeat_spec in Hx. subst x. exists (c - 32). split; [|now left]. apply in_map_iff. exists c. split; [|exact I].
      apply isin_In in Ic. now rewrite Ic.
    + destruct IH as (y & I' & Hy); [exists x; auto|]. exists y. split; [exact I'|now right].
Qed.

Lemma keeps_pass : forall p G s s', nonempty_q p G = true -> pass_done p s s' -> meets G s -> meets (keeps p G) s'.
Proof.
  intros p G s s' Q D M. destruct D as [p q s s' R|p q s s' R|p q s s' R|c r V|s V|s s' F|l s s' R].
  - cbn in Q |- *. assert (K : forall G', (meetsb G p = false -> G' = G) -> incl G G' -> (meetsb G p = true -> meets G' q) -> meets G' s').
    { intros G' E1 I E2. destruct R as [(p0 & q0 & r & (t1 & t2 & Et & -> & _) & ->)|[_ ->]]; [|now apply (meets_incl G)].
      destruct t1 as [|e [|e' t1]]; try discriminate Et. injection Et as <- <- _.
      apply meets_app. apply meets_app in M as [M|M]; [left|right; now apply (meets_incl G)]. now apply E2, meetsb_iff. }
    destruct (meetsb G p) eqn:E.
    + destruct (with_q_meets G G q) as [W1 W2]; [now destruct q|]. apply K; [discriminate|exact W2|intros _; exact W1].
    + apply K; [reflexivity|intros x; auto|discriminate].
  - cbn in Q |- *. assert (K : forall G', (meetsb G p = false -> G' = G) -> incl G G' -> (meetsb G p = true -> meets G' q) -> meets G' s').
    { intros G' E1 I E2. destruct R as [(p0 & q0 & r & t1 & t2 & Et & -> & -> & _)|[_ ->]]; [|now apply (meets_incl G)].
      destruct t1 as [|e [|e' t1]]; try discriminate Et. injection Et as <- <- _.
      apply meets_app. apply meets_app in M as [M|M]; [left; now apply (meets_incl G)|right]. now apply E2, meetsb_iff. }
    destruct (meetsb G p) eqn:E.
    + destruct (with_q_meets G G q) as [W1 W2]; [now destruct q|]. apply K; [discriminate|exact W2|intros _; exact W1].
    + apply K; [reflexivity|intros x; auto|discriminate].
  - assert (gen : meets (if meetsb G p then with_q G G q else G) s').
    { cbn in Q. destruct (meetsb G p) eqn:E.
      - apply (fun a b => all_keeps p q G _ a b s s' R M); [|intros c I; right].
        + intros _. now apply with_q_meets; destruct q.
        + refine (proj2 (with_q_meets G G q _) c I). now destruct q.
      - apply (fun a b => all_keeps p q G _ a b s s' R M); [|intros c I; now right].
        intros K. exfalso. exact (not_meets _ _ E K). }
    destruct p as [|c [|c' p]]; try exact gen. cbn in Q |- *. unfold meetsb in Q. cbn in Q.
    destruct (isin c G) eqn:E.
    + assert (q <> []) by now destruct q. apply (fun a b => all_keeps [c] q G _ a b s s' R M).
      * intros _. now apply with_q_meets.
      * intros x I. destruct (N.eq_dec x c) as [->|D]; [now left|right].
        refine (proj2 (with_q_meets G (filter (fun x => negb (x =? c)) G) q _) x _); [assumption|].
        apply filter_In. split; [exact I|]. now rewrite (proj2 (N.eqb_neq x c) D).
    + apply (fun a b => all_keeps [c] q G _ a b s s' R M); [|intros x I; now right].
      intros (x & I & [<-|[]]). apply isin_In in I. congruence.
  - destruct M as (x & I & [<-|Hx]); [exists (# "A")|exists x]; cbn; auto.
  - destruct M as (x & I & Hx). exists x. cbn. auto.
  - destruct M as (x & I & Hx). cbn [keeps]. induction F as [|c d s s' H F IH]; [destruct Hx|].
    destruct Hx as [<-|Hx].
    + exists d. split; [|now left]. apply in_or_app. destruct H as [[V ->]|[V ->]]; [left|right].
      { replace (meetsb G $ "aeiou") with true; [now left|]. symmetry. apply meetsb_iff. exists c. split; assumption. }
      apply filter_In. split; [exact I|]. apply negb_true_iff, isin_false, V.
    + destruct (IH Hx) as (y & I' & Hy). exists y. split; [exact I'|now right].
  - now apply runs_keeps with (s := s).
Qed.
Fixpoint keep_all (ps : list pass) (G : ustr) : option ustr :=
  match ps with
  | [] => Some G
  | p :: ps => if nonempty_q p G then keep_all ps (keeps p G) else None
  end.
Lemma keep_all_passes : forall ps G G' s s', keep_all ps G = Some G' -> passes_done ps s s' -> meets G s -> meets G' s'.
Proof.
  intros ps. induction ps as [|p ps IH]; intros G G' s s' K D M; inversion D as [|p0 ps0 s0 t s0' P1 P2]; subst.
  - cbn in K. now injection K as <-.
  - cbn in K. destruct (nonempty_q p G) eqn:Q; [|discriminate K]. apply (IH _ _ _ _ K P2). now apply (keeps_pass p G s t Q P1).
Qed.
Definition loud1 : ustr := $ "bcfkmnpqstvxz".
Definition loud2 : ustr := $ "abcfijkmnopqstuvxyz".
Lemma kept1 : exists G, keep_all caverphone1_rules loud1 = Some G.
Proof. eexists. vm_compute. reflexivity. Qed.
Definition rules2_before : list pass := firstn (length caverphone2_rules - 2) caverphone2_rules.
Lemma kept2 : exists G, keep_all rules2_before loud2 = Some G.
Proof. eexists. vm_compute. reflexivity. Qed.
Lemma passes_split : forall ps qs s s', passes_done (ps ++ qs) s s' -> exists t, passes_done ps s t /\ passes_done qs t s'.
Proof.
  intros ps. induction ps as [|p ps IH]; intros qs s s' D; [exists s; split; [constructor|exact D]|].
  inversion D as [|p0 ps0 s0 t s0' P1 P2]; subst. apply IH in P2 as (x & A & B). exists x. split; [|exact B]. now apply (ps_more p ps s t).
Qed.
Lemma replaced_by_nothing : forall p q s s', all_replaced p q s s' -> forall c, p = [c] -> s' = [] -> forall x, In x s -> x = c.
Proof.
  intros p q s s' R c Hp. induction R as [|r r' R IH|d r r' Nm R IH]; intros E x Hx.
  - destruct Hx.
  - apply app_eq_nil in E as [_ E]. subst p. destruct Hx as [<-|Hx]; [reflexivity|]. now apply IH.
  - discriminate E.
Qed.
Lemma blank1 : forall s s', passes_done caverphone1_rules s s' -> meets loud1 s -> s' <> [].
Proof.
  intros s s' D M ->. destruct kept1 as [G K]. destruct (keep_all_passes _ _ _ _ _ K D M) as (c & _ & []).
Qed.
Lemma blank2 : forall s s', passes_done caverphone2_rules s s' -> meets loud2 s -> s' <> [].
Proof.
  intros s s' D M ->.
  assert (E : caverphone2_rules = rules2_before ++ [Ends $ "3" $ "A"; All $ "3" []]) by reflexivity.
  rewrite E in D. apply passes_split in D as (t & D1 & D2). destruct kept2 as [G K].
  assert (T : t <> []). { intros ->. destruct (keep_all_passes _ _ _ _ _ K D1 M) as (c & _ & []). }
  inversion D2 as [|p0 ps0 s0 t1 s0' P1 P2]; subst. inversion P2 as [|p0 ps0 s0 t2 s0' P3 P4]; subst.
  inversion P4; subst. clear D2 P2 P4 D1 M E K.
  inversion P3 as [| |p q x y R| | | |]; subst.
  assert (A : forall c, In c t1 -> c = # "3").
  { exact (replaced_by_nothing _ _ _ _ R (# "3") eq_refl eq_refl). }
  inversion P1 as [|p q x y R1| | | | |]; subst.
  destruct R1 as [(p0 & q0 & r & u1 & u2 & Et & -> & -> & _)|[Nm ->]].
  - destruct u1 as [|e [|e' u1]]; try discriminate Et. injection Et as <- <- _.
    assert (X := A (# "A") ltac:(apply in_or_app; right; now left)). discriminate X.
  - destruct (exists_last T) as (r & x & ->).
    assert (X := A x ltac:(apply in_or_app; right; now left)). subst x. now apply (Nm $ "3" $ "A" r (or_introl eq_refl)).
Qed.
