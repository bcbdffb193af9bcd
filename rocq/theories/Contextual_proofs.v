(** * Deciding the conditions and rules of Spec_contextual. *)
From Verif Require Import Base BaseLemmas Spec_common Spec_contextual Rewrite_proofs.
Local Open Scope Z_scope.

Definition stands_atb (text w : ustr) (p : Z) : bool :=
  (0 <=? p) && (p <=? Z.of_nat (length text)) && starts_with (skipn (Z.to_nat p) text) w.

Lemma stands_at_iff : forall text w p, stands_atb text w p = true <-> stands_at text w p.
Proof.
  intros text w p. unfold stands_atb, stands_at. rewrite !andb_true_iff, starts_with_spec. split.
  - intros [[L1 L2] [r E]]. apply Z.leb_le in L1. apply Z.leb_le in L2.
    exists (firstn (Z.to_nat p) text), r. split.
    + now rewrite <- E, firstn_skipn.
    + rewrite firstn_length. lia.
  - intros (a & b & -> & <-). rewrite Nat2Z.id, skipn_app_exact. rewrite app_length.
    split; [|exists b; reflexivity]. split; apply Z.leb_le; lia.
Qed.

Fixpoint somewhereb (text w : ustr) : bool :=
  starts_with text w || match text with [] => false | _ :: r => somewhereb r w end.
Lemma somewhere_iff : forall w text, somewhereb text w = true <-> exists p, stands_at text w p.
Proof.
  intros w text. induction text as [|c r IH]; cbn [somewhereb]; rewrite orb_true_iff.
  - split.
    + intros [H|H]; [|discriminate]. apply starts_with_spec in H as [x E]. exists 0, [], x. now rewrite <- E.
    + intros (p & a & b & E & _). left. symmetry in E. apply app_eq_nil in E as [_ E].
      apply starts_with_spec. exists b. now symmetry.
  - rewrite IH, starts_with_spec. split.
    + intros [[x E]|(p & a & b & E & _)].
      * exists 0, [], x. now rewrite E.
      * exists (Z.of_nat (length (c :: a))), (c :: a), b. now rewrite E.
    + intros (p & a & b & E & _). destruct a as [|x a].
      * left. exists b. exact E.
      * right. injection E as -> E. exists (Z.of_nat (length a)), a, b. now rewrite E.
Qed.

Fixpoint holdsb (text : ustr) (i : nat) (c : cond) : bool :=
  match c with
  | At d ws => existsb (fun w => stands_atb text w (Z.of_nat i + d)) ws
  | Precede n => Nat.leb n i
  | Follow n => Nat.eqb (length text) (i + 1 + n)
  | Long n => Nat.leb n (length text)
  | Begins ws => existsb (fun w => starts_with text w) ws
  | Finishes ws => existsb (fun w => ends_with text w) ws
  | Somewhere ws => existsb (fun w => somewhereb text w) ws
  | Both c d => holdsb text i c && holdsb text i d
  | Either c d => holdsb text i c || holdsb text i d
  | Not c => negb (holdsb text i c)
  end.
Lemma holds_iff : forall text i c, holdsb text i c = true <-> holds text i c.
Proof.
  intros text i c. induction c as [d ws|n|n|n|ws|ws|ws|c IHc d IHd|c IHc d IHd|c IHc]; cbn [holdsb holds].
  - rewrite existsb_exists. split; intros (w & Hw & H); exists w; (split; [exact Hw|]); now apply stands_at_iff.
  - apply Nat.leb_le.
  - apply Nat.eqb_eq.
  - apply Nat.leb_le.
  - rewrite existsb_exists. split.
    + intros (w & Hw & H). apply starts_with_spec in H as [r E]. eauto.
    + intros (w & r & Hw & E). exists w. split; [exact Hw|]. apply starts_with_spec. eauto.
  - rewrite existsb_exists. split.
    + intros (w & Hw & H). apply ends_with_spec in H as [r E]. eauto.
    + intros (w & r & Hw & E). exists w. split; [exact Hw|]. apply ends_with_spec. eauto.
  - rewrite existsb_exists. split.
    + intros (w & Hw & H). apply somewhere_iff in H as [p H]. eauto.
    + intros (w & p & Hw & H). exists w. split; [exact Hw|]. apply somewhere_iff. eauto.
  - now rewrite andb_true_iff, IHc, IHd.
  - now rewrite orb_true_iff, IHc, IHd.
  - rewrite negb_true_iff, <- IHc. destruct (holdsb text i c); split; congruence.
Qed.
Lemma holds_not_iff : forall text i c, holdsb text i c = false <-> ~ holds text i c.
Proof. intros text i c. rewrite <- holds_iff. destruct (holdsb text i c); split; congruence. Qed.

Fixpoint run {A} (text : ustr) (i : nat) (r : rule A) : A :=
  match r with
  | Out a => a
  | If c r1 r2 => if holdsb text i c then run text i r1 else run text i r2
  end.
Lemma gives_iff : forall A text i (r : rule A) a, gives text i r a <-> a = run text i r.
Proof.
  intros A text i r. induction r as [x|c r1 IH1 r2 IH2]; intros a; cbn [run]; split.
  - intros H. now inversion H.
  - intros ->. constructor.
  - intros H. inversion H as [|c0 r10 r20 a0 Hc Hg|c0 r10 r20 a0 Hc Hg]; subst.
    + apply holds_iff in Hc. rewrite Hc. now apply IH1.
    + apply holds_not_iff in Hc. rewrite Hc. now apply IH2.
  - intros ->. destruct (holdsb text i c) eqn:E.
    + apply g_yes; [now apply holds_iff|now apply IH1].
    + apply g_no; [now apply holds_not_iff|now apply IH2].
Qed.

(** Table lookup. *)
Definition lookup {A} (t : table A) (default : rule A) (c : N) : rule A :=
  match find (fun e => isin c (fst e)) t with Some (_, f) => f c | None => default end.
Definition disjoint_table {A} (t : table A) : Prop := NoDup (concat (map fst t)).
Lemma find_In : forall A (t : table A) ls f c, disjoint_table t -> In (ls, f) t -> In c ls ->
  find (fun e => isin c (fst e)) t = Some (ls, f).
Proof.
  intros A t ls f c D Hi Hc. induction t as [|[ls0 f0] t IH]; [destruct Hi|].
  cbn [find fst]. destruct Hi as [E|Hi].
  - injection E as -> ->. apply isin_In in Hc. now rewrite Hc.
  - unfold disjoint_table in D. cbn [map concat fst] in D. destruct (isin c ls0) eqn:E.
    + apply isin_In in E. exfalso. assert (Hc' : In c (concat (map fst t))).
      { apply in_concat. exists ls. split; [|exact Hc]. apply in_map_iff. now exists (ls, f). }
      clear -D E Hc'. induction ls0 as [|x l IH]; [destruct E|]. cbn [app] in D.
      inversion D as [|x0 l0 D1 D2]; subst. destruct E as [->|E]; [apply D1, in_or_app; now right|auto].
    + apply IH; [|exact Hi]. unfold disjoint_table. clear -D. induction ls0 as [|x l IH]; [exact D|].
      inversion D; auto.
Qed.
Lemma rule_of_iff : forall A (t : table A) d c r, disjoint_table t ->
  (rule_of t d c r <-> r = lookup t d c).
Proof.
  intros A t d c r D. unfold lookup. split.
  - intros H. inversion H as [ls f Hi Hc|Hn]; subst.
    + now rewrite (find_In A t ls f c D Hi Hc).
    + destruct (find _ t) as [[ls f]|] eqn:F; [|reflexivity]. apply find_some in F as [Hi Hc].
      apply isin_In in Hc. now destruct (Hn ls f Hi).
  - intros ->. destruct (find _ t) as [[ls f]|] eqn:F.
    + apply find_some in F as [Hi Hc]. cbn in Hc. apply isin_In in Hc. now apply (ro_listed t d c ls).
    + apply ro_unlisted. intros ls f Hi Hc. pose proof (find_none _ _ F _ Hi) as E. cbn in E.
      apply isin_false in E. auto.
Qed.

(** One-letter conditions look at one character of the text. *)
Definition char_b (text : ustr) (p : Z) : option N := if p <? 0 then None else nth_error text (Z.to_nat p).
Lemma nth_skipn : forall (s : ustr) n, nth_error s n = hd_error (skipn n s).
Proof. intros s n. revert s. induction n as [|n IH]; intros [|c s]; cbn; auto. Qed.
Lemma stands_letter : forall text c p,
  stands_atb text [c] p = match char_b text p with Some x => N.eqb x c | None => false end.
Proof.
  intros text c p. unfold stands_atb, char_b. destruct (Z.ltb_spec p 0) as [L|L].
  - replace (0 <=? p) with false by (symmetry; apply Z.leb_gt; lia). reflexivity.
  - replace (0 <=? p) with true by (symmetry; apply Z.leb_le; lia). cbn [andb].
    rewrite nth_skipn. destruct (skipn (Z.to_nat p) text) as [|x r] eqn:E; cbn [hd_error].
    + apply andb_false_intro2. reflexivity.
    + assert (Z.to_nat p < length text)%nat.
      { destruct (Nat.ltb_spec (Z.to_nat p) (length text)) as [K|K]; [exact K|].
        rewrite skipn_all2 in E by lia. discriminate. }
      replace (p <=? Z.of_nat (length text)) with true by (symmetry; apply Z.leb_le; lia).
      cbn [andb]. destruct (N.eqb x c) eqn:Ex.
      * apply N.eqb_eq in Ex. subst. apply starts_with_spec. now exists r.
      * apply starts_with_not. intros r' K. injection K as -> _. now rewrite N.eqb_refl in Ex.
Qed.
Lemma at_letters : forall text i d s,
  holdsb text i (At d (letters s)) = match char_b text (Z.of_nat i + d) with Some x => isin x s | None => false end.
Proof.
  intros text i d s. cbn [holdsb]. unfold letters. induction s as [|c s IH]; cbn [map existsb].
  - now destruct (char_b text _).
  - rewrite stands_letter, IH. destruct (char_b text _) as [x|]; [|reflexivity].
    unfold isin. cbn [existsb]. now rewrite N.eqb_sym.
Qed.
