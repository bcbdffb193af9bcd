(** * Metaphone and spelling mistakes: proofs. *)
From Verif Require Import Base UnicodeM Lib Metaphone BaseLemmas Spec_common Spec_rewrite Spec_contextual Spec_metaphone Spec_typo
  Rewrite_proofs Contextual_proofs Soundex_proofs UnicodeLemmas Cologne_proofs Metaphone_proofs Metaphone_spec_proofs
  Metaphone_doubled_proofs Props_metaphone Props_metaphone_spec Typo_proofs.
Local Open Scope N_scope.

(** ** The code, read from left to right *)
Definition again (p : option N) (c : N) : bool := opt_is p c && negb (c =? # "C").
Definition syms (f l : bool) (p : option N) (c : N) (r : ustr) : ustr * nat := sym f l p (hd_error r) (hd_error (tl r)) c.
Fixpoint readf (f l : bool) (p : option N) (k : nat) (t : ustr) : ustr :=
  match t with
  | [] => []
  | c :: r =>
      match k with
      | S k' => readf false l (Some c) k' r
      | O => if again p c then readf false l (Some c) 0 r
             else fst (syms f l p c r) ++ readf false l (Some c) (snd (syms f l p c r)) r
      end
  end.

Lemma skipn_cons : forall t i (c : N), nth_error t i = Some c -> skipn i t = c :: skipn (i + 1) t.
Proof.
  induction t as [|x t IH]; intros [|i] c H; try discriminate H.
  - injection H as ->. reflexivity.
  - cbn [skipn Nat.add]. now apply IH.
Qed.
Lemma hd_skipn : forall (t : ustr) i, hd_error (skipn i t) = nth_error t i.
Proof. induction t as [|x t IH]; intros [|i]; try reflexivity. cbn [skipn nth_error]. apply IH. Qed.
Lemma tl_skipn : forall (t : ustr) i, tl (skipn i t) = skipn (i + 1) t.
Proof. induction t as [|x t IH]; intros [|i]; try reflexivity. cbn [skipn Nat.add]. apply IH. Qed.
Lemma syms_at : forall t i f l p c, syms f l p c (skipn (i + 1) t) = sym f l p (n1 t i) (n2 t i) c.
Proof.
  intros t i f l p c. unfold syms, n1, n2. rewrite tl_skipn, !hd_skipn. now replace (i + 1 + 1)%nat with (i + 2)%nat by lia.
Qed.
Lemma prev_next : forall t i c, nth_error t i = Some c -> prev t (i + 1) = Some c.
Proof.
  intros t i c H. unfold prev. replace (Nat.ltb 0 (i + 1)) with true by (symmetry; apply Nat.ltb_lt; lia).
  now replace (i + 1 - 1)%nat with i by lia.
Qed.
Lemma reads_readf : forall t i code, reads t i code ->
  code = readf (Nat.eqb i 0) (Nat.leb 4 (length t)) (prev t i) 0 (skipn i t).
Proof.
  intros t i code R. induction R as [i H|i c code X C P R IH|i c r out j code X C Ro G R IH].
  - rewrite skipn_all2 by lia. reflexivity.
  - apply after_iff in P. rewrite (skipn_cons t i c X). cbn [readf]. unfold again. rewrite P. cbn [opt_is].
    rewrite N.eqb_refl. replace (c =? # "C") with false by (symmetry; now apply N.eqb_neq). cbn [negb andb].
    rewrite (prev_next t i c X) in IH. replace (Nat.eqb (i + 1) 0) with false in IH by (symmetry; apply Nat.eqb_neq; lia). exact IH.
  - apply (letter_inv t i c r out j X Ro) in G. rewrite (skipn_cons t i c X). cbn [readf].
    replace (again (prev t i) c) with false.
    2:{ symmetry. unfold again. destruct C as [->|C]; [now rewrite N.eqb_refl, andb_false_r|].
        rewrite after_iff in C. destruct (prev t i) as [y|]; [|reflexivity]. cbn [opt_is].
        destruct (y =? c) eqn:E; [|reflexivity]. apply N.eqb_eq in E. subst y. now elim C. }
    rewrite syms_at, G. cbn [fst snd]. f_equal. rewrite IH.
    replace (Nat.eqb (i + 1 + j) 0) with false by (symmetry; apply Nat.eqb_neq; lia).
    destruct (sym_skip _ _ _ _ _ _ _ _ G) as [->|(-> & N1 & y & N2 & _)].
    + rewrite Nat.add_0_r. now rewrite (prev_next t i c X).
    + unfold n1 in N1. unfold n2 in N2. rewrite (skipn_cons t (i + 1) _ N1).
      replace (i + 1 + 1)%nat with (i + 2)%nat by lia. rewrite (skipn_cons t (i + 2) _ N2).
      cbn [readf]. replace (i + 2 + 1)%nat with (i + 1 + 2)%nat by lia.
      replace (prev t (i + 1 + 2)) with (Some y); [reflexivity|]. symmetry. replace (i + 1 + 2)%nat with (i + 2 + 1)%nat by lia. now apply prev_next.
Qed.

(** ** What a letter gives *)
Ltac sym_cases := unfold sym; cbv zeta;
  repeat match goal with |- context[if ?q then _ else _] =>
    match q with context[if _ then _ else _] => fail 1 | _ => let E := fresh "Q" in destruct q eqn:E end end.
Lemma sym_size : forall f l p m1 m2 c, (length (fst (sym f l p m1 m2 c)) <= 2)%nat /\ (c <> # "X" -> (length (fst (sym f l p m1 m2 c)) <= 1)%nat).
Proof.
  intros f l p m1 m2 c. sym_cases; cbn [fst length]; try (split; [lia|intros; lia]);
  split; try (cbn; lia); intros H; try (cbn; lia); exfalso;
  match goal with Q : (c =? 88) = true |- _ => apply N.eqb_eq in Q; congruence end.
Qed.
Lemma sym_X : forall f l p m1 m2, sym f l p m1 m2 (# "X") = ($ "KS", 0%nat).
Proof. reflexivity. Qed.
Lemma sym_no_skip : forall f l p m1 m2 c, c <> # "D" -> snd (sym f l p m1 m2 c) = 0%nat.
Proof.
  intros f l p m1 m2 c H. sym_cases; try reflexivity. exfalso.
  match goal with Q : (c =? 68) = true |- _ => apply N.eqb_eq in Q; congruence end.
Qed.
(** Before X, what comes later does not matter. *)
Lemma sym_before_X : forall f l p m2 m2' c, sym f l p (Some (# "X")) m2 c = sym f l p (Some (# "X")) m2' c.
Proof.
  intros f l p m2 m2' c. unfold sym; cbv zeta.
  cbv [isin_opt opt_is isin existsb N.eqb Pos.eqb orb]. cbn [andb orb negb]. rewrite ?andb_false_r, ?orb_false_r. cbn [andb].
  repeat match goal with |- context[if ?q then _ else _] => destruct q end; reflexivity.
Qed.
(** A letter, its length counted only at the beginning. *)
Lemma sym_long_first : forall l l' p m1 m2 c, sym false l p m1 m2 c = sym false l' p m1 m2 c.
Proof. intros l l' p m1 m2 c. reflexivity. Qed.
Lemma readf_long : forall t l l' p k, readf false l p k t = readf false l' p k t.
Proof.
  induction t as [|c r IH]; intros l l' p k; [reflexivity|]. cbn [readf]. destruct k as [|k]; [|apply IH].
  rewrite (IH l l'). destruct (again p c); [reflexivity|]. unfold syms. rewrite (sym_long_first l l'). f_equal. apply IH.
Qed.

(** A code has at most three letters for two of the name. *)
Lemma readf_size : forall t f l p k,
  (2 * length (readf f l p k t) <= 3 * length t + (if opt_is (hd_error t) (# "X") && negb (opt_is p (# "X")) then 1 else 0))%nat.
Proof.
  induction t as [|c r IH]; intros f l p k; [cbn; lia|]. cbn [readf hd_error opt_is length].
  assert (B : forall f k, (2 * length (readf f l (Some c) k r) <= 3 * length r + (if (c =? 88)%N then 0 else 1))%nat).
  { intros f' k'. specialize (IH f' l (Some c) k'). cbn [opt_is] in IH. destruct (c =? 88); cbn [negb] in IH.
    - rewrite andb_false_r in IH. exact IH.
    - destruct (opt_is (hd_error r) 88); cbn [andb] in IH; lia. }
  destruct k as [|k].
  - destruct (again p c) eqn:A.
    + specialize (B false 0%nat). destruct (c =? 88); cbn [andb]; lia.
    + rewrite app_length. specialize (B false (snd (syms f l p c r))). destruct (c =? 88) eqn:E.
      * apply N.eqb_eq in E. subst c. unfold syms in *. rewrite sym_X in *. cbn [fst snd length] in *.
        assert (P : opt_is p 88 = false). { unfold again in A. cbn [N.eqb Pos.eqb negb] in A. now rewrite andb_true_r in A. }
        rewrite P. cbn [negb andb] in B |- *. lia.
      * cbn [andb]. apply N.eqb_neq in E. pose proof (proj2 (sym_size f l p (hd_error r) (hd_error (tl r)) c) E). unfold syms in *. lia.
  - specialize (B false k). destruct (c =? 88); cbn [andb]; lia.
Qed.

(** ** The letters before a mistake *)
Fixpoint body (f l : bool) (p : option N) (k : nat) (a q : ustr) : ustr :=
  match a with
  | [] => []
  | c :: r =>
      match k with
      | S k' => body false l (Some c) k' r q
      | O => if again p c then body false l (Some c) 0 r q
             else fst (syms f l p c (r ++ q)) ++ body false l (Some c) (snd (syms f l p c (r ++ q))) r q
      end
  end.
Fixpoint body_skip (f l : bool) (p : option N) (k : nat) (a q : ustr) : nat :=
  match a with
  | [] => k
  | c :: r =>
      match k with
      | S k' => body_skip false l (Some c) k' r q
      | O => if again p c then body_skip false l (Some c) 0 r q
             else body_skip false l (Some c) (snd (syms f l p c (r ++ q))) r q
      end
  end.
Definition after_body (p : option N) (a : ustr) : option N := match rev a with [] => p | c :: _ => Some c end.
Lemma after_cons : forall p c a, after_body p (c :: a) = after_body (Some c) a.
Proof. intros p c a. unfold after_body. cbn [rev]. destruct (rev a) as [|y r]; reflexivity. Qed.
Lemma readf_body : forall a f l p k q,
  readf f l p k (a ++ q) = body f l p k a q ++ readf (f && none a) l (after_body p a) (body_skip f l p k a q) q.
Proof.
  induction a as [|c a IH]; intros f l p k q; [cbn [app body body_skip none after_body rev]; now rewrite andb_true_r|].
  cbn [app readf body body_skip none]. rewrite andb_false_r, after_cons.
  destruct k as [|k]; [|rewrite IH; reflexivity]. destruct (again p c); [rewrite IH; reflexivity|].
  rewrite IH, <- app_assoc. reflexivity.
Qed.
(** Letters passed over are G and one of E, I and Y. *)
Definition fits (k : nat) (t : ustr) : Prop :=
  k = 0%nat \/ (k = 1%nat /\ exists y r, t = y :: r /\ In y $ "EIY") \/ (k = 2%nat /\ exists y r, t = # "G" :: y :: r /\ In y $ "EIY").
Lemma fits_syms : forall f l p c r, fits (snd (syms f l p c r)) r.
Proof.
  intros f l p c r. unfold syms. destruct (sym f l p (hd_error r) (hd_error (tl r)) c) as [o j] eqn:E. cbn [snd].
  destruct (sym_skip _ _ _ _ _ _ _ _ E) as [->|(-> & N1 & y & N2 & Hy)]; [now left|].
  destruct r as [|x [|z r]]; try discriminate. cbn in N1, N2. injection N1 as ->. injection N2 as ->.
  right. right. split; [reflexivity|]. now exists y, r.
Qed.
Lemma fits_less : forall k c r, fits (S k) (c :: r) -> fits k r.
Proof.
  intros k c r [H|[(H & y & t & E & Hy)|(H & y & t & E & Hy)]]; [discriminate H|injection H as ->; now left|].
  injection H as ->. injection E as -> ->. right. left. split; [reflexivity|]. now exists y, t.
Qed.
Lemma fits_body : forall a f l p k q, fits k (a ++ q) -> fits (body_skip f l p k a q) q.
Proof.
  induction a as [|c a IH]; intros f l p k q H; [exact H|]. cbn [body_skip app] in *.
  destruct k as [|k]; [|apply IH; now apply (fits_less k c)].
  destruct (again p c); apply IH; [now left|apply fits_syms].
Qed.
Lemma body_size : forall a f l p k q,
  (2 * length (body f l p k a q) <= 3 * length a + (if opt_is (hd_error a) (# "X") && negb (opt_is p (# "X")) then 1 else 0))%nat.
Proof.
  induction a as [|c r IH]; intros f l p k q; [cbn; lia|]. cbn [body hd_error opt_is length].
  assert (B : forall f k, (2 * length (body f l (Some c) k r q) <= 3 * length r + (if (c =? 88)%N then 0 else 1))%nat).
  { intros f' k'. specialize (IH f' l (Some c) k' q). cbn [opt_is] in IH. destruct (c =? 88); cbn [negb] in IH.
    - rewrite andb_false_r in IH. exact IH.
    - destruct (opt_is (hd_error r) 88); cbn [andb] in IH; lia. }
  destruct k as [|k].
  - destruct (again p c) eqn:A.
    + specialize (B false 0%nat). destruct (c =? 88); cbn [andb]; lia.
    + rewrite app_length. specialize (B false (snd (syms f l p c (r ++ q)))). destruct (c =? 88) eqn:E.
      * apply N.eqb_eq in E. subst c. unfold syms in *. rewrite sym_X in *. cbn [fst snd length] in *.
        assert (P : opt_is p 88 = false). { unfold again in A. cbn [N.eqb Pos.eqb negb] in A. now rewrite andb_true_r in A. }
        rewrite P. cbn [negb andb] in B |- *. lia.
      * cbn [andb]. apply N.eqb_neq in E. pose proof (proj2 (sym_size f l p (hd_error (r ++ q)) (hd_error (tl (r ++ q))) c) E). unfold syms in *. lia.
  - specialize (B false k). destruct (c =? 88); cbn [andb]; lia.
Qed.
Lemma body_before : forall a f l p k q1 q2, exists h t1 t2,
  body f l p k a q1 = h ++ t1 /\ body f l p k a q2 = h ++ t2 /\ (length t1 <= 2)%nat /\ (length t2 <= 2)%nat.
Proof.
  induction a as [|c a IH]; intros f l p k q1 q2; [exists [], [], []; cbn; repeat split; lia|].
  assert (Pass : forall f k, exists h t1 t2, body f l (Some c) k a q1 = h ++ t1 /\ body f l (Some c) k a q2 = h ++ t2
            /\ (length t1 <= 2)%nat /\ (length t2 <= 2)%nat) by (intros; apply IH).
  cbn [body]. destruct k as [|k]; [|apply Pass]. destruct (again p c) eqn:A; [apply Pass|].
  destruct a as [|d a].
  { cbn [app body]. rewrite !app_nil_r. do 3 eexists. split; [symmetry; apply app_nil_l|]. split; [symmetry; apply app_nil_l|].
    split; apply sym_size. }
  assert (Same : syms f l p c ((d :: a) ++ q1) = syms f l p c ((d :: a) ++ q2) -> exists h t1 t2,
     fst (syms f l p c ((d :: a) ++ q1)) ++ body false l (Some c) (snd (syms f l p c ((d :: a) ++ q1))) (d :: a) q1 = h ++ t1
     /\ fst (syms f l p c ((d :: a) ++ q2)) ++ body false l (Some c) (snd (syms f l p c ((d :: a) ++ q2))) (d :: a) q2 = h ++ t2
     /\ (length t1 <= 2)%nat /\ (length t2 <= 2)%nat).
  { intros E. rewrite E. destruct (Pass false (snd (syms f l p c ((d :: a) ++ q2)))) as (h & t1 & t2 & -> & -> & K1 & K2).
    exists (fst (syms f l p c ((d :: a) ++ q2)) ++ h), t1, t2. rewrite <- !app_assoc. now repeat split. }
  destruct a as [|e a]; [|apply Same; reflexivity].
  destruct (N.eq_dec d (# "X")) as [->|Nd]; [apply Same; unfold syms; cbn [app hd_error tl]; apply sym_before_X|].
  destruct (N.eq_dec c (# "X")) as [->|Nc]; [apply Same; reflexivity|].
  assert (Short : forall q, (length (fst (syms f l p c ([d] ++ q)) ++ body false l (Some c) (snd (syms f l p c ([d] ++ q))) [d] q) <= 2)%nat).
  { intros q. rewrite app_length. pose proof (proj2 (sym_size f l p (hd_error ([d] ++ q)) (hd_error (tl ([d] ++ q))) c) Nc) as S1.
    assert (S2 : (length (body false l (Some c) (snd (syms f l p c ([d] ++ q))) [d] q) <= 1)%nat).
    { cbn [body]. destruct (snd (syms f l p c ([d] ++ q))); [|cbn; lia]. destruct (again (Some c) d); [cbn; lia|].
      rewrite app_nil_r. now apply sym_size. }
    unfold syms in *. lia. }
  do 3 eexists. split; [symmetry; apply app_nil_l|]. split; [symmetry; apply app_nil_l|]. split; apply Short.
Qed.

(** ** The letters after a mistake *)
Lemma readf_meet : forall r f1 f2 l p1 p2 k1 k2, fits k1 r -> fits k2 r -> exists o1 o2 s,
  readf f1 l p1 k1 r = o1 ++ s /\ readf f2 l p2 k2 r = o2 ++ s /\ (length o1 <= 2)%nat /\ (length o2 <= 2)%nat.
Proof.
  intros r f1 f2 l p1 p2 k1 k2 F1 F2.
  (* every reading of the text ends with one and the same, after at most two letters *)
  assert (One : exists s, forall f p k, fits k r -> exists o, readf f l p k r = o ++ s /\ (length o <= 2)%nat).
  { clear. destruct r as [|c r]; [exists []; intros; exists []; split; [reflexivity|cbn; lia]|].
    destruct (N.eq_dec c (# "D")) as [->|Nd].
    - destruct (fits_syms false l None (# "D") r) as [J|[(J & _)|(J & y & r' & -> & Hy)]].
      + (* nothing is passed over *)
        exists (readf false l (Some (# "D")) 0 r). intros f p k Fk.
        destruct Fk as [->|[(_ & y & t & E & Hy)|(_ & y & t & E & _)]];
          [|injection E as <- <-; cbn in Hy; repeat (destruct Hy as [Hy|Hy]; [discriminate Hy|]); contradiction|discriminate E].
        cbn [readf]. destruct (again p 68); [exists []; split; [reflexivity|cbn; lia]|].
        exists (fst (syms f l p 68 r)). split; [|apply sym_size]. do 2 f_equal. exact J.
      + unfold syms, sym in J. cbn [isin existsb N.eqb Pos.eqb orb Vowel] in J.
        match type of J with snd (if ?q then _ else _) = _ => destruct q; discriminate J end.
      + exists (readf false l (Some y) 0 r'). intros f p k Fk.
        destruct Fk as [->|[(_ & z & t & E & Hz)|(_ & z & t & E & _)]];
          [|injection E as <- <-; cbn in Hz; repeat (destruct Hz as [Hz|Hz]; [discriminate Hz|]); contradiction|discriminate E].
        cbn in Hy. destruct (again p 68) eqn:A.
        * cbn [readf]. rewrite A. change (again (Some 68) 71) with false. cbv iota.
          assert (Z0 : snd (syms false l (Some 68) 71 (y :: r')) = 0%nat) by (apply sym_no_skip; discriminate).
          rewrite Z0. cbv iota.
          replace (again (Some 71) y) with false by (repeat (destruct Hy as [<-|Hy]; [reflexivity|]); destruct Hy).
          assert (Z : snd (syms false l (Some 71) y r') = 0%nat).
          { apply sym_no_skip. repeat (destruct Hy as [<-|Hy]; [discriminate|]). destruct Hy. }
          rewrite Z, app_assoc. eexists. split; [reflexivity|]. rewrite app_length.
          assert (Z1 : (length (fst (syms false l (Some (# "D")) (# "G") (y :: r'))) <= 1)%nat) by (apply sym_size; discriminate).
          assert (Z2 : (length (fst (syms false l (Some (# "G")) y r')) <= 1)%nat).
          { apply sym_size. repeat (destruct Hy as [<-|Hy]; [discriminate|]). destruct Hy. }
          lia.
        * exists $ "J". split; [|cbn; lia]. cbn [readf]. rewrite A. unfold syms. cbn [hd_error tl].
          repeat (destruct Hy as [<-|Hy]; [reflexivity|]). destruct Hy.
    - (* the letter passes nothing over *)
      assert (Plain : forall f p, exists o, readf f l p 0 (c :: r) = o ++ readf false l (Some c) 0 r /\ (length o <= 2)%nat /\ (c <> # "X" -> (length o <= 1)%nat)).
      { intros f p. cbn [readf]. destruct (again p c); [exists []; split; [reflexivity|cbn; lia]|].
        exists (fst (syms f l p c r)). split; [|apply sym_size]. do 2 f_equal. now apply sym_no_skip. }
      destruct (N.eq_dec c (# "G")) as [->|Ng].
      + destruct r as [|y r].
        * exists (readf false l (Some 71) 0 []). intros f p k Fk.
          destruct Fk as [->|[(_ & z & t & E & Hz)|(_ & z & t & E & _)]];
            [|injection E as <- <-; cbn in Hz; repeat (destruct Hz as [Hz|Hz]; [discriminate Hz|]); contradiction|discriminate E].
          destruct (Plain f p) as (o & E & L & _). now exists o.
        * destruct (isin y $ "EIY") eqn:Ey.
          -- apply isin_In in Ey. cbn in Ey. exists (readf false l (Some y) 0 r). intros f p k Fk.
             destruct Fk as [->|[(_ & z & t & E & Hz)|(-> & z & t & E & Hz)]];
               [|injection E as <- <-; cbn in Hz; repeat (destruct Hz as [Hz|Hz]; [discriminate Hz|]); contradiction|].
             ++ destruct (Plain f p) as (o & -> & _ & L). specialize (L ltac:(discriminate)). cbn [readf].
                replace (again (Some 71) y) with false by (repeat (destruct Ey as [<-|Ey]; [reflexivity|]); destruct Ey).
                assert (Z : snd (syms false l (Some 71) y r) = 0%nat).
                { apply sym_no_skip. repeat (destruct Ey as [<-|Ey]; [discriminate|]). destruct Ey. }
                rewrite Z, app_assoc. eexists. split; [reflexivity|]. rewrite app_length.
                assert (Z2 : (length (fst (syms false l (Some (# "G")) y r)) <= 1)%nat).
                { apply sym_size. repeat (destruct Ey as [<-|Ey]; [discriminate|]). destruct Ey. }
                lia.
             ++ injection E as <- <-. exists []. split; [reflexivity|cbn; lia].
          -- exists (readf false l (Some 71) 0 (y :: r)). intros f p k Fk.
             destruct Fk as [->|[(_ & z & t & E & Hz)|(_ & z & t & E & Hz)]];
               [|injection E as <- <-; cbn in Hz; repeat (destruct Hz as [Hz|Hz]; [discriminate Hz|]); contradiction|].
             ++ destruct (Plain f p) as (o & E & L & _). now exists o.
             ++ injection E as <- <-. apply isin_In in Hz. rewrite Hz in Ey. discriminate Ey.
      + exists (readf false l (Some c) 0 r). intros f p k Fk. destruct Fk as [->|[(-> & z & t & E & Hz)|(_ & z & t & E & Hz)]].
        * destruct (Plain f p) as (o & E & L & _). now exists o.
        * exists []. split; [reflexivity|cbn; lia].
        * injection E as -> _. now elim Ng. }
  destruct One as (s & H). destruct (H f1 p1 k1 F1) as (o1 & E1 & K1). destruct (H f2 p2 k2 F2) as (o2 & E2 & K2).
  exists o1, o2, s. now repeat split.
Qed.

(** After X, at most one. *)
Lemma readf_meet_X : forall r f2 l p2 k2, fits k2 r -> k2 <> 2%nat -> exists o1 o2 s,
  readf false l (Some (# "X")) 0 r = o1 ++ s /\ readf f2 l p2 k2 r = o2 ++ s /\ (length o1 <= 1)%nat /\ (length o2 <= 2)%nat.
Proof.
  intros [|c r] f2 l p2 k2 F2 N2; [exists [], [], []; cbn; repeat split; lia|].
  destruct (N.eq_dec c (# "D")) as [->|Nd].
  - destruct (fits_syms false l (Some (# "X")) (# "D") r) as [J|[(J & _)|(J & y & r' & -> & Hy)]].
    + exists (fst (syms false l (Some 88) 68 r)), (match k2 with O => if again p2 68 then [] else fst (syms f2 l p2 68 r) | S _ => [] end), (readf false l (Some 68) 0 r).
      cbn [readf]. change (again (Some 88) 68) with false. cbv iota. rewrite J.
      split; [reflexivity|]. destruct F2 as [->|[(_ & z & t & E & Hz)|(_ & z & t & E & _)]];
          [|injection E as <- <-; cbn in Hz; repeat (destruct Hz as [Hz|Hz]; [discriminate Hz|]); contradiction|discriminate E].
      split; [|split; [apply sym_size; discriminate|destruct (again p2 68); [cbn; lia|apply sym_size]]].
      destruct (again p2 68); [reflexivity|]. do 2 f_equal. exact J.
    + unfold syms, sym in J. cbn [isin existsb N.eqb Pos.eqb orb Vowel] in J.
      match type of J with snd (if ?q then _ else _) = _ => destruct q; discriminate J end.
    + (* J, and two letters passed over *)
      cbn in Hy. assert (Q : readf false l (Some 88) 0 (68 :: 71 :: y :: r') = $ "J" ++ readf false l (Some y) 0 r').
      { cbn [readf]. change (again (Some 88) 68) with false. cbv iota. unfold syms. cbn [hd_error tl].
        repeat (destruct Hy as [<-|Hy]; [reflexivity|]). destruct Hy. }
      destruct F2 as [->|[(_ & z & t & E & Hz)|(_ & z & t & E & _)]];
          [|injection E as <- <-; cbn in Hz; repeat (destruct Hz as [Hz|Hz]; [discriminate Hz|]); contradiction|discriminate E].
      destruct (again p2 68) eqn:A.
      * assert (R : readf f2 l p2 0 (68 :: 71 :: y :: r') = (fst (syms false l (Some (# "D")) (# "G") (y :: r')) ++ fst (syms false l (Some (# "G")) y r')) ++ readf false l (Some y) 0 r').
        { cbn [readf]. rewrite A. change (again (Some 68) 71) with false. cbv iota.
          assert (Z0 : snd (syms false l (Some (# "D")) (# "G") (y :: r')) = 0%nat) by (apply sym_no_skip; discriminate).
          rewrite Z0. cbv iota.
          replace (again (Some 71) y) with false by (repeat (destruct Hy as [<-|Hy]; [reflexivity|]); destruct Hy).
          assert (Z : snd (syms false l (Some (# "G")) y r') = 0%nat).
          { apply sym_no_skip. repeat (destruct Hy as [<-|Hy]; [discriminate|]). destruct Hy. }
          rewrite Z, app_assoc. reflexivity. }
        exists $ "J", (fst (syms false l (Some (# "D")) (# "G") (y :: r')) ++ fst (syms false l (Some (# "G")) y r')), (readf false l (Some y) 0 r').
        split; [exact Q|]. split; [exact R|]. split; [cbn; lia|]. rewrite app_length.
        assert (Z1 : (length (fst (syms false l (Some (# "D")) (# "G") (y :: r'))) <= 1)%nat) by (apply sym_size; discriminate).
        assert (Z2 : (length (fst (syms false l (Some (# "G")) y r')) <= 1)%nat).
        { apply sym_size. repeat (destruct Hy as [<-|Hy]; [discriminate|]). destruct Hy. }
        lia.
      * exists $ "J", $ "J", (readf false l (Some y) 0 r'). split; [exact Q|]. split; [|cbn; lia]. cbn [readf]. rewrite A. unfold syms. cbn [hd_error tl].
        repeat (destruct Hy as [<-|Hy]; [reflexivity|]). destruct Hy.
  - (* one letter *)
    assert (Plain : forall f p, exists o, readf f l p 0 (c :: r) = o ++ readf false l (Some c) 0 r /\ (length o <= 2)%nat /\ (c <> # "X" \/ p = Some (# "X") -> (length o <= 1)%nat)).
    { intros f p. cbn [readf]. destruct (again p c) eqn:A; [exists []; split; [reflexivity|cbn; lia]|].
      exists (fst (syms f l p c r)). split; [do 2 f_equal; now apply sym_no_skip|]. split; [apply sym_size|].
      intros [H| ->]; [now apply sym_size|]. destruct (N.eq_dec c (# "X")) as [->|Nx]; [discriminate A|now apply sym_size]. }
    destruct (Plain false (Some 88)) as (o1 & E1 & _ & L1). specialize (L1 (or_intror eq_refl)).
    destruct F2 as [->|[(-> & z & t & E & Hz)|(-> & z & t & E & Hz)]]; [| |congruence].
    + destruct (Plain f2 p2) as (o2 & E2 & L2 & _). exists o1, o2, (readf false l (Some c) 0 r). now repeat split.
    + exists o1, [], (readf false l (Some c) 0 r). repeat split; [exact E1|exact L1|cbn; lia].
Qed.

(** ** What the letters before do not look at *)
Ltac known := repeat (match goal with
  | |- context[isin_opt (Some ?x) ?s] => let v := eval vm_compute in (isin_opt (Some x) s) in change (isin_opt (Some x) s) with v
  | |- context[opt_is (Some ?x) ?y] => let v := eval vm_compute in (opt_is (Some x) y) in change (opt_is (Some x) y) with v end).
Lemma sym_next_XD : forall f l p m2 m2' c, sym f l p (Some (# "X")) m2 c = sym f l p (Some (# "D")) m2' c.
Proof.
  intros f l p m2 m2' c. unfold sym; cbv zeta. known. cbn [andb orb negb]. rewrite ?andb_false_r. cbv iota. reflexivity.
Qed.
Lemma sym_next_DD : forall f l p m2 m2' c, sym f l p (Some (# "D")) m2 c = sym f l p (Some (# "D")) m2' c.
Proof. intros f l p m2 m2' c. now rewrite <- !(sym_next_XD f l p None). Qed.
Lemma sym_second_XD : forall f l p m1 c, sym f l p m1 (Some (# "X")) c = sym f l p m1 (Some (# "D")) c.
Proof. intros f l p m1 c. unfold sym; cbv zeta. known. reflexivity. Qed.
Lemma syms_before : forall f l p c a x y r1 r2,
  (forall c, sym f l p (Some x) (hd_error r1) c = sym f l p (Some y) (hd_error r2) c) ->
  (forall m1 c, sym f l p m1 (Some x) c = sym f l p m1 (Some y) c) ->
  syms f l p c (a ++ x :: r1) = syms f l p c (a ++ y :: r2).
Proof. intros f l p c [|d [|e a]] x y r1 r2 H1 H2; unfold syms; cbn [app hd_error tl]; [apply H1|apply H2|reflexivity]. Qed.
Lemma body_same : forall a x y r1 r2 f l p k,
  (forall f l p c, sym f l p (Some x) (hd_error r1) c = sym f l p (Some y) (hd_error r2) c) ->
  (forall f l p m1 c, sym f l p m1 (Some x) c = sym f l p m1 (Some y) c) ->
  body f l p k a (x :: r1) = body f l p k a (y :: r2) /\ body_skip f l p k a (x :: r1) = body_skip f l p k a (y :: r2).
Proof.
  induction a as [|c a IH]; intros x y r1 r2 f l p k H1 H2; [now split|]. cbn [body body_skip].
  destruct k as [|k]; [|now apply IH]. destruct (again p c); [now apply IH|].
  rewrite (syms_before f l p c a x y r1 r2) by auto. destruct (IH x y r1 r2 false l (Some c) (snd (syms f l p c (a ++ y :: r2))) H1 H2) as [-> ->].
  now split.
Qed.
Lemma body_app : forall a b q f l p k,
  body f l p k (a ++ b) q = body f l p k a (b ++ q) ++ body (f && none a) l (after_body p a) (body_skip f l p k a (b ++ q)) b q
  /\ body_skip f l p k (a ++ b) q = body_skip (f && none a) l (after_body p a) (body_skip f l p k a (b ++ q)) b q.
Proof.
  induction a as [|c a IH]; intros b q f l p k.
  - cbn [app body body_skip none after_body rev]. now rewrite andb_true_r.
  - cbn [app body body_skip none]. rewrite andb_false_r, after_cons, <- !app_assoc.
    destruct k as [|k]; [|apply IH]. destruct (again p c); [apply IH|].
    destruct (IH b q false l (Some c) (snd (syms f l p c (a ++ b ++ q)))) as [E1 E2]. rewrite E1, E2, app_assoc. now split.
Qed.
(** Two letters are passed over only after D. *)
Lemma body_skip_cons : forall c r f l p k q, body_skip f l p k (c :: r) q = match k with
    | S k' => body_skip false l (Some c) k' r q
    | O => if again p c then body_skip false l (Some c) 0 r q else body_skip false l (Some c) (snd (syms f l p c (r ++ q))) r q
    end.
Proof. reflexivity. Qed.
Lemma skip_two : forall w q f l p k, (k <= 2)%nat -> w <> [] -> body_skip f l p k w q = 2%nat -> exists w', w = w' ++ [ # "D" ].
Proof.
  induction w as [|c w IH]; intros q f l p k K N H; [congruence|]. destruct w as [|d w].
  - cbn [body_skip app] in H. destruct k as [|k]; [|lia]. destruct (again p c); [discriminate H|].
    destruct (N.eq_dec c (# "D")) as [->|Nd]; [now exists []|]. unfold syms in H. rewrite sym_no_skip in H by assumption. discriminate H.
  - assert (R : forall f k, (k <= 2)%nat -> body_skip f l (Some c) k (d :: w) q = 2%nat -> exists w', c :: d :: w = w' ++ [ # "D" ]).
    { intros f' k' K' H'. destruct (IH q f' l (Some c) k' K' ltac:(discriminate) H') as [w' ->]. now exists (c :: w'). }
    rewrite body_skip_cons in H. destruct k as [|k]; [|apply (R false k); [lia|exact H]]. destruct (again p c); [apply (R false 0%nat); [lia|exact H]|].
    apply (R _ _) in H; [exact H|]. destruct (fits_syms f l p c ((d :: w) ++ q)) as [->|[(-> & _)|(-> & _)]]; lia.
Qed.
Lemma fits_le : forall k t, fits k t -> (k <= 2)%nat.
Proof. intros k t [->|[(-> & _)|(-> & _)]]; lia. Qed.

(** ** A stretch of the text *)
Definition full (l : bool) (t : ustr) : ustr := readf true l None 0 t.
Lemma full_parts : forall a u r l, exists p k,
  p = after_body None (a ++ u) /\ k = body_skip true l None 0 (a ++ u) r /\ fits k r /\
  full l (a ++ u ++ r) = body true l None 0 a (u ++ r)
    ++ body (true && none a) l (after_body None a) (body_skip true l None 0 a (u ++ r)) u r ++ readf (true && none (a ++ u)) l p k r.
Proof.
  intros a u r l. do 2 eexists. split; [reflexivity|]. split; [reflexivity|].
  split; [apply fits_body; now left|]. unfold full. rewrite app_assoc, (readf_body (a ++ u)).
  rewrite (proj1 (body_app a u r true l None 0)), <- app_assoc. reflexivity.
Qed.
(** A letter or none, for another or none. *)
Lemma one_size : forall f l p k u q, (length u <= 1)%nat -> (length (body f l p k u q) <= 2)%nat /\ (u <> [ # "X" ] -> (length (body f l p k u q) <= 1)%nat).
Proof.
  intros f l p k [|c [|d u]] q L; [cbn; split; lia| |cbn in L; lia]. cbn [body]. destruct k as [|k]; [|cbn; split; lia].
  destruct (again p c); [cbn; split; lia|]. rewrite app_nil_r. split; [apply sym_size|]. intros H. apply sym_size. congruence.
Qed.
Lemma after_snoc : forall p a c, after_body p (a ++ [c]) = Some c.
Proof. intros p a c. unfold after_body. now rewrite rev_app_distr. Qed.
Lemma stretch_X : forall a u2 r l, a <> [] -> (length u2 <= 1)%nat -> u2 <> [ # "X" ] -> exists h o1 o2 s,
  full l (a ++ [ # "X" ] ++ r) = h ++ o1 ++ s /\ full l (a ++ u2 ++ r) = h ++ o2 ++ s /\ (length o1 <= 5)%nat /\ (length o2 <= 5)%nat.
Proof.
  intros a u2 r l Na L2 Nx.
  destruct (full_parts a [ # "X" ] r l) as (p1 & k1 & P1 & K1 & F1 & ->). destruct (full_parts a u2 r l) as (p2 & k2 & P2 & K2 & F2 & ->).
  assert (Z1 : true && none (a ++ [88]) = false) by (now destruct a). assert (Z2 : true && none (a ++ u2) = false) by (now destruct a).
  assert (Z3 : true && none a = false) by (now destruct a).
  rewrite Z1, Z2, Z3. rewrite after_snoc in P1. subst p1.
  assert (K0 : k1 = 0%nat).
  { rewrite K1. rewrite (proj2 (body_app a [88] r true l None 0)). pose proof (fits_body a true l None 0 ([88] ++ r) (or_introl eq_refl)) as F.
    destruct F as [->|[(_ & y & t & E & Hy)|(_ & y & t & E & _)]]; [|injection E as <- <-; cbn in Hy; repeat (destruct Hy as [Hy|Hy]; [discriminate Hy|]); contradiction|discriminate E].
    cbn [body_skip]. destruct (again _ 88); reflexivity. }
  clear K1. subst k1.
  pose proof (fun f p k => proj1 (one_size f l p k [88] r ltac:(cbn; lia))) as B1.
  pose proof (fun f p k => proj2 (one_size f l p k u2 r L2) Nx) as B2.
  destruct (Nat.eq_dec k2 2) as [E2|E2].
  - rewrite E2 in *. assert (Ne : a ++ u2 <> []) by (destruct a; [congruence|discriminate]).
    destruct (skip_two (a ++ u2) r true l None 0 ltac:(lia) Ne (eq_sym K2)) as [w W].
    destruct (readf_meet r false false l (Some 88) p2 0 2 F1 F2) as (o1 & o2 & s & -> & -> & M1 & M2).
    destruct u2 as [|d [|d' u2]]; [| |cbn in L2; lia].
    + (* the letter before is D *)
      rewrite app_nil_r in W. subst a. cbn [app].
      match goal with |- context[body ?f l ?p ?k [] r] => change (body f l p k [] r) with (@nil BinNums.N) end. cbn [app].
      rewrite (proj1 (body_app w [68] (88 :: r) true l None 0)), (proj1 (body_app w [68] r true l None 0)). cbn [app].
      destruct (body_same w 68 68 (88 :: r) r true l None 0) as [-> _]; [intros; apply sym_next_DD|reflexivity|].
      set (h := body true l None 0 w (68 :: r)).
      match goal with |- context[h ++ ?b1] => match goal with |- context[(h ++ ?b2) ++ o2 ++ s] => match goal with |- context[(h ++ b1) ++ ?x ++ o1 ++ s] =>
        exists h, (b1 ++ x ++ o1), (b2 ++ o2), s end end end.
      rewrite <- !app_assoc. split; [reflexivity|]. split; [reflexivity|]. rewrite !app_length.
      match goal with |- context[body false l ?p ?k [88] r] => specialize (B1 false p k) end.
      match goal with |- context[body ?f l ?p ?k [68] (88 :: r)] => pose proof (proj2 (one_size f l p k [68] (88 :: r) ltac:(cbn; lia)) ltac:(discriminate)) end.
      match goal with |- context[body ?f l ?p ?k [68] r] => pose proof (proj2 (one_size f l p k [68] r ltac:(cbn; lia)) ltac:(discriminate)) end.
      lia.
    + (* D for X *)
      apply app_inj_tail in W as [_ ->]. cbn [app].
      destruct (body_same a 88 68 r r true l None 0) as [-> _]; [intros; apply sym_next_XD|intros; apply sym_second_XD|].
      set (h := body true l None 0 a (68 :: r)).
      match goal with |- context[h ++ ?x1 ++ o1 ++ s] => match goal with |- context[h ++ ?x2 ++ o2 ++ s] => exists h, (x1 ++ o1), (x2 ++ o2), s end end.
      rewrite <- !app_assoc. split; [reflexivity|]. split; [reflexivity|]. rewrite !app_length.
      match goal with |- context[body false l ?p ?k [88] r] => specialize (B1 false p k) end.
      match goal with |- context[body false l ?p ?k [68] r] => specialize (B2 false p k) end. lia.
  - destruct (readf_meet_X r false l p2 k2 F2 E2) as (o1 & o2 & s & -> & -> & M1 & M2).
    destruct (body_before a true l None 0 ([88] ++ r) (u2 ++ r)) as (h & t1 & t2 & -> & -> & T1 & T2).
    match goal with |- context[(h ++ t1) ++ ?x1 ++ o1 ++ s] => match goal with |- context[(h ++ t2) ++ ?x2 ++ o2 ++ s] => exists h, (t1 ++ x1 ++ o1), (t2 ++ x2 ++ o2), s end end.
    rewrite <- !app_assoc. split; [reflexivity|]. split; [reflexivity|]. rewrite !app_length.
    match goal with |- context[body false l ?p ?k [88] r] => specialize (B1 false p k) end.
    match goal with |- context[body false l ?p ?k u2 r] => specialize (B2 false p k) end. lia.
Qed.
Lemma inside_stretch : forall a u1 u2 r l, a <> [] -> (length u1 <= 1)%nat -> (length u2 <= 1)%nat ->
  mistakes any_character 5 (full l (a ++ u1 ++ r)) (full l (a ++ u2 ++ r)).
Proof.
  intros a u1 u2 r l Na L1 L2. destruct (list_eq_dec N.eq_dec u1 [88]) as [->|N1]; destruct (list_eq_dec N.eq_dec u2 [88]) as [->|N2].
  - constructor.
  - destruct (stretch_X a u2 r l Na L2 N2) as (h & o1 & o2 & s & -> & -> & K1 & K2). now apply stretch.
  - destruct (stretch_X a u1 r l Na L1 N1) as (h & o1 & o2 & s & -> & -> & K1 & K2). now apply stretch.
  - destruct (full_parts a u1 r l) as (p1 & k1 & P1 & K1 & F1 & ->). destruct (full_parts a u2 r l) as (p2 & k2 & P2 & K2 & F2 & ->).
    destruct (readf_meet r (true && none (a ++ u1)) (true && none (a ++ u2)) l p1 p2 k1 k2 F1 F2) as (o1 & o2 & s & -> & -> & M1 & M2).
    destruct (body_before a true l None 0 (u1 ++ r) (u2 ++ r)) as (h & t1 & t2 & -> & -> & T1 & T2).
    rewrite <- !app_assoc. rewrite (app_assoc t1), (app_assoc t2), (app_assoc (t1 ++ _)), (app_assoc (t2 ++ _)).
    pose proof (fun f p k => proj2 (one_size f l p k u1 r L1) N1) as B1. pose proof (fun f p k => proj2 (one_size f l p k u2 r L2) N2) as B2.
    apply stretch; rewrite !app_length.
    + match goal with |- context[body ?f l ?p ?k u1 r] => specialize (B1 f p k) end. lia.
    + match goal with |- context[body ?f l ?p ?k u2 r] => specialize (B2 f p k) end. lia.
Qed.
(** At the beginning: up to three letters, the last one the same. *)
Lemma few : forall (u r : ustr) l n f p k, (3 * length u <= 2 * n + 1)%nat -> hd_error u <> Some (# "X") -> (length (body f l p k u r) <= n)%nat.
Proof.
  intros u r l n f p k H X. pose proof (body_size u f l p k r) as B. destruct (hd_error u) as [c|] eqn:E; cbn [opt_is andb] in B; [|lia].
  destruct (c =? 88) eqn:Ec; cbn [andb] in B; [|lia]. apply N.eqb_eq in Ec. congruence.
Qed.
Lemma start_sides : forall c w1 w2 r l, (length w1 <= 2)%nat -> (length w2 <= 2)%nat ->
  hd_error (w1 ++ [c]) <> Some (# "X") -> hd_error (w2 ++ [c]) <> Some (# "X") -> exists o1 o2 s,
  full l ((w1 ++ [c]) ++ r) = o1 ++ s /\ full l ((w2 ++ [c]) ++ r) = o2 ++ s /\ (length o1 <= 5)%nat /\ (length o2 <= 5)%nat.
Proof.
  intros c w1 w2 r l L1 L2 X1 X2.
  assert (B : forall w, (length w <= 2)%nat -> hd_error (w ++ [c]) <> Some (# "X") -> (length (body true l None 0 (w ++ [c]) r) <= 4)%nat).
  { intros w L X. apply few; [rewrite app_length; cbn; lia|exact X]. }
  pose proof (B w1 L1 X1) as B1. pose proof (B w2 L2 X2) as B2. clear B.
  unfold full. rewrite (readf_body (w1 ++ [c])), (readf_body (w2 ++ [c])), !after_snoc.
  replace (true && none (w1 ++ [c])) with false by (now destruct w1). replace (true && none (w2 ++ [c])) with false by (now destruct w2).
  pose proof (fits_body (w1 ++ [c]) true l None 0 r (or_introl eq_refl)) as F1. pose proof (fits_body (w2 ++ [c]) true l None 0 r (or_introl eq_refl)) as F2.
  (* the side whose D is silent *)
  assert (Silent : forall w y t, (length w <= 2)%nat -> hd_error (w ++ [c]) <> Some (# "X") -> r = 71 :: y :: t -> In y $ "EIY" -> c = # "D" ->
     body_skip true l None 0 (w ++ [c]) r = 0%nat -> exists o, body true l None 0 (w ++ [c]) r ++ readf false l (Some c) 0 r = o ++ readf false l (Some y) 0 t /\ (length o <= 5)%nat).
  { intros w y t L X -> Hy -> Z. rewrite (proj2 (body_app w [68] _ true l None 0)) in Z. rewrite (proj1 (body_app w [68] _ true l None 0)).
    set (k := body_skip true l None 0 w ([68] ++ 71 :: y :: t)) in *. set (p := after_body None w) in *. set (f := true && none w) in *.
    assert (S0 : body f l p k [68] (71 :: y :: t) = []).
    { cbn [body body_skip app] in *. destruct k; [|reflexivity]. destruct (again p 68); [reflexivity|]. exfalso.
      unfold syms in Z. cbn [hd_error tl] in Z. cbn in Hy. repeat (destruct Hy as [<-|Hy]; [discriminate Z|]). destruct Hy. }
    rewrite S0, app_nil_r. set (bw := body true l None 0 w ([68] ++ 71 :: y :: t)).
    assert (Lw : (length bw <= 3)%nat).
    { destruct w as [|w1' w']; [cbn; lia|]. apply few; [lia|]. cbn [app hd_error] in X |- *. exact X. }
    cbn [readf]. change (again (Some 68) 71) with false. cbv iota.
    assert (Z0 : snd (syms false l (Some 68) 71 (y :: t)) = 0%nat) by (apply sym_no_skip; discriminate).
    cbn in Hy. rewrite Z0. cbv iota.
    replace (again (Some 71) y) with false by (repeat (destruct Hy as [<-|Hy]; [reflexivity|]); destruct Hy).
    assert (Z9 : snd (syms false l (Some 71) y t) = 0%nat).
    { apply sym_no_skip. repeat (destruct Hy as [<-|Hy]; [discriminate|]). destruct Hy. }
    rewrite Z9, !app_assoc. eexists. split; [reflexivity|]. rewrite !app_length.
    assert (Z1 : (length (fst (syms false l (Some (# "D")) (# "G") (y :: t))) <= 1)%nat) by (apply sym_size; discriminate).
    assert (Z2 : (length (fst (syms false l (Some (# "G")) y t)) <= 1)%nat).
    { apply sym_size. repeat (destruct Hy as [<-|Hy]; [discriminate|]). destruct Hy. }
    lia. }
  assert (Two : forall w, (length w <= 2)%nat -> body_skip true l None 0 (w ++ [c]) r = 2%nat -> c = # "D").
  { intros w L H. destruct (skip_two (w ++ [c]) r true l None 0 ltac:(lia) ltac:(destruct w; discriminate) H) as [w' W]. now apply app_inj_tail in W as [_ ->]. }
  (* one side passes over, or not, the letter after *)
  assert (One : forall b b' y t, r = y :: t -> In y $ "EIY" -> (length b <= 4)%nat -> (length b' <= 4)%nat -> exists o o' s,
     b ++ readf false l (Some c) 0 r = o ++ s /\ b' ++ readf false l (Some c) 1 r = o' ++ s /\ (length o <= 5)%nat /\ (length o' <= 5)%nat).
  { intros b b' y t -> Hy Lb Lb'. cbn in Hy.
    assert (Q : exists o, readf false l (Some c) 0 (y :: t) = o ++ readf false l (Some y) 0 t /\ (length o <= 1)%nat).
    { cbn [readf]. destruct (again (Some c) y); [exists []; split; [reflexivity|cbn; lia]|]. eexists. split.
      - f_equal. f_equal. apply sym_no_skip. repeat (destruct Hy as [<-|Hy]; [discriminate|]). destruct Hy.
      - apply sym_size. repeat (destruct Hy as [<-|Hy]; [discriminate|]). destruct Hy. }
    destruct Q as (o & -> & Lo). exists (b ++ o), b', (readf false l (Some y) 0 t). rewrite app_length, <- app_assoc. repeat split; lia. }
  destruct (body_skip true l None 0 (w1 ++ [c]) r) as [|[|[|k1]]] eqn:K1; destruct (body_skip true l None 0 (w2 ++ [c]) r) as [|[|[|k2]]] eqn:K2;
    try (apply fits_le in F1; lia); try (apply fits_le in F2; lia).
  - do 3 eexists. split; [reflexivity|]. split; [reflexivity|]. lia.
  - destruct F2 as [H|[(_ & y & t & E & Hy)|(H & _)]]; [discriminate H| |discriminate H]. exact (One _ _ y t E Hy B1 B2).
  - destruct F2 as [H|[(H & _)|(_ & y & t & E & Hy)]]; [discriminate H|discriminate H|].
    destruct (Silent w1 y t L1 X1 E Hy (Two w2 L2 K2) K1) as (o & Eo & Lo). rewrite Eo. exists o, (body true l None 0 (w2 ++ [c]) r), (readf false l (Some y) 0 t).
    rewrite E at 2. split; [reflexivity|]. split; [reflexivity|]. lia.
  - destruct F1 as [H|[(_ & y & t & E & Hy)|(H & _)]]; [discriminate H| |discriminate H].
    destruct (One _ _ y t E Hy B2 B1) as (o & o' & s & E1 & E2 & Q1 & Q2). exists o', o, s. now repeat split.
  - do 3 eexists. split; [reflexivity|]. split; [reflexivity|]. lia.
  - exfalso. destruct F1 as [H|[(_ & y & t & E & Hy)|(H & _)]]; [discriminate H| |discriminate H].
    destruct F2 as [H|[(H & _)|(_ & z & t' & E' & Hz)]]; [discriminate H|discriminate H|]. rewrite E in E'. injection E' as -> _.
    cbn in Hy. repeat (destruct Hy as [Hy|Hy]; [discriminate Hy|]). destruct Hy.
  - destruct F1 as [H|[(H & _)|(_ & y & t & E & Hy)]]; [discriminate H|discriminate H|].
    destruct (Silent w2 y t L2 X2 E Hy (Two w1 L1 K1) K2) as (o & Eo & Lo). rewrite Eo. exists (body true l None 0 (w1 ++ [c]) r), o, (readf false l (Some y) 0 t).
    rewrite E at 2. split; [reflexivity|]. split; [reflexivity|]. lia.
  - exfalso. destruct F2 as [H|[(_ & y & t & E & Hy)|(H & _)]]; [discriminate H| |discriminate H].
    destruct F1 as [H|[(H & _)|(_ & z & t' & E' & Hz)]]; [discriminate H|discriminate H|]. rewrite E in E'. injection E' as -> _.
    cbn in Hy. repeat (destruct Hy as [Hy|Hy]; [discriminate Hy|]). destruct Hy.
  - do 3 eexists. split; [reflexivity|]. split; [reflexivity|]. lia.
Qed.

(** ** The number of letters, and the beginning *)
Lemma long_matters : forall t, (exists v r, t = # "C" :: # "H" :: v :: r /\ isin v Vowel = true) \/ forall l l', full l t = full l' t.
Proof.
  intros [|c r]; [now right|]. unfold full. cbn [readf]. change (again None c) with false. cbv iota.
  destruct (N.eq_dec c (# "C")) as [->|Nc].
  - destruct r as [|h [|v r]].
    + right. intros l l'. unfold syms. cbn [hd_error tl].
      rewrite (sym_long true l l'); [f_equal; apply readf_long|]. intros (_ & _ & _ & K). discriminate K.
    + right. intros l l'. unfold syms. cbn [hd_error tl].
      rewrite (sym_long true l l'); [f_equal; apply readf_long|]. intros (_ & _ & _ & K). discriminate K.
    + destruct (N.eq_dec h (# "H")) as [->|Nh].
      * destruct (isin v Vowel) eqn:V; [left; now exists v, r|]. right. intros l l'. unfold syms. cbn [hd_error tl].
        rewrite (sym_long true l l'); [f_equal; apply readf_long|]. intros (_ & _ & _ & K). cbn [isin_opt] in K. congruence.
      * right. intros l l'. unfold syms. cbn [hd_error tl].
        rewrite (sym_long true l l'); [f_equal; apply readf_long|]. intros (_ & _ & K & _). congruence.
  - right. intros l l'. unfold syms. rewrite (sym_long true l l'); [f_equal; apply readf_long|]. intros (K & _). congruence.
Qed.
Lemma full_CH : forall l v r, isin v Vowel = true -> exists o, full l (# "C" :: # "H" :: v :: r) = o ++ readf false l (Some v) 0 r /\ (length o <= 1)%nat.
Proof.
  intros l v r V. unfold full. cbn [readf]. change (again None 67) with false. cbv iota.
  assert (Z : snd (syms true l None 67 (72 :: v :: r)) = 0%nat) by (apply sym_no_skip; discriminate). rewrite Z. cbv iota.
  change (again (Some 67) 72) with false. cbv iota. change (syms false l (Some 67) 72 (v :: r)) with (@nil N, 0%nat). cbn [fst snd app].
  apply isin_In in V. assert (A : again (Some 72) v = false).
  { cbn in V. repeat (destruct V as [<-|V]; [reflexivity|]). destruct V. }
  rewrite A. assert (Y : syms false l (Some 72) v r = ([], 0%nat)).
  { cbn in V. repeat (destruct V as [<-|V]; [reflexivity|]). destruct V. }
  rewrite Y. cbn [fst snd app]. eexists. split; [reflexivity|]. apply sym_size. discriminate.
Qed.
Lemma full_size : forall l t, hd_error t <> Some (# "X") -> (2 * length (full l t) <= 3 * length t)%nat.
Proof.
  intros l t H. unfold full. pose proof (readf_size t true l None 0). destruct (hd_error t) as [c|]; cbn [opt_is andb] in *; [|lia].
  destruct (c =? 88) eqn:E; cbn [andb] in *; [|lia]. apply N.eqb_eq in E. congruence.
Qed.
Definition coded (t : ustr) : ustr := full (Nat.leb 4 (length t)) t.
Lemma coded_stretch1 : forall t1 t2, (forall l, mistakes any_character 5 (full l t1) (full l t2)) ->
  (length t1 <= length t2 + 2)%nat -> hd_error t1 <> Some (# "X") -> hd_error t2 <> Some (# "X") -> (4 <= length t1)%nat -> (length t2 <= 3)%nat ->
  mistakes any_character 5 (coded t1) (coded t2) /\ mistakes any_character 5 (coded t2) (coded t1) \/ (forall l, coded t1 = full l t1).
Proof.
  intros t1 t2 H L X1 X2 G1 G2. destruct (long_matters t1) as [(v & r & -> & V)|E]; [left|right; intros l; apply E].
  unfold coded. destruct (full_CH (Nat.leb 4 (length (67 :: 72 :: v :: r))) v r V) as (o & -> & Lo).
  set (l1 := Nat.leb 4 _). pose proof (readf_size r false l1 (Some v) 0) as R.
  assert (R2 : (length (o ++ readf false l1 (Some v) 0 r) <= 5)%nat).
  { rewrite app_length. cbn [length] in *. destruct (opt_is (hd_error r) 88 && negb (opt_is (Some v) 88)); lia. }
  pose proof (full_size (Nat.leb 4 (length t2)) t2 X2) as F.
  assert (F2 : (length (full (Nat.leb 4 (length t2)) t2) <= 5)%nat) by lia.
  split.
  - pose proof (stretch _ _ 5 [] [] R2 F2) as K. cbn [app] in K. now rewrite !app_nil_r in K.
  - pose proof (stretch _ _ 5 [] [] F2 R2) as K. cbn [app] in K. now rewrite !app_nil_r in K.
Qed.
Lemma coded_stretch : forall t1 t2, (forall l, mistakes any_character 5 (full l t1) (full l t2)) ->
  (forall l, mistakes any_character 5 (full l t2) (full l t1)) ->
  (length t1 <= length t2 + 2)%nat -> (length t2 <= length t1 + 2)%nat -> hd_error t1 <> Some (# "X") -> hd_error t2 <> Some (# "X") ->
  mistakes any_character 5 (coded t1) (coded t2).
Proof.
  intros t1 t2 H1 H2 L1 L2 X1 X2. destruct (Nat.leb 4 (length t1)) eqn:E1; destruct (Nat.leb 4 (length t2)) eqn:E2.
  - unfold coded. rewrite E1, E2. apply H1.
  - apply Nat.leb_le in E1. assert (E3 : (length t2 <= 3)%nat) by (apply Nat.leb_gt in E2; lia).
    destruct (coded_stretch1 t1 t2 H1 L1 X1 X2 E1 E3) as [[K _]|K]; [exact K|]. rewrite (K (Nat.leb 4 (length t2))). apply H1.
  - apply Nat.leb_le in E2. assert (E3 : (length t1 <= 3)%nat) by (apply Nat.leb_gt in E1; lia).
    destruct (coded_stretch1 t2 t1 H2 L2 X2 X1 E2 E3) as [[_ K]|K]; [exact K|]. rewrite (K (Nat.leb 4 (length t1))). apply H1.
  - unfold coded. rewrite E1, E2. apply H1.
Qed.

Ltac local_cases := unfold mt_local; repeat match goal with |- context[if ?q then _ else _] =>
    match q with context[if _ then _ else _] => fail 1 | _ => let E := fresh "Q" in destruct q eqn:E end end.
Lemma local_more : forall v r, (2 <= length v)%nat -> mt_local (v ++ r) = mt_local v ++ r.
Proof.
  intros [|c [|d v]] r H; [cbn in H; lia|cbn in H; lia|]. cbn [app]. unfold mt_local. cbn [hd_error tl opt_is].
  repeat match goal with |- context[if ?q then _ else _] => destruct q end; reflexivity.
Qed.
Lemma local_size : forall v, (length (mt_local v) <= length v)%nat /\ (length v <= length (mt_local v) + 1)%nat.
Proof.
  intros [|c v]; [cbn; lia|]. local_cases; try (cbn [length]; lia); destruct v as [|d v]; try discriminate; cbn [tl length]; lia.
Qed.
Lemma local_X : forall v, hd_error (mt_local v) <> Some (# "X").
Proof.
  intros [|c v]; [discriminate|]. local_cases; try discriminate;
  try (destruct v as [|d v]; [discriminate|]; cbn [hd_error opt_is] in *;
       match goal with Q : (?d =? _) = true |- Some ?d <> _ => apply N.eqb_eq in Q; subst d; discriminate end).
  all: cbn [hd_error]; intros K; injection K as ->; discriminate.
Qed.
Definition word_code (w : ustr) : ustr := if Nat.eqb (length w) 1 then w else coded (mt_local w).
Lemma metaphone_word : forall u s code, ascii_str s -> metaphone_encode u None s = Ok code -> code = word_code (map ascii_up s).
Proof.
  intros u s code A H. apply C68_metaphone_is_its_definition in H; [|exact A]. unfold word_code.
  destruct H as [[L ->]|[L (t & f & St & R & ->)]]; [now rewrite L|].
  replace (Nat.eqb (length (map ascii_up s)) 1) with false by (symmetry; now apply Nat.eqb_neq).
  apply start_rewritten_iff in St. rewrite <- mt_local_rw in St. subst t. cbn [cut]. apply reads_readf in R. exact R.
Qed.
Lemma word_size : forall w, (2 * length (word_code w) <= 3 * length w)%nat.
Proof.
  intros w. unfold word_code. destruct (Nat.eqb_spec (length w) 1) as [E|E]; [lia|]. unfold coded.
  pose proof (full_size (Nat.leb 4 (length (mt_local w))) (mt_local w) (local_X w)). pose proof (local_size w). lia.
Qed.
(** Without X, at most one letter for each. *)
Lemma plain_size : forall a f l p k q, ~ In (# "X") a -> (length (body f l p k a q) <= length a)%nat.
Proof.
  induction a as [|c a IH]; intros f l p k q H; [cbn; lia|]. cbn [body].
  assert (R : forall k, (length (body false l (Some c) k a q) <= length a)%nat) by (intros; apply IH; intros K; apply H; now right).
  cbn [length]. destruct k as [|k]; [|specialize (R k); lia]. destruct (again p c); [specialize (R 0%nat); lia|].
  rewrite app_length. specialize (R (snd (syms f l p c (a ++ q)))).
  assert (K : (length (fst (syms f l p c (a ++ q))) <= 1)%nat) by (apply sym_size; intros ->; apply H; now left). lia.
Qed.
(** The last letter of a beginning stays, unless it is WH. *)
Lemma last_kept : forall w c, (1 <= length w <= 2)%nat -> w ++ [c] = $ "WH" \/ exists w', mt_local (w ++ [c]) = w' ++ [c] /\ (length w' <= 2)%nat.
Proof.
  intros [|x [|y [|z w]]] c L; cbn [length] in L; try lia; cbn [app].
  - destruct (N.eq_dec x (# "W")) as [->|Nx].
    + destruct (N.eq_dec c (# "H")) as [->|Nc]; [now left|right]. unfold mt_local. cbn [hd_error tl opt_is].
      apply N.eqb_neq in Nc. rewrite Nc. change (isin 87 $ "KGP") with false. change (87 =? 65) with false. change (87 =? 87) with true. cbv iota.
      destruct (c =? 82); [exists []|exists [87]]; (split; [reflexivity|cbn; lia]).
    + right. unfold mt_local. cbn [hd_error tl opt_is]. apply N.eqb_neq in Nx. rewrite Nx.
      repeat match goal with |- context[if ?q then _ else _] => destruct q end; first [exists []; split; [reflexivity|cbn; lia]|eexists [_]; split; [reflexivity|cbn; lia]].
  - right. unfold mt_local. cbn [hd_error tl opt_is].
    repeat match goal with |- context[if ?q then _ else _] => destruct q end; first [eexists [_]; split; [reflexivity|cbn; lia]|eexists [_; _]; split; [reflexivity|cbn; lia]].
Qed.
Lemma WH_first : forall y, ~ In (# "X") (mt_local [y; # "W"; # "H"]).
Proof.
  intros y. unfold mt_local. cbn [hd_error tl opt_is]. change (87 =? 78) with false. change (87 =? 69) with false. change (87 =? 82) with false. change (87 =? 72) with false. cbv iota.
  destruct (isin y $ "KGP") eqn:E1; [|destruct (y =? 65) eqn:E2; [|destruct (y =? 87) eqn:E3; [|destruct (y =? 88) eqn:E4]]]; intros [H|[H|[H|H]]]; try discriminate H; try contradiction; subst y; discriminate.
Qed.
Lemma WH_between : forall y r l, (length (body true l None 0%nat (mt_local [# "W"; y; # "H"]) r) <= 3)%nat.
Proof.
  intros y r l. destruct (N.eq_dec y (# "X")) as [->|N1].
  - unfold mt_local. cbn. destruct (isin_opt _ Vowel) eqn:Q; cbn; lia.
  - assert (P : ~ In (# "X") (mt_local [# "W"; y; # "H"]) /\ (length (mt_local [# "W"; y; # "H"]) <= 3)%nat).
    { pose proof (local_size [# "W"; y; # "H"]) as [Z _]. split; [|exact Z]. unfold mt_local. cbn [hd_error tl opt_is]. change (isin 87 $ "KGP") with false. change (87 =? 65) with false. change (87 =? 87) with true. cbv iota.
      destruct (y =? 82); [|destruct (y =? 72)]; cbn [In]; intros K; repeat (destruct K as [K|K]; [first [discriminate K|congruence]|]); exact K. }
    pose proof (plain_size (mt_local [# "W"; y; # "H"]) true l None 0%nat r (proj1 P)). lia.
Qed.
(** Two beginnings, and what they share. *)
Lemma start_meet : forall t1 t2 r l, t1 <> [] -> t2 <> [] -> (length (body true l None 0%nat t1 r) <= 3)%nat -> (length (body true l None 0%nat t2 r) <= 3)%nat ->
  mistakes any_character 5 (full l (t1 ++ r)) (full l (t2 ++ r)).
Proof.
  intros t1 t2 r l N1 N2 B1 B2. unfold full. rewrite (readf_body t1), (readf_body t2).
  pose proof (fits_body t1 true l None 0 r (or_introl eq_refl)) as F1. pose proof (fits_body t2 true l None 0 r (or_introl eq_refl)) as F2.
  destruct (readf_meet r (true && none t1) (true && none t2) l (after_body None t1) (after_body None t2) _ _ F1 F2) as (o1 & o2 & s & -> & -> & M1 & M2).
  rewrite !app_assoc. apply (stretch _ _ 5 [] s); rewrite app_length; lia.
Qed.
Lemma word_start : forall w1 w2 c r l, (1 <= length w1 <= 2)%nat -> (1 <= length w2 <= 2)%nat ->
  (w1 ++ [c] = $ "WH" -> (length (body true l None 0%nat (mt_local (w2 ++ [c])) r) <= 3)%nat) ->
  (w2 ++ [c] = $ "WH" -> (length (body true l None 0%nat (mt_local (w1 ++ [c])) r) <= 3)%nat) ->
  mistakes any_character 5 (full l (mt_local ((w1 ++ [c]) ++ r))) (full l (mt_local ((w2 ++ [c]) ++ r))).
Proof.
  intros w1 w2 c r l L1 L2 H1 H2. rewrite (local_more (w1 ++ [c]) r), (local_more (w2 ++ [c]) r) by (rewrite app_length; cbn [length]; lia).
  assert (NE : forall w, (1 <= length w <= 2)%nat -> mt_local (w ++ [c]) <> []).
  { intros w L E. pose proof (local_size (w ++ [c])) as [_ Z]. rewrite E, app_length in Z. cbn in Z. lia. }
  assert (B : forall w, w ++ [c] = $ "WH" -> (length (body true l None 0%nat (mt_local (w ++ [c])) r) <= 3)%nat).
  { intros w ->. change (mt_local $ "WH") with [# "W"]. pose proof (plain_size [# "W"] true l None 0%nat r ltac:(cbn; intros [K|K]; [discriminate K|exact K])) as Z. cbn [length] in Z. lia. }
  destruct (last_kept w1 c L1) as [E1|(v1 & E1 & V1)]; [apply start_meet; auto|].
  destruct (last_kept w2 c L2) as [E2|(v2 & E2 & V2)]; [apply start_meet; auto|].
  pose proof (local_X (w1 ++ [c])) as X1. pose proof (local_X (w2 ++ [c])) as X2. rewrite E1, E2 in *.
  destruct (start_sides c v1 v2 r l V1 V2 X1 X2) as (o1 & o2 & s & -> & -> & M1 & M2). now apply (stretch _ _ 5 [] s).
Qed.
Lemma word_stretch : forall a x y b, (length x <= 1)%nat -> (length y <= 1)%nat ->
  mistakes any_character 5 (word_code (a ++ x ++ b)) (word_code (a ++ y ++ b)).
Proof.
  intros a x y b Lx Ly. destruct (Nat.ltb (length a + length b) 2) eqn:Small.
  { apply Nat.ltb_lt in Small. pose proof (word_size (a ++ x ++ b)) as W1. pose proof (word_size (a ++ y ++ b)) as W2.
    rewrite !app_length in W1, W2. pose proof (stretch (word_code (a ++ x ++ b)) (word_code (a ++ y ++ b)) 5 [] [] ltac:(lia) ltac:(lia)) as K.
    cbn [app] in K. now rewrite !app_nil_r in K. }
  apply Nat.ltb_ge in Small. unfold word_code.
  replace (Nat.eqb (length (a ++ x ++ b)) 1) with false by (symmetry; apply Nat.eqb_neq; rewrite !app_length; lia).
  replace (Nat.eqb (length (a ++ y ++ b)) 1) with false by (symmetry; apply Nat.eqb_neq; rewrite !app_length; lia).
  assert (Both : forall x y l, (length x <= 1)%nat -> (length y <= 1)%nat -> mistakes any_character 5 (full l (mt_local (a ++ x ++ b))) (full l (mt_local (a ++ y ++ b)))).
  { clear x y Lx Ly. intros x y l Lx Ly. destruct a as [|a1 [|a2 a]].
    - destruct b as [|b1 [|b2 b]]; [cbn in Small; lia|cbn in Small; lia|]. cbn [app].
      change (b1 :: b2 :: b) with ([b1; b2] ++ b). rewrite (app_assoc x), (app_assoc y).
      change [b1; b2] with ([b1] ++ [b2]). rewrite (app_assoc x), (app_assoc y).
      assert (Z : forall v w : ustr, (length v <= 1)%nat -> (length w <= 1)%nat -> (v ++ [b1]) ++ [b2] = $ "WH" -> (length (body true l None 0%nat (mt_local ((w ++ [b1]) ++ [b2])) b) <= 3)%nat).
      { intros v w Lv Lw E. destruct v as [|v1 [|v2 v]]; [|discriminate E|cbn in Lv; lia]. injection E as -> ->.
        destruct w as [|w1 [|w2 w]]; [| |cbn in Lw; lia]; cbn [app].
        - pose proof (plain_size [# "W"] true l None 0%nat b ltac:(cbn; intros [K|K]; [discriminate K|exact K])) as Z. cbn [length] in Z.
          change (mt_local [87; 72]) with [# "W"]. lia.
        - pose proof (plain_size _ true l None 0%nat b (WH_first w1)) as Z. pose proof (local_size [w1; # "W"; # "H"]) as [Z2 _]. cbn [length] in Z2. lia. }
      apply word_start; rewrite ?app_length; cbn [length]; try lia; now apply Z.
    - destruct b as [|b1 b]; [cbn in Small; lia|]. cbn [app].
      change (a1 :: x ++ b1 :: b) with ((a1 :: x) ++ [b1] ++ b). change (a1 :: y ++ b1 :: b) with ((a1 :: y) ++ [b1] ++ b).
      rewrite (app_assoc (a1 :: x)), (app_assoc (a1 :: y)).
      assert (Z : forall v w : ustr, (length v <= 1)%nat -> (length w <= 1)%nat -> (a1 :: v) ++ [b1] = $ "WH" -> (length (body true l None 0%nat (mt_local ((a1 :: w) ++ [b1])) b) <= 3)%nat).
      { intros v w Lv Lw E. destruct v as [|v1 [|v2 v]]; [|discriminate E|cbn in Lv; lia]. injection E as -> ->.
        destruct w as [|w1 [|w2 w]]; [| |cbn in Lw; lia]; cbn [app].
        - pose proof (plain_size [# "W"] true l None 0%nat b ltac:(cbn; intros [K|K]; [discriminate K|exact K])) as Z. cbn [length] in Z.
          change (mt_local [87; 72]) with [# "W"]. lia.
        - apply (WH_between w1 b l). }
      apply word_start; cbn [length]; try lia; now apply Z.
    - rewrite !(local_more (a1 :: a2 :: a)) by (cbn; lia). apply inside_stretch; [|assumption|assumption].
      pose proof (local_size (a1 :: a2 :: a)) as [_ K]. destruct (mt_local (a1 :: a2 :: a)); [cbn in K; lia|discriminate]. }
  pose proof (local_size (a ++ x ++ b)) as S1. pose proof (local_size (a ++ y ++ b)) as S2. rewrite !app_length in S1, S2.
  apply coded_stretch; try apply local_X; try (intros; now apply Both); lia.
Qed.
Lemma metaphone_follows : forall u,
  follows (fun c => c < 128) (fun s p => ascii_str s /\ metaphone_encode u None s = Ok p) 5.
Proof.
  intros u. apply follows_each; [intros s p q [_ P] [_ Q]; rewrite P in Q; now injection Q|].
  intros s t p M [A P]. destruct (mistake_parts _ s t M) as (a & x & y & b & -> & -> & Lx & Ly & Ax & Ay).
  assert (A2 : ascii_str (a ++ y ++ b)).
  { intros c Hc. apply in_app_or in Hc as [Hc|Hc]; [apply A, in_or_app; now left|]. apply in_app_or in Hc as [Hc|Hc]; [now apply Ay|].
    apply A, in_or_app. right. apply in_or_app. now right. }
  destruct (C24_total_on_ascii u None _ A2) as [q Q]. exists q. split; [now split|].
  apply metaphone_word in P; [|exact A]. apply metaphone_word in Q; [|exact A2]. subst p q. rewrite !map_app.
  apply word_stretch; rewrite map_length; assumption.
Qed.
