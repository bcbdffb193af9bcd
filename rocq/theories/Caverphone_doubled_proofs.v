(** * Caverphone and doubled letters: proofs.  Through every pass, the text with the doubled letter is the
    other one with one character more, before a character known; in the end that one is gone. *)
From Verif Require Import Base UnicodeM Lib Helper Caverphone BaseLemmas Spec_common Spec_rewrite Spec_caverphone Spec_doubled
  UnicodeLemmas Soundex_proofs Cologne_proofs Caverphone_proofs Caverphone_spec_proofs Exchange_caverphone_proofs.
Local Open Scope N_scope.

Definition act (p : pass) : ustr -> ustr :=
  match p with
  | Starts p q => replace_start p q
  | Ends p q => fun t => replace_end t p q
  | All p q => replace p q
  | InitialVowel => first_vowel_to_A
  | Vowels => vowels_to_3
  | Runs l => fun t => replace_compact_all_to_uppercase t l
  end.
Lemma acts1 : map act caverphone1_rules = caverphone1_passes.
Proof. reflexivity. Qed.
Lemma acts2 : map act caverphone2_rules = caverphone2_passes.
Proof. reflexivity. Qed.

(** [s] is [t] with an [e] more, before an [h]. *)
Definition more (e h : N) (s t : ustr) : Prop := exists A B, s = A ++ e :: h :: B /\ t = A ++ h :: B.
Definition among (E : list (N * N)) (s t : ustr) : Prop := s = t \/ exists e h, In (e, h) E /\ more e h s t.

Definition single (c d x : N) : N := if x =? c then d else x.
Definition post_all (p q : ustr) (e h : N) : option (list (N * N)) :=
  if negb (isin e p) && negb (isin h p) then (match p with [] => None | _ => Some [(e, h)] end)
  else match p, q with
  | [c], [d] => Some [(single c d e, single c d h)]
  | [c], [] => if e =? c then Some [] else None
  | [_], _ => None
  | c :: p1, h' :: _ =>
      if (e =? c) && negb (isin c p1) then
        if h =? c then Some [(e, h); (e, h')]
        else if isin h p then None else Some [(e, h)]
      else if (e =? h) && (last p 0 =? e) && negb (isin e (removelast p)) && (last q 0 =? e) then Some [(e, h)] else None
  | _, _ => None
  end.
Definition post (p : pass) (e h : N) : option (list (N * N)) :=
  match p with
  | Starts p q => if isin e p || isin h p then None else Some [(e, h)]
  | Ends p q =>
      if negb (isin h p) then Some [(e, h)]
      else match p, q with
      | c :: p1, h' :: _ => if (h =? c) && (e =? c) && negb (isin c p1) then Some [(e, h); (e, h')] else None
      | _, _ => None
      end
  | All p q => post_all p q e h
  | InitialVowel | Vowels => if isin e $ "aeiou" || isin h $ "aeiou" then None else Some [(e, h)]
  | Runs l => if isin e l then if e =? h then Some [] else None else if isin h l then None else Some [(e, h)]
  end.
Fixpoint post_each (p : pass) (E : list (N * N)) : option (list (N * N)) :=
  match E with
  | [] => Some []
  | (e, h) :: E => match post p e h, post_each p E with Some a, Some b => Some (a ++ b) | _, _ => None end
  end.
Fixpoint post_run (ps : list pass) (E : list (N * N)) : option (list (N * N)) :=
  match ps with [] => Some E | p :: ps => match post_each p E with Some E' => post_run ps E' | None => None end end.

(** ** One pass *)
Lemma more_in : forall e h s t E, In (e, h) E -> more e h s t -> among E s t.
Proof. intros e h s t E I M. right. now exists e, h. Qed.
Lemma post_start : forall p q e h A B, isin e p || isin h p = false ->
  more e h (replace_start p q (A ++ e :: h :: B)) (replace_start p q (A ++ h :: B)).
Proof.
  intros p q e h A B H. apply orb_false_iff in H as [H1 H2]. rewrite isin_false in H1, H2.
  exists (replace_start p q A), B. now rewrite !replace_start_split by assumption.
Qed.
Lemma replace_end_at : forall p q A, replace_end (A ++ p) p q = A ++ q.
Proof.
  intros p q A. destruct (replace_end_iff p q (A ++ p)) as [(a & E & ->)|[Nb _]]; [|now elim (Nb A)]. apply app_inv_tail in E. now rewrite E.
Qed.
Lemma replace_end_skip : forall c p1 q A B, ~ In c p1 -> B <> p1 -> replace_end (A ++ c :: B) (c :: p1) q = A ++ c :: replace_end B (c :: p1) q.
Proof.
  intros c p1 q A B H D. destruct (replace_end_iff (c :: p1) q (A ++ c :: B)) as [(a & E & ->)|[Nb ->]].
  - assert (K : exists b, B = b ++ c :: p1 /\ a = A ++ c :: b).
    { clear - E H D. revert a E. induction A as [|x A IH]; intros a E; cbn [app] in E.
      - destruct a as [|y a]; cbn [app] in E; injection E; intros; [subst; congruence|]. exists a. subst. now split.
      - destruct a as [|y a]; cbn [app] in E; injection E as E1 E2.
        + exfalso. apply H. rewrite <- E2. apply in_or_app. right. now left.
        + destruct (IH a E2) as (b & -> & ->). exists b. subst. now split. }
    destruct K as (b & -> & ->). rewrite replace_end_at, <- app_assoc. reflexivity.
  - destruct (replace_end_iff (c :: p1) q B) as [(b & -> & _)|[_ ->]]; [|reflexivity]. elim (Nb (A ++ c :: b)). now rewrite <- app_assoc.
Qed.
Lemma post_ends : forall p q e h E A B, post (Ends p q) e h = Some E -> among E (replace_end (A ++ e :: h :: B) p q) (replace_end (A ++ h :: B) p q).
Proof.
  intros p q e h E A B H. cbn [post] in H. destruct (isin h p) eqn:Ih; cbn [negb] in H.
  - destruct p as [|c p1]; [discriminate H|]. destruct q as [|h' q]; [discriminate H|].
    destruct ((h =? c) && (e =? c) && negb (isin c p1)) eqn:C; [|discriminate H]. apply andb_true_iff in C as [C C3]. apply andb_true_iff in C as [C1 C2].
    apply N.eqb_eq in C1, C2. apply negb_true_iff, isin_false in C3. subst h e. injection H as <-.
    replace (A ++ c :: c :: B) with ((A ++ [c]) ++ c :: B) by now rewrite <- app_assoc.
    destruct (list_eq_dec N.eq_dec B p1) as [->|D].
    + rewrite !replace_end_at. apply (more_in c h'); [right; now left|]. exists A, q. now rewrite <- app_assoc.
    + rewrite !replace_end_skip by assumption. apply (more_in c c); [now left|]. exists A, (replace_end B (c :: p1) (h' :: q)). now rewrite <- app_assoc.
  - injection H as <-. apply isin_false in Ih. replace (A ++ e :: h :: B) with ((A ++ [e]) ++ h :: B) by now rewrite <- app_assoc.
    rewrite !replace_end_split by assumption. apply (more_in e h); [now left|]. exists A, (replace_end B p q). now rewrite <- app_assoc.
Qed.
(** *** Everywhere *)
Lemma replace_first : forall c p1 q A X, ~ In c p1 -> replace (c :: p1) q (A ++ c :: X) = replace (c :: p1) q A ++ replace (c :: p1) q (c :: X).
Proof.
  intros c p1 q A X H. unfold replace.
  assert (G : forall A k, (k <= length A)%nat -> replace_aux (c :: p1) q k (A ++ c :: X) = replace_aux (c :: p1) q k A ++ replace_aux (c :: p1) q 0 (c :: X)).
  { clear A. induction A as [|x A IH]; intros k L; cbn [length] in L.
    - replace k with 0%nat by lia. reflexivity.
    - destruct k as [|k]; [|cbn [app]; apply IH; lia].
      assert (P : starts_with (x :: A ++ c :: X) (c :: p1) = starts_with (x :: A) (c :: p1)).
      { unfold starts_with. cbn [strip_prefix]. destruct (c =? x); [|reflexivity]. rewrite strip_prefix_short by exact H. now destruct (strip_prefix p1 A). }
      change (replace_aux (c :: p1) q 0 ((x :: A) ++ c :: X)) with (if starts_with (x :: A ++ c :: X) (c :: p1)
        then q ++ replace_aux (c :: p1) q (length (c :: p1) - 1) (A ++ c :: X) else x :: replace_aux (c :: p1) q 0 (A ++ c :: X)).
      change (replace_aux (c :: p1) q 0 (x :: A)) with (if starts_with (x :: A) (c :: p1)
        then q ++ replace_aux (c :: p1) q (length (c :: p1) - 1) A else x :: replace_aux (c :: p1) q 0 A).
      rewrite P. destruct (starts_with (x :: A) (c :: p1)) eqn:Q.
      + assert (Lq := starts_with_len _ _ Q). cbn [length] in Lq |- *. rewrite IH by lia. now rewrite <- app_assoc.
      + rewrite IH by lia. reflexivity. }
  apply G. lia.
Qed.
Lemma replace_cons : forall p q c X, replace p q (c :: X) = if starts_with (c :: X) p then q ++ replace_aux p q (length p - 1) X else c :: replace p q X.
Proof. reflexivity. Qed.
Lemma replace_here : forall c p1 q h X, h <> hd h p1 \/ p1 = [] -> p1 <> [] -> replace (c :: p1) q (c :: h :: X) = c :: replace (c :: p1) q (h :: X).
Proof.
  intros c p1 q h X H Np. rewrite replace_cons. replace (starts_with (c :: h :: X) (c :: p1)) with false; [reflexivity|].
  unfold starts_with. cbn [strip_prefix]. rewrite N.eqb_refl. destruct p1 as [|d p1]; [congruence|]. cbn [strip_prefix hd] in *.
  destruct (N.eqb_spec d h) as [->|]; [|reflexivity]. destruct H as [H|H]; congruence.
Qed.
(** A pattern that ends with the letter. *)
Lemma replace_last : forall c p0 q A, ~ In c p0 -> p0 <> [] -> forall k X, (k <= length A)%nat ->
  replace_aux (p0 ++ [c]) (q ++ [c]) k (A ++ c :: X) = replace_aux (p0 ++ [c]) (q ++ [c]) k (A ++ [c]) ++ replace (p0 ++ [c]) (q ++ [c]) X
  /\ exists l, replace_aux (p0 ++ [c]) (q ++ [c]) k (A ++ [c]) = l ++ [c].
Proof.
  intros c p0 q A H Np. set (p := p0 ++ [c]). set (q' := q ++ [c]).
  assert (Lp : length p = S (length p0)) by (unfold p; rewrite app_length; cbn; lia).
  assert (Hc : forall X, starts_with (c :: X) p = false).
  { intros X. unfold starts_with, p. destruct p0 as [|d p0]; [congruence|]. cbn [app strip_prefix].
    destruct (N.eqb_spec d c) as [->|]; [elim H; now left|reflexivity]. }
  assert (St : forall x A X, starts_with (x :: A ++ c :: X) p = starts_with (x :: A ++ [c]) p /\
    (starts_with (x :: A ++ [c]) p = true -> (length p0 <= S (length A))%nat)).
  { intros x A0 X. assert (G : forall p0 s, ~ In c p0 -> strip_prefix (p0 ++ [c]) (s ++ c :: X) = match strip_prefix (p0 ++ [c]) (s ++ [c]) with Some r => Some (r ++ X) | None => None end
      /\ (strip_prefix (p0 ++ [c]) (s ++ [c]) <> None -> (length p0 <= length s)%nat)).
    { clear. induction p0 as [|d p0 IH]; intros s H; cbn [app strip_prefix length].
      - destruct s as [|y s]; cbn [app].
        + rewrite N.eqb_refl. split; [reflexivity|lia].
        + destruct (c =? y); split; try lia; [|reflexivity]. now rewrite <- app_assoc.
      - destruct s as [|y s]; cbn [app].
        + destruct (N.eqb_spec d c) as [->|]; [elim H; now left|]. split; [reflexivity|congruence].
        + destruct (d =? y); [|split; [reflexivity|congruence]]. destruct (IH s) as [I1 I2]; [intros I; apply H; now right|].
          split; [exact I1|]. intros K. apply I2 in K. cbn [length]. lia. }
    destruct (G p0 (x :: A0) H) as [G1 G2]. unfold starts_with. cbn [app] in G1, G2. unfold p. rewrite G1. split.
    - now destruct (strip_prefix (p0 ++ [c]) (x :: A0 ++ [c])).
    - intros K. cbn [length] in G2. apply G2. intros Z. rewrite Z in K. discriminate K. }
  induction A as [|x A IH]; intros k X L; cbn [length] in L.
  - replace k with 0%nat by lia. cbn [app replace_aux]. rewrite !Hc. split; [reflexivity|now exists []].
  - destruct k as [|k]; [|cbn [app replace_aux]; apply IH; lia]. cbn [app replace_aux].
    destruct (St x A X) as [-> St2]. destruct (starts_with (x :: A ++ [c]) p) eqn:Q.
    + specialize (St2 eq_refl). destruct (Nat.eq_dec (length p - 1) (S (length A))) as [D|D].
      * rewrite D. assert (Sk : forall k s X, length s = k -> replace_aux p q' k (s ++ X) = replace_aux p q' 0 X).
        { clear. induction k as [|k IHk]; intros [|y s] X L; cbn in L; try lia; [reflexivity|]. cbn [app replace_aux]. apply IHk. lia. }
        replace (A ++ c :: X) with ((A ++ [c]) ++ X) by now rewrite <- app_assoc. rewrite (Sk _ (A ++ [c]) X) by (rewrite app_length; cbn; lia).
        replace (A ++ [c]) with ((A ++ [c]) ++ []) by now rewrite app_nil_r. rewrite (Sk _ (A ++ [c]) []) by (rewrite app_length; cbn; lia).
        cbn [replace_aux]. rewrite app_nil_r. split; [reflexivity|]. exists q. reflexivity.
      * destruct (IH (length p - 1)%nat X) as [-> (l & E)]; [lia|]. rewrite app_assoc. split; [reflexivity|]. exists (q' ++ l). rewrite E. now rewrite app_assoc.
    + destruct (IH 0%nat X) as [-> (l & E)]; [lia|]. split; [reflexivity|]. exists (x :: l). now rewrite E.
Qed.
Lemma last_split : forall (p : ustr) c, p <> [] -> last p 0 = c -> p = removelast p ++ [c].
Proof. intros p c Np <-. now apply app_removelast_last. Qed.
Lemma post_all_ok : forall p q e h E A B, post_all p q e h = Some E -> among E (replace p q (A ++ e :: h :: B)) (replace p q (A ++ h :: B)).
Proof.
  intros p q e h E A B H. unfold post_all in H. cbv zeta in H. destruct (negb (isin e p) && negb (isin h p)) eqn:Out.
  - apply andb_true_iff in Out as [O1 O2]. apply negb_true_iff, isin_false in O1, O2. assert (Np : p <> []) by (destruct p; congruence).
    assert (E = [(e, h)]) as -> by (destruct p; congruence). clear H. rewrite (replace_split p q e A (h :: B) O1 Np), (replace_split p q h A B O2 Np), (replace_split p q h [] B O2 Np : replace p q (h :: B) = h :: replace p q B).
    apply (more_in e h); [now left|]. now eexists _, _.
  - destruct p as [|c p1]; [discriminate H|]. destruct p1 as [|d p1].
    + destruct q as [|d [|]].
      * destruct (N.eqb_spec e c) as [->|]; [|discriminate H]. left.
        rewrite (replace_first c [] [] A (h :: B)) by (intros []). rewrite (replace_cons [c] [] c).
        assert (starts_with (c :: h :: B) [c] = true) as -> by (unfold starts_with; cbn [strip_prefix]; now rewrite N.eqb_refl). cbn [length Nat.sub app].
        fold (replace [c] [] (h :: B)). destruct (N.eqb_spec h c) as [->|Nh].
        -- now rewrite (replace_first c [] [] A B) by (intros []).
        -- rewrite (replace_split [c] [] h A B); [|intros [K|[]]; congruence|discriminate].
           assert (Eh : replace [c] [] ([] ++ h :: B) = h :: replace [c] [] B) by (apply (replace_split [c] [] h [] B); [intros [K|[]]; congruence|discriminate]).
           cbn [app] in Eh. now rewrite Eh.
      * injection H as <-. rewrite !replace1_map, !map_app. cbn [map].
        apply (more_in (single c d e) (single c d h)); [now left|]. now eexists _, _.
      * discriminate H.
    + destruct q as [|h' q]; [discriminate H|]. destruct ((e =? c) && negb (isin c (d :: p1))) eqn:C.
      * apply andb_true_iff in C as [C1 C2]. apply N.eqb_eq in C1. subst e. apply negb_true_iff, isin_false in C2.
        destruct (N.eqb_spec h c) as [->|Nh].
        -- injection H as <-. rewrite !replace_first by exact C2. rewrite (replace_here c (d :: p1) (h' :: q) c B); [|left; intros K; apply C2; left; now symmetry|discriminate].
           rewrite (replace_cons (c :: d :: p1) (h' :: q) c B). destruct (starts_with (c :: B) (c :: d :: p1)).
           ++ apply (more_in c h'); [right; now left|]. now eexists _, _.
           ++ apply (more_in c c); [now left|]. now eexists _, _.
        -- destruct (isin h (c :: d :: p1)) eqn:I; [discriminate H|]. injection H as <-. apply isin_false in I.
           rewrite replace_first by exact C2. rewrite (replace_here c (d :: p1) (h' :: q) h B); [|left; intros K; apply I; right; left; now symmetry|discriminate].
           rewrite (replace_split (c :: d :: p1) (h' :: q) h A B) by (assumption || discriminate).
           assert (Eh : replace (c :: d :: p1) (h' :: q) ([] ++ h :: B) = h :: replace (c :: d :: p1) (h' :: q) B) by (apply (replace_split (c :: d :: p1) (h' :: q) h [] B); [assumption|discriminate]).
           cbn [app] in Eh. rewrite Eh.
           apply (more_in c h); [now left|]. now eexists _, _.
      * destruct ((e =? h) && (last (c :: d :: p1) 0 =? e) && negb (isin e (removelast (c :: d :: p1))) && (last (h' :: q) 0 =? e)) eqn:D; [|discriminate H].
        injection H as <-. apply andb_true_iff in D as [D D4]. apply andb_true_iff in D as [D D3]. apply andb_true_iff in D as [D1 D2].
        apply N.eqb_eq in D1, D2, D4. apply negb_true_iff, isin_false in D3. subst h.
        assert (Ep := last_split (c :: d :: p1) e ltac:(discriminate) D2). assert (Eq := last_split (h' :: q) e ltac:(discriminate) D4).
        rewrite Ep, Eq. set (p0 := removelast (c :: d :: p1)) in *. set (q0 := removelast (h' :: q)) in *. assert (Np : p0 <> []) by (unfold p0; discriminate).
        unfold replace. destruct (replace_last e p0 q0 A D3 Np 0%nat (e :: B)) as [-> (l & El)]; [lia|].
        destruct (replace_last e p0 q0 A D3 Np 0%nat B) as [-> _]; [lia|]. rewrite El.
        destruct (replace_last e p0 q0 [] D3 Np 0%nat B) as [E2 _]; [cbn; lia|]. cbn [app] in E2. unfold replace at 1. rewrite E2.
        assert (E3 : replace_aux (p0 ++ [e]) (q0 ++ [e]) 0 [e] = [e]).
        { cbn [replace_aux]. replace (starts_with [e] (p0 ++ [e])) with false; [reflexivity|]. symmetry. unfold starts_with. destruct p0 as [|y p0']; [congruence|].
          cbn [app strip_prefix]. destruct (N.eqb_spec y e) as [->|]; [elim D3; now left|reflexivity]. }
        rewrite E3. apply (more_in e e); [now left|]. exists l, (replace (p0 ++ [e]) (q0 ++ [e]) B). now rewrite <- !app_assoc.
Qed.

(** *** The other passes *)
Lemma post_runs : forall l e h E A B, post (Runs l) e h = Some E ->
  among E (replace_compact_all_to_uppercase (A ++ e :: h :: B) l) (replace_compact_all_to_uppercase (A ++ h :: B) l).
Proof.
  intros l e h E A B H. cbn [post] in H. unfold replace_compact_all_to_uppercase. destruct (isin e l) eqn:Ie.
  - destruct (N.eqb_spec e h) as [->|]; [|discriminate H]. left. generalize (@None N). induction A as [|x A IH]; intros p; cbn [app].
    + cbn [compact_upper_aux]. rewrite Ie. destruct p as [r|]; [destruct (N.eqb_spec r h) as [->|]; cbn [negb]|]; rewrite ?N.eqb_refl; reflexivity.
    + cbn [compact_upper_aux]. destruct (isin x l); [destruct p as [r|]; [destruct (negb (r =? x))|]|]; now rewrite IH.
  - destruct (isin h l) eqn:Ih; [discriminate H|]. injection H as <-. apply (more_in e h); [now left|].
    assert (G : forall A p, exists A', forall c B, isin c l = false -> compact_upper_aux l p (A ++ c :: B) = A' ++ c :: compact_upper_aux l None B).
    { clear A. induction A as [|x A IH]; intros p.
      - exists []. intros c B' Hc. cbn [app compact_upper_aux]. now rewrite Hc.
      - cbn [app compact_upper_aux]. destruct (isin x l); [destruct p as [r|]; [destruct (negb (r =? x))|]|];
          match goal with |- context [compact_upper_aux l ?p (A ++ _)] => destruct (IH p) as [A' E'] end.
        + exists (ascii_up x :: A'). intros. now rewrite E'.
        + exists A'. intros. now rewrite E'.
        + exists (ascii_up x :: A'). intros. now rewrite E'.
        + exists (x :: A'). intros. now rewrite E'. }
    destruct (G A None) as [A' E']. exists A', (compact_upper_aux l None B). rewrite !E' by assumption. cbn [compact_upper_aux]. now rewrite Ih.
Qed.
Lemma vowel_false : forall c, isin c $ "aeiou" = false -> is_vowel (Some c) false = false.
Proof. intros c H. unfold is_vowel. rewrite H. reflexivity. Qed.
Lemma post_ok : forall p e h E, post p e h = Some E -> forall s t, more e h s t -> among E (act p s) (act p t).
Proof.
  intros p e h E H s t (A & B & -> & ->). destruct p as [p q|p q|p q| | |l]; cbn [act].
  - cbn [post] in H. destruct (isin e p || isin h p) eqn:K; [discriminate H|]. injection H as <-. apply (more_in e h); [now left|]. now apply post_start.
  - now apply post_ends.
  - now apply post_all_ok.
  - cbn [post] in H. destruct (isin e _ || isin h _) eqn:K; [discriminate H|]. injection H as <-. apply orb_false_iff in K as [K1 K2].
    apply vowel_false in K1, K2. apply (more_in e h); [now left|]. unfold first_vowel_to_A, replace_char.
    assert (G : forall s i, (0 < i)%nat -> replace_char_aux (fun i c => if Nat.eqb i 0 && is_vowel (Some c) false then # "A" else c) i s = s).
    { induction s as [|c s IH]; intros i L; [reflexivity|]. cbn [replace_char_aux]. destruct i as [|i]; [lia|]. cbn [Nat.eqb andb]. now rewrite IH by lia. }
    destruct A as [|c A]; cbn [app replace_char_aux]; rewrite !G by lia.
    + exists [], B. cbn [Nat.eqb andb app]. now rewrite K1, K2.
    + eexists (_ :: A), B. cbn [app]. split; reflexivity.
  - cbn [post] in H. destruct (isin e _ || isin h _) eqn:K; [discriminate H|]. injection H as <-. apply orb_false_iff in K as [K1 K2].
    apply vowel_false in K1, K2. apply (more_in e h); [now left|]. unfold vowels_to_3, replace_char.
    rewrite !(replace_char_const (fun c => if is_vowel (Some c) false then # "3" else c)), !map_app. cbn [map]. rewrite K1, K2. now eexists _, _.
  - now apply post_runs.
Qed.
Lemma among_app : forall E F s t, among E s t \/ among F s t -> among (E ++ F) s t.
Proof.
  intros E F s t [[->|(e & h & I & M)]|[->|(e & h & I & M)]]; try (now left); right; exists e, h; (split; [apply in_or_app; tauto|exact M]).
Qed.
Lemma post_each_ok : forall p E F, post_each p E = Some F -> forall s t, among E s t -> among F (act p s) (act p t).
Proof.
  intros p. induction E as [|[e h] E IH]; intros F H s t M; cbn [post_each] in H.
  - destruct M as [->|(e & h & [] & _)]. now left.
  - destruct (post p e h) as [a|] eqn:Ea; [|discriminate H]. destruct (post_each p E) as [b|] eqn:Eb; [|discriminate H]. injection H as <-.
    apply among_app. destruct M as [->|(e' & h' & [I|I] & M)]; [left; now left| |].
    + injection I as <- <-. left. exact (post_ok p e h a Ea s t M).
    + right. apply (IH b eq_refl). right. now exists e', h'.
Qed.
Theorem post_run_ok : forall ps E, post_run ps E = Some [] -> forall s t, among E s t -> run_passes (map act ps) s = run_passes (map act ps) t.
Proof.
  induction ps as [|p ps IH]; intros E H s t M; cbn [post_run map] in *.
  - injection H as ->. destruct M as [->|(e & h & [] & _)]. reflexivity.
  - destruct (post_each p E) as [F|] eqn:EF; [|discriminate H]. rewrite !run_cons. apply (IH F H). now apply (post_each_ok p E).
Qed.
Lemma caverphone_doubled : forall ps fs u c, map act ps = fs -> # "A" <= c <= # "Z" \/ # "a" <= c <= # "z" -> post_run ps [(ascii_low c, ascii_low c)] = Some [] ->
  forall a b, ascii_text (a ++ c :: b) ->
  run_passes fs (remove_all_non_letter u (str_lower u (a ++ c :: c :: b))) = run_passes fs (remove_all_non_letter u (str_lower u (a ++ c :: b))).
Proof.
  intros ps fs u c <- Hc P a b T. assert (T2 : ascii_str (a ++ c :: c :: b)).
  { intros x Hx. apply T. apply in_app_or in Hx as [Hx|[Hx|[Hx|Hx]]]; apply in_or_app; [now left|right; now left|right; now left|right; now right]. }
  rewrite !cleaned_ascii by assumption. rewrite !filter_app, !map_app. cbn [filter].
  assert (is_ascii_alpha c = true) as ->.
  { change (# "A") with 65 in Hc. change (# "Z") with 90 in Hc. change (# "a") with 97 in Hc. change (# "z") with 122 in Hc.
    unfold is_ascii_alpha, is_ascii_upper, is_ascii_lower. apply orb_true_iff. rewrite !andb_true_iff, !N.leb_le. lia. }
  cbn [map]. apply (post_run_ok ps _ P). apply (more_in (ascii_low c) (ascii_low c)); [now left|]. now eexists _, _.
Qed.
