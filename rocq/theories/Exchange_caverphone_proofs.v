(** * Letters that may be exchanged: Caverphone. *)
From Verif Require Import Base UnicodeM Lib Helper Caverphone BaseLemmas Spec_common Spec_doubled Spec_exchange
  UnicodeLemmas Soundex_proofs Cologne_proofs Caverphone_proofs Caverphone_spec_proofs.
Local Open Scope N_scope.

(** ** How the passes treat a letter they do not mention *)
Lemma strip_prefix_short : forall p c B A, ~ In c p ->
  strip_prefix p (A ++ c :: B) = match strip_prefix p A with Some r => Some (r ++ c :: B) | None => None end.
Proof.
  induction p as [|x p IH]; intros c B A H; [reflexivity|]. destruct A as [|y A]; cbn [app strip_prefix].
  - destruct (N.eqb_spec x c) as [->|]; [elim H; now left|reflexivity].
  - destruct (x =? y); [|reflexivity]. apply IH. intros I. apply H. now right.
Qed.
Lemma starts_with_short : forall p c B A, ~ In c p -> starts_with (A ++ c :: B) p = starts_with A p.
Proof. intros p c B A H. unfold starts_with. rewrite strip_prefix_short by exact H. now destruct (strip_prefix p A). Qed.
Lemma starts_with_len : forall p s, starts_with s p = true -> (length p <= length s)%nat.
Proof. intros p s H. apply starts_with_spec in H as [r ->]. rewrite app_length. lia. Qed.
Lemma replace_aux_split : forall p q c B, ~ In c p -> p <> [] -> forall A k, (k <= length A)%nat ->
  replace_aux p q k (A ++ c :: B) = replace_aux p q k A ++ c :: replace_aux p q 0 B.
Proof.
  intros p q c B H Np. assert (Sc : starts_with (c :: B) p = false).
  { change (c :: B) with ([] ++ c :: B). rewrite starts_with_short by exact H. destruct p; [congruence|reflexivity]. }
  induction A as [|x A IH]; intros k L; cbn [app length] in *.
  - replace k with 0%nat by lia. cbn [replace_aux]. now rewrite Sc.
  - destruct k as [|k]; cbn [replace_aux]; [|apply IH; lia].
    change (x :: A ++ c :: B) with ((x :: A) ++ c :: B). rewrite starts_with_short by exact H.
    destruct (starts_with (x :: A) p) eqn:S.
    + apply starts_with_len in S. cbn [length] in S. rewrite IH by lia. now rewrite <- app_assoc.
    + rewrite IH by lia. reflexivity.
Qed.
Lemma replace_split : forall p q c A B, ~ In c p -> p <> [] -> replace p q (A ++ c :: B) = replace p q A ++ c :: replace p q B.
Proof. intros p q c A B H Np. apply replace_aux_split; auto. lia. Qed.
Lemma replace_start_split : forall p q c A B, ~ In c p -> replace_start p q (A ++ c :: B) = replace_start p q A ++ c :: B.
Proof.
  intros p q c A B H. unfold replace_start. rewrite strip_prefix_short by exact H. destruct (strip_prefix p A); [now rewrite <- app_assoc|reflexivity].
Qed.
Lemma replace_end_iff : forall p q s, (exists a, s = a ++ p /\ replace_end s p q = a ++ q) \/ ((forall a, s <> a ++ p) /\ replace_end s p q = s).
Proof.
  intros p q s. unfold replace_end. destruct (ends_with s p) eqn:E.
  - apply ends_with_spec in E as [a E]. left. exists a. split; [exact E|]. rewrite E, app_length.
    replace (length a + length p - length p)%nat with (length a) by lia. now rewrite firstn_app, firstn_all, Nat.sub_diag, app_nil_r.
  - right. split; [|reflexivity]. intros a Ea. assert (ends_with s p = true) by (apply ends_with_spec; now exists a). congruence.
Qed.
Lemma app_suffix : forall (a p A B : ustr) c, a ++ p = A ++ c :: B -> ~ In c p -> exists b, B = b ++ p /\ a = A ++ c :: b.
Proof.
  induction a as [|x a IH]; intros p A B c E H; cbn [app] in E.
  - exfalso. apply H. rewrite E. apply in_or_app. right. now left.
  - destruct A as [|y A]; cbn [app] in *; injection E as -> E.
    + exists a. now split.
    + destruct (IH p A B c E H) as (b & -> & ->). exists b. now split.
Qed.
Lemma replace_end_split : forall p q c A B, ~ In c p -> replace_end (A ++ c :: B) p q = A ++ c :: replace_end B p q.
Proof.
  intros p q c A B H. destruct (replace_end_iff p q (A ++ c :: B)) as [(a & E & ->)|[Nb ->]].
  - symmetry in E. destruct (app_suffix _ _ _ _ _ E H) as (b & -> & ->). destruct (replace_end_iff p q (b ++ p)) as [(b' & E' & ->)|[Nb' _]].
    + apply app_inv_tail in E' as ->. now rewrite <- app_assoc.
    + now elim (Nb' b).
  - destruct (replace_end_iff p q B) as [(b & -> & _)|[_ ->]]; [|reflexivity]. elim (Nb (A ++ c :: b)). now rewrite <- app_assoc.
Qed.

(** Both letters are kept, and what stands around them is treated alike. *)
Definition keeps (c d : N) (f : ustr -> ustr) : Prop :=
  exists l r, forall A B, f (A ++ c :: B) = l A ++ c :: r B /\ f (A ++ d :: B) = l A ++ d :: r B.
Lemma keeps_all : forall c d p q, isin c p || isin d p || match p with [] => true | _ => false end = false -> keeps c d (replace p q).
Proof.
  intros c d p q H. rewrite !orb_false_iff, !isin_false in H. destruct H as [[H1 H2] H3].
  exists (replace p q), (replace p q). intros A B. assert (p <> []) by (destruct p; congruence). split; now apply replace_split.
Qed.
Lemma keeps_start : forall c d p q, isin c p || isin d p = false -> keeps c d (replace_start p q).
Proof.
  intros c d p q H. rewrite !orb_false_iff, !isin_false in H. destruct H as [H1 H2].
  exists (replace_start p q), (fun s => s). intros A B. split; now apply replace_start_split.
Qed.
Lemma keeps_end : forall c d p q, isin c p || isin d p = false -> keeps c d (fun t => replace_end t p q).
Proof.
  intros c d p q H. rewrite !orb_false_iff, !isin_false in H. destruct H as [H1 H2].
  exists (fun s => s), (fun s => replace_end s p q). intros A B. split; now apply replace_end_split.
Qed.
Ltac keep := repeat (apply Forall_cons; [first [apply keeps_all; reflexivity|apply keeps_start; reflexivity|apply keeps_end; reflexivity]|]); apply Forall_nil.
Lemma keeps_run : forall c d fs, Forall (keeps c d) fs -> exists l r, forall A B,
  run_passes fs (A ++ c :: B) = l A ++ c :: r B /\ run_passes fs (A ++ d :: B) = l A ++ d :: r B.
Proof.
  intros c d fs F. induction F as [|f fs (l & r & K) _ (l' & r' & IH)].
  - exists (fun s => s), (fun s => s). intros A B. now split.
  - exists (fun s => l' (l s)), (fun s => r' (r s)). intros A B. destruct (K A B) as [K1 K2]. destruct (IH (l A) (r B)) as [I1 I2].
    unfold run_passes in *. cbn [fold_left]. now rewrite K1, K2.
Qed.
Lemma run_app : forall f g s, run_passes (f ++ g) s = run_passes g (run_passes f s).
Proof. intros f g s. unfold run_passes. apply fold_left_app. Qed.
Lemma run_cons : forall f fs s, run_passes (f :: fs) s = run_passes fs (f s).
Proof. reflexivity. Qed.
Lemma merged : forall c d A B, c <> d -> replace [d] [c] (A ++ c :: B) = replace [d] [c] (A ++ d :: B).
Proof.
  intros c d A B H. rewrite !replace1_map, !map_app. cbn [map]. rewrite N.eqb_refl. apply N.eqb_neq in H. now rewrite H.
Qed.
Lemma exchange_simple : forall c d n fs, c <> d -> Forall (keeps c d) (firstn n fs) ->
  nth_error fs n = Some (replace [d] [c]) -> forall A B, run_passes fs (A ++ c :: B) = run_passes fs (A ++ d :: B).
Proof.
  intros c d n fs H F E A B. apply nth_error_split in E as (f1 & f2 & -> & <-).
  rewrite firstn_app, firstn_all, Nat.sub_diag, app_nil_r in F. rewrite !run_app.
  destruct (keeps_run c d f1 F) as (l & r & K). destruct (K A B) as [-> ->]. rewrite !run_cons.
  now rewrite (merged c d _ _ H).
Qed.
Lemma exchange1_kx : forall A B, run_passes caverphone1_passes (A ++ # "k" :: B) = run_passes caverphone1_passes (A ++ # "x" :: B).
Proof. apply (exchange_simple _ _ 13); [discriminate|cbn [firstn caverphone1_passes]; keep|reflexivity]. Qed.
Lemma exchange1_fv : forall A B, run_passes caverphone1_passes (A ++ # "f" :: B) = run_passes caverphone1_passes (A ++ # "v" :: B).
Proof. apply (exchange_simple _ _ 14); [discriminate|cbn [firstn caverphone1_passes]; keep|reflexivity]. Qed.
Lemma exchange2_kx : forall A B, run_passes caverphone2_passes (A ++ # "k" :: B) = run_passes caverphone2_passes (A ++ # "x" :: B).
Proof. apply (exchange_simple _ _ 15); [discriminate|cbn [firstn caverphone2_passes]; keep|reflexivity]. Qed.
Lemma exchange2_fv : forall A B, run_passes caverphone2_passes (A ++ # "f" :: B) = run_passes caverphone2_passes (A ++ # "v" :: B).
Proof. apply (exchange_simple _ _ 16); [discriminate|cbn [firstn caverphone2_passes]; keep|reflexivity]. Qed.

(** ** S and Z: after the pass for SH the one may be followed by 2 where the other is followed by h *)
Definition hushed (x : N) : Prop := x = # "2" \/ x = # "h".
Definition keeps_sh (s s' : N) (f : ustr -> ustr) : Prop :=
  exists l r, forall A B x, hushed x -> f (A ++ s :: x :: B) = l A ++ s' :: x :: r B.
Lemma sh_all : forall s p q, isin s p || isin (# "2") p || match p with [] => true | c :: _ => c =? # "h" end = false -> keeps_sh s s (replace p q).
Proof.
  intros s p q H. rewrite !orb_false_iff, !isin_false in H. destruct H as [[H1 H2] H3].
  exists (replace p q), (replace p q). intros A B x Hx. assert (Np : p <> []) by (destruct p; congruence).
  rewrite replace_split by assumption. do 2 f_equal. destruct Hx as [->| ->]; [now apply (replace_split p q (# "2") [] B)|].
  unfold replace. cbn [replace_aux]. replace (starts_with (# "h" :: B) p) with false; [reflexivity|].
  symmetry. destruct p as [|y p]; [congruence|]. unfold starts_with. cbn [strip_prefix]. now rewrite H3.
Qed.
Lemma sh_start : forall s p q, isin s p = false -> keeps_sh s s (replace_start p q).
Proof.
  intros s p q H. rewrite isin_false in H. exists (replace_start p q), (fun t => t). intros A B x _. now apply replace_start_split.
Qed.
Lemma sh_end : forall s p q, isin (# "2") p || isin (# "h") p = false -> keeps_sh s s (fun t => replace_end t p q).
Proof.
  intros s p q H. rewrite !orb_false_iff, !isin_false in H. destruct H as [H1 H2].
  exists (fun t => t), (fun t => replace_end t p q). intros A B x Hx. change (A ++ s :: x :: B) with (A ++ [s] ++ x :: B).
  rewrite app_assoc, replace_end_split by (destruct Hx as [->| ->]; assumption). now rewrite <- app_assoc.
Qed.
Lemma sh_first : keeps_sh (# "s") (# "s") first_vowel_to_A.
Proof.
  exists first_vowel_to_A, (fun t => t). intros A B x _. unfold first_vowel_to_A, replace_char.
  assert (G : forall s i, (0 < i)%nat -> replace_char_aux (fun i c => if Nat.eqb i 0 && is_vowel (Some c) false then # "A" else c) i s = s).
  { induction s as [|c s IH]; intros i L; [reflexivity|]. cbn [replace_char_aux]. destruct i as [|i]; [lia|]. cbn [Nat.eqb andb]. now rewrite IH by lia. }
  destruct A as [|c A]; cbn [app replace_char_aux]; rewrite !G by lia; reflexivity.
Qed.
Lemma sh_vowels : keeps_sh (# "s") (# "s") vowels_to_3.
Proof.
  exists vowels_to_3, vowels_to_3. intros A B x Hx. unfold vowels_to_3, replace_char.
  rewrite !(replace_char_const (fun c => if is_vowel (Some c) false then # "3" else c)), map_app. cbn [map].
  destruct Hx as [->| ->]; reflexivity.
Qed.
Lemma compact_app : forall chars s, isin s chars = true -> forall A p, exists p', forall B,
  compact_upper_aux chars p (A ++ s :: B) = compact_upper_aux chars p (A ++ [s]) ++ compact_upper_aux chars p' B.
Proof.
  intros chars s Hs. induction A as [|c A IH]; intros p; cbn [app compact_upper_aux].
  - rewrite Hs. destruct p as [q|]; [destruct (negb (q =? s))|]; eexists; intros B; reflexivity.
  - destruct (isin c chars); [destruct p as [q|]; [destruct (negb (q =? c))|]|];
      match goal with |- context [compact_upper_aux chars ?p (A ++ [s])] => destruct (IH p) as [p' H] end; exists p'; intros B; now rewrite H.
Qed.
Lemma compact_last : forall chars s, isin s chars = true -> forall A p,
  (p = Some s /\ A = repeat s (length A) /\ compact_upper_aux chars p (A ++ [s]) = []) \/
  exists l, compact_upper_aux chars p (A ++ [s]) = l ++ [ascii_up s].
Proof.
  intros chars s Hs. induction A as [|c A IH]; intros p; cbn [app compact_upper_aux].
  - rewrite Hs. destruct p as [q|]; [destruct (N.eqb_spec q s) as [->|]; cbn [negb]|].
    + now left.
    + right. now exists [].
    + right. now exists [].
  - destruct (isin c chars) eqn:Hc.
    + assert (G : forall r, (exists l, compact_upper_aux chars (Some c) (A ++ [s]) = l ++ [ascii_up s]) \/ (c = s /\ compact_upper_aux chars (Some c) (A ++ [s]) = []) -> r = ascii_up c :: compact_upper_aux chars (Some c) (A ++ [s]) -> exists l, r = l ++ [ascii_up s]).
      { intros r [[l E]|[-> E]] ->; rewrite E; [now exists (ascii_up c :: l)|now exists []]. }
      assert (K : (exists l, compact_upper_aux chars (Some c) (A ++ [s]) = l ++ [ascii_up s]) \/ (c = s /\ compact_upper_aux chars (Some c) (A ++ [s]) = [])).
      { destruct (IH (Some c)) as [(E & _ & F)|[l E]]; [right|left; now exists l]. split; [congruence|exact F]. }
      destruct p as [q|]; [destruct (N.eqb_spec q c) as [->|]; cbn [negb]|].
      * destruct (IH (Some c)) as [(E & F & H)|[l E]]; [left|right; now exists l]. assert (c = s) as -> by congruence.
        split; [reflexivity|]. split; [cbn [length repeat]; now rewrite <- F|exact H].
      * right. exact (G _ K eq_refl).
      * right. exact (G _ K eq_refl).
    + right. destruct (IH None) as [(E & _)|[l E]]; [discriminate E|]. exists (c :: l). now rewrite E.
Qed.
Lemma removelast_last : forall (l : ustr) x, removelast (l ++ [x]) = l.
Proof. intros. apply removelast_last. Qed.
Lemma sh_runs : keeps_sh (# "s") (# "S") (fun t => replace_compact_all_to_uppercase t $ "stpkfmn").
Proof.
  exists (fun A => removelast (replace_compact_all_to_uppercase (A ++ [# "s"]) $ "stpkfmn")), (fun B => replace_compact_all_to_uppercase B $ "stpkfmn").
  intros A B x Hx. unfold replace_compact_all_to_uppercase.
  destruct (compact_app $ "stpkfmn" (# "s") eq_refl A None) as [p' ->].
  destruct (compact_last $ "stpkfmn" (# "s") eq_refl A None) as [(E & _)|[l ->]]; [discriminate E|].
  rewrite removelast_last, <- app_assoc. cbn [app]. f_equal. f_equal.
  destruct Hx as [->| ->]; cbn [compact_upper_aux]; reflexivity.
Qed.

Lemma sh_run : forall s fs s', 
  (exists l r, forall A B x, hushed x -> run_passes fs (A ++ s :: x :: B) = l A ++ s' :: x :: r B) ->
  forall f t, keeps_sh t s f -> exists l r, forall A B x, hushed x -> run_passes (f :: fs) (A ++ t :: x :: B) = l A ++ s' :: x :: r B.
Proof.
  intros s fs s' (l & r & H) f t (l' & r' & K). exists (fun a => l (l' a)), (fun b => r (r' b)). intros A B x Hx.
  rewrite run_cons, (K A B x Hx). now apply H.
Qed.
Lemma sh_run_nil : forall s, exists l r, forall A B x, hushed x -> run_passes [] (A ++ s :: x :: B) = l A ++ s :: x :: r B.
Proof. intros s. exists (fun a => a), (fun b => b). reflexivity. Qed.
Ltac hush := repeat (eapply sh_run; [|first [apply sh_first|apply sh_vowels|apply sh_runs|apply sh_start; reflexivity|apply sh_all; reflexivity|apply sh_end; reflexivity]]); apply sh_run_nil.

(** The letters S and Z and what follows, before the pass for SH, then after the one for Z. *)
Lemma hushing : forall A B, replace $ "z" $ "s" (replace $ "sh" $ "s2" (A ++ # "s" :: B)) = replace $ "z" $ "s" (replace $ "sh" $ "s2" (A ++ # "z" :: B)) \/
  exists A' B', replace $ "z" $ "s" (replace $ "sh" $ "s2" (A ++ # "s" :: B)) = A' ++ # "s" :: # "2" :: B' /\
    replace $ "z" $ "s" (replace $ "sh" $ "s2" (A ++ # "z" :: B)) = A' ++ # "s" :: # "h" :: B'.
Proof.
  intros A B. rewrite (replace_split $ "sh" $ "s2" (# "z") A B) by (cbn; intuition discriminate).
  assert (E : replace $ "sh" $ "s2" (A ++ # "s" :: B) = replace $ "sh" $ "s2" A ++ replace $ "sh" $ "s2" (# "s" :: B)).
  { unfold replace. assert (G : forall A k, (k <= length A)%nat -> replace_aux $ "sh" $ "s2" k (A ++ # "s" :: B) = replace_aux $ "sh" $ "s2" k A ++ replace_aux $ "sh" $ "s2" 0 (# "s" :: B)).
    { clear A. induction A as [|c A IH]; intros k L; cbn [length] in L.
      - replace k with 0%nat by lia. reflexivity.
      - destruct k as [|k]; [|cbn [app replace_aux]; apply IH; lia].
        assert (P : starts_with (c :: A ++ # "s" :: B) $ "sh" = starts_with (c :: A) $ "sh").
        { destruct A as [|d A]; cbn [app]; unfold starts_with; change ($ "sh") with [# "s"; # "h"]; cbn [strip_prefix].
          - destruct (N.eqb (# "s") c); reflexivity.
          - destruct (N.eqb (# "s") c); [|reflexivity]. destruct (N.eqb _ d); reflexivity. }
        cbn [app replace_aux]. rewrite P. destruct (starts_with (c :: A) $ "sh") eqn:Q.
        + assert (Lq := starts_with_len _ _ Q). cbn [length] in Lq. rewrite IH by (cbn in Lq |- *; lia). reflexivity.
        + rewrite IH by lia. reflexivity. }
    apply G. lia. }
  rewrite E. destruct B as [|c B].
  - left. rewrite !replace1_map, !map_app. reflexivity.
  - destruct (N.eqb_spec c (# "h")) as [->|Nc].
    + right. exists (replace $ "z" $ "s" (replace $ "sh" $ "s2" A)), (replace $ "z" $ "s" (replace $ "sh" $ "s2" B)).
      assert (E2 : replace $ "sh" $ "s2" (# "s" :: # "h" :: B) = # "s" :: # "2" :: replace $ "sh" $ "s2" B) by reflexivity.
      assert (E3 : replace $ "sh" $ "s2" (# "h" :: B) = # "h" :: replace $ "sh" $ "s2" B) by reflexivity.
      rewrite E2, E3, !replace1_map, !map_app. split; reflexivity.
    + left. assert (E2 : replace $ "sh" $ "s2" (# "s" :: c :: B) = # "s" :: replace $ "sh" $ "s2" (c :: B)).
      { unfold replace. cbn [replace_aux]. replace (starts_with (# "s" :: c :: B) $ "sh") with false; [reflexivity|].
        unfold starts_with. change ($ "sh") with [# "s"; # "h"]. cbn [strip_prefix]. rewrite N.eqb_refl.
        apply N.eqb_neq in Nc. rewrite N.eqb_sym in Nc. now rewrite Nc. }
      rewrite E2, !replace1_map, !map_app. reflexivity.
Qed.
Lemma exchange_sz : forall n m fs, Forall (keeps (# "s") (# "z")) (firstn n fs) ->
  nth_error fs n = Some (replace $ "sh" $ "s2") -> nth_error fs (S n) = Some (replace $ "z" $ "s") ->
  (exists l r, forall A B x, hushed x -> run_passes (firstn m (skipn (S (S n)) fs)) (A ++ # "s" :: x :: B) = l A ++ # "S" :: x :: r B) ->
  nth_error (skipn (S (S n)) fs) m = Some (replace $ "h" $ "2") ->
  forall A B, run_passes fs (A ++ # "s" :: B) = run_passes fs (A ++ # "z" :: B).
Proof.
  intros n m fs F E1 E2 (l & r & H) E3 A B.
  apply nth_error_split in E1 as (f1 & f2 & -> & <-).
  rewrite firstn_app, firstn_all, Nat.sub_diag, app_nil_r in F.
  rewrite nth_error_app2 in E2 by lia. replace (S (length f1) - length f1)%nat with 1%nat in E2 by lia.
  destruct f2 as [|g f2]; [discriminate E2|]. cbn [nth_error] in E2. injection E2 as ->.
  rewrite skipn_app, skipn_all2 in H, E3 by lia. replace (S (S (length f1)) - length f1)%nat with 2%nat in H, E3 by lia. cbn [app skipn] in H, E3.
  rewrite !run_app. destruct (keeps_run _ _ f1 F) as (a & b & K). destruct (K A B) as [-> ->]. rewrite !run_cons.
  destruct (hushing (a A) (b B)) as [->|(A' & B' & -> & ->)]; [reflexivity|].
  apply nth_error_split in E3 as (f3 & f4 & -> & <-). rewrite firstn_app, firstn_all, Nat.sub_diag, app_nil_r in H.
  rewrite !run_app, !H by (unfold hushed; auto). rewrite !run_cons. f_equal. rewrite !replace1_map, !map_app. reflexivity.
Qed.
Lemma exchange1_sz : forall A B, run_passes caverphone1_passes (A ++ # "s" :: B) = run_passes caverphone1_passes (A ++ # "z" :: B).
Proof.
  apply (exchange_sz 21 12); [cbn [firstn caverphone1_passes]; keep|reflexivity|reflexivity| |reflexivity].
  cbn [firstn skipn caverphone1_passes]. hush.
Qed.
Lemma exchange2_sz : forall A B, run_passes caverphone2_passes (A ++ # "s" :: B) = run_passes caverphone2_passes (A ++ # "z" :: B).
Proof.
  apply (exchange_sz 23 15); [cbn [firstn caverphone2_passes]; keep|reflexivity|reflexivity| |reflexivity].
  cbn [firstn skipn caverphone2_passes]. hush.
Qed.

(** ** The encoders *)
Definition caverphone_groups : list ustr := [$ "FV"; $ "KX"; $ "SZ"].
Lemma exchange_passes : forall run : ustr -> ustr, 
  (forall A B, run (A ++ # "f" :: B) = run (A ++ # "v" :: B)) -> (forall A B, run (A ++ # "k" :: B) = run (A ++ # "x" :: B)) ->
  (forall A B, run (A ++ # "s" :: B) = run (A ++ # "z" :: B)) -> forall u x y a b, # "A" <= x <= # "Z" -> # "A" <= y <= # "Z" ->
  together caverphone_groups x y -> ascii_text a -> ascii_text b ->
  run (remove_all_non_letter u (str_lower u (a ++ x :: b))) = run (remove_all_non_letter u (str_lower u (a ++ y :: b))).
Proof.
  intros run F K Z u x y a b Hx Hy T Ha Hb.
  assert (Cl : forall c, # "A" <= c <= # "Z" -> remove_all_non_letter u (str_lower u (a ++ c :: b)) =
    map ascii_low (filter is_ascii_alpha a) ++ (c + 32) :: map ascii_low (filter is_ascii_alpha b)).
  { intros c Hc. rewrite cleaned_ascii.
    - rewrite filter_app, map_app. cbn [filter]. assert (is_ascii_alpha c = true) as ->.
      { unfold is_ascii_alpha. assert (E : is_ascii_upper c = true) by (unfold is_ascii_upper; apply andb_true_intro; split; apply N.leb_le; lia). now rewrite E. }
      cbn [map]. destruct (ascii_low_cases c) as [[_ ->]|[Nc _]]; [reflexivity|lia].
    - intros d I. apply in_app_or in I as [I|[<-|I]]; [now apply Ha|change 128 with 128; lia|now apply Hb]. }
  rewrite (Cl x Hx), (Cl y Hy). destruct T as [->|(g & Ig & Ix & Iy)]; [reflexivity|].
  destruct Ig as [<-|[<-|[<-|[]]]]; destruct Ix as [<-|[<-|[]]]; destruct Iy as [<-|[<-|[]]]; try reflexivity;
    first [apply F|apply K|apply Z|symmetry; apply F|symmetry; apply K|symmetry; apply Z].
Qed.
Lemma caverphone1_exchange : forall u x y, # "A" <= x <= # "Z" -> # "A" <= y <= # "Z" -> together caverphone_groups x y ->
  exchangeable (caverphone1_encode u) ascii_text ascii_text x y.
Proof.
  intros u x y Hx Hy T a b Ha Hb. rewrite !encode1_eq.
  now rewrite (exchange_passes _ exchange1_fv exchange1_kx exchange1_sz u x y a b).
Qed.
Lemma caverphone2_exchange : forall u x y, # "A" <= x <= # "Z" -> # "A" <= y <= # "Z" -> together caverphone_groups x y ->
  exchangeable (caverphone2_encode u) ascii_text ascii_text x y.
Proof.
  intros u x y Hx Hy T a b Ha Hb. rewrite !encode2_eq.
  now rewrite (exchange_passes _ exchange2_fv exchange2_kx exchange2_sz u x y a b).
Qed.
