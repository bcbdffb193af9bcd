(** * Neighbouring vowels that Caverphone does not tell apart: proofs. *)
From Verif Require Import Base UnicodeM Lib Helper Caverphone BaseLemmas Spec_common Spec_doubled Spec_exchange Spec_swap
  UnicodeLemmas Soundex_proofs Cologne_proofs Caverphone_proofs Caverphone_spec_proofs Exchange_caverphone_proofs.
Local Open Scope N_scope.

(** ** Replacing a word *)
Lemma replace_skip : forall p q v r, replace_aux p q (length v) (v ++ r) = replace_aux p q 0 r.
Proof. intros p q v r. induction v as [|y v IH]; [reflexivity|]. cbn [length app replace_aux]. exact IH. Qed.
Lemma replace_hit : forall p q r, p <> [] -> replace p q (p ++ r) = q ++ replace p q r.
Proof.
  intros p q r Np. destruct p as [|x p]; [congruence|]. unfold replace. cbn [app replace_aux].
  assert (H : starts_with (x :: p ++ r) (x :: p) = true) by (apply starts_with_spec; now exists r). rewrite H. f_equal.
  replace (length (x :: p) - 1)%nat with (length p) by (cbn [length]; lia). apply replace_skip.
Qed.
Lemma replace_miss : forall p q z s, starts_with (z :: s) p = false -> replace p q (z :: s) = z :: replace p q s.
Proof. intros p q z s H. unfold replace. cbn [replace_aux]. now rewrite H. Qed.
Lemma word_ind : forall (p : ustr) (P : ustr -> Prop), p <> [] -> P [] -> (forall r, P r -> P (p ++ r)) ->
  (forall z s, starts_with (z :: s) p = false -> P s -> P (z :: s)) -> forall s, P s.
Proof.
  intros p P Np P0 P1 P2 s. remember (length s) as n eqn:E. revert s E. induction n as [n IH] using lt_wf_ind. intros s ->.
  destruct s as [|z s]; [exact P0|]. destruct (starts_with (z :: s) p) eqn:Q.
  - apply starts_with_spec in Q as [r Q]. rewrite Q. apply P1. apply (IH (length r)); [|reflexivity].
    rewrite Q, app_length. destruct p; [congruence|cbn [length]; lia].
  - apply P2; [exact Q|]. apply (IH (length s)); [cbn [length]; lia|reflexivity].
Qed.
Lemma prefix_over : forall (p r a b : ustr), p ++ r = a ++ b -> (exists r', a = p ++ r') \/ (exists v, v <> [] /\ p = a ++ v /\ b = v ++ r).
Proof.
  induction p as [|x p IH]; intros r a b E; [left; now exists a|]. destruct a as [|y a]; cbn [app] in E.
  - right. exists (x :: p). split; [discriminate|]. now split.
  - injection E as -> E. destruct (IH r a b E) as [[r' ->]|(v & V & -> & ->)]; [left; now exists r'|right; exists v; now split].
Qed.

(** ** A word that is a stem and a letter foreign to it *)
Section Stem.
Variables (w w' : ustr) (c : N).
Hypothesis Wn : w <> [].
Hypothesis Cw : ~ In c w.
Let p := w ++ [c].
Let q := w' ++ [c].
Let R := replace p q.
Lemma p_some : p <> [].
Proof. unfold p. now destruct w. Qed.
Lemma c_only_last : forall a v : ustr, v <> [] -> w ++ [c] = a ++ v -> exists v0, v = v0 ++ [c] /\ w = a ++ v0.
Proof.
  intros a v V E. destruct (exists_last V) as (v0 & z & ->). rewrite app_assoc in E. apply app_inj_tail in E as [-> <-]. now exists v0.
Qed.
Lemma unchanged : forall v, ~ In c v -> R v = v.
Proof.
  induction v as [|z v IH]; intros H; [reflexivity|]. unfold R. rewrite replace_miss.
  - fold R. rewrite IH; [reflexivity|]. intros I. apply H. now right.
  - destruct (starts_with (z :: v) p) eqn:E; [|reflexivity]. apply starts_with_spec in E as [r E]. elim H. rewrite E. unfold p.
    apply in_or_app. left. apply in_or_app. right. now left.
Qed.
Lemma free_end : forall v A, ~ In c v -> R (A ++ v) = R A ++ v.
Proof.
  intros v A H. revert A. apply (word_ind p); [exact p_some|now apply unchanged| |].
  - intros r IH. rewrite <- app_assoc. unfold R in *. rewrite !replace_hit by exact p_some. now rewrite IH, <- app_assoc.
  - intros z s M IH. cbn [app]. unfold R in *. rewrite !replace_miss; [now rewrite IH|exact M|].
    destruct (starts_with (z :: s ++ v) p) eqn:E; [|reflexivity]. apply starts_with_spec in E as [r E]. symmetry in E.
    change (z :: s ++ v) with ((z :: s) ++ v) in E. destruct (prefix_over _ _ _ _ E) as [[r' Q]|(v1 & V & Q & ->)].
    + assert (starts_with (z :: s) p = true) by (apply starts_with_spec; now exists r'). congruence.
    + destruct (c_only_last _ _ V Q) as (v0 & -> & _). elim H. apply in_or_app. left. apply in_or_app. right. now left.
Qed.
Lemma stem_hit : forall A B, R (A ++ w ++ c :: B) = R A ++ w' ++ c :: R B.
Proof.
  intros A B. revert A. apply (word_ind p); [exact p_some| | |].
  - cbn [app]. replace (w ++ c :: B) with (p ++ B) by (unfold p; now rewrite <- app_assoc). unfold R. rewrite replace_hit by exact p_some.
    unfold q. now rewrite <- app_assoc.
  - intros r IH. rewrite <- app_assoc. unfold R in *. rewrite !replace_hit by exact p_some. now rewrite IH, <- app_assoc.
  - intros z s M IH. cbn [app]. unfold R in *. rewrite !replace_miss; [now rewrite IH|exact M|].
    destruct (starts_with (z :: s ++ w ++ c :: B) p) eqn:E; [|reflexivity]. apply starts_with_spec in E as [r E]. symmetry in E.
    change (z :: s ++ w ++ c :: B) with ((z :: s) ++ w ++ c :: B) in E. destruct (prefix_over _ _ _ _ E) as [[r' Q]|(v1 & V & Q & F)].
    + assert (starts_with (z :: s) p = true) by (apply starts_with_spec; now exists r'). congruence.
    + destruct (c_only_last _ _ V Q) as (v0 & -> & W). exfalso. symmetry in F. destruct (prefix_over _ _ _ _ F) as [[r' K]|(v1 & V1 & K & _)].
      * apply Cw. rewrite K. apply in_or_app. left. apply in_or_app. right. now left.
      * apply (f_equal (@length N)) in W, K. rewrite app_length in W. rewrite !app_length in K. rewrite ?app_length in K. destruct v1 as [|e v1]; [congruence|]. cbn [length] in W, K. lia.
Qed.
Lemma stem_miss : forall B A, (forall a, A <> a ++ w) -> R (A ++ c :: B) = R A ++ c :: R B.
Proof.
  intros B. apply (word_ind p (fun A => (forall a, A <> a ++ w) -> R (A ++ c :: B) = R A ++ c :: R B)); [exact p_some| | |].
  - intros _. cbn [app]. unfold R. rewrite replace_miss; [reflexivity|]. destruct (starts_with (c :: B) p) eqn:E; [|reflexivity].
    apply starts_with_spec in E as [r E]. unfold p in E. destruct w as [|x w0]; [congruence|]. cbn [app] in E. injection E as E _. elim Cw. now left.
  - intros r IH H. rewrite <- app_assoc. unfold R in *. rewrite !replace_hit by exact p_some. rewrite IH, <- app_assoc; [reflexivity|].
    intros a ->. apply (H (p ++ a)). now rewrite <- app_assoc.
  - intros z s M IH H. cbn [app]. unfold R in *. rewrite !replace_miss; [rewrite IH; [reflexivity|]|exact M|].
    + intros a ->. apply (H (z :: a)). reflexivity.
    + destruct (starts_with (z :: s ++ c :: B) p) eqn:E; [|reflexivity]. apply starts_with_spec in E as [r E]. symmetry in E.
      change (z :: s ++ c :: B) with ((z :: s) ++ c :: B) in E. destruct (prefix_over _ _ _ _ E) as [[r' Q]|(v1 & V & Q & F)].
      * assert (starts_with (z :: s) p = true) by (apply starts_with_spec; now exists r'). congruence.
      * destruct (c_only_last _ _ V Q) as (v0 & -> & W). destruct v0 as [|d v0].
        -- rewrite app_nil_r in W. elim (H []). now rewrite W.
        -- cbn [app] in F. injection F as -> _. elim Cw. rewrite W. apply in_or_app. right. now left.
Qed.
Lemma no_trace : forall A, ~ In c (R A) -> R A = A.
Proof.
  apply (word_ind p (fun A => ~ In c (R A) -> R A = A)); [exact p_some|intros _; reflexivity| |].
  - intros r IH H. elim H. unfold R. rewrite replace_hit by exact p_some. unfold q. rewrite <- app_assoc. apply in_or_app. right. now left.
  - intros z s M IH. unfold R in *. rewrite replace_miss by exact M. intros H. rewrite IH; [reflexivity|]. intros I. apply H. now right.
Qed.
Lemma ends_back : forall A a, R A = a ++ w -> exists a', A = a' ++ w.
Proof.
  apply (word_ind p (fun A => forall a, R A = a ++ w -> exists a', A = a' ++ w)); [exact p_some| | |].
  - intros a E. unfold R, replace in E. cbn [replace_aux] in E. now exists a.
  - intros r IH a E. unfold R in *. rewrite replace_hit in E by exact p_some. unfold q in E. rewrite <- app_assoc in E. cbn [app] in E.
    symmetry in E. destruct (app_suffix _ _ _ _ _ E Cw) as (b & E2 & _). destruct (IH b E2) as (a' & ->). exists (p ++ a'). now rewrite <- app_assoc.
  - intros z s M IH a E. unfold R in *. rewrite replace_miss in E by exact M. destruct a as [|y a].
    + cbn [app] in E. exists []. cbn [app]. rewrite <- E. f_equal. symmetry. apply no_trace. intros I. apply Cw. rewrite <- E. now right.
    + cbn [app] in E. injection E as -> E. destruct (IH a E) as (a' & ->). now exists (y :: a').
Qed.
End Stem.

(** ** Passes that keep two neighbours and treat what stands around them alike *)
Definition swaps (x y : N) (f : ustr -> ustr) : Prop :=
  exists l r, forall A B, f (A ++ x :: y :: B) = l A ++ x :: y :: r B /\ f (A ++ y :: x :: B) = l A ++ y :: x :: r B.
(** No match of [p] reaches [x] from the left when [y] follows. *)
Fixpoint stops (x y : N) (p : ustr) : bool :=
  match p with
  | [] => true
  | a :: r => if (a =? x) && match r with [] => true | b :: _ => b =? y end then false else stops x y r
  end.
Lemma stops_prefix : forall x y B p A, stops x y p = true ->
  strip_prefix p (A ++ x :: y :: B) = match strip_prefix p A with Some r => Some (r ++ x :: y :: B) | None => None end.
Proof.
  intros x y B. induction p as [|a p IH]; intros A H; [reflexivity|]. cbn [stops] in H.
  destruct ((a =? x) && match p with [] => true | b :: _ => b =? y end) eqn:E; [discriminate H|].
  destruct A as [|z A]; cbn [app strip_prefix].
  - destruct (a =? x); [|reflexivity]. cbn [andb] in E. destruct p as [|b p]; [discriminate E|]. cbn [strip_prefix]. now rewrite E.
  - destruct (a =? z); [|reflexivity]. now apply IH.
Qed.
Lemma swaps_start : forall x y p q, (if stops x y p then stops y x p else false) = true -> swaps x y (replace_start p q).
Proof.
  intros x y p q H. destruct (stops x y p) eqn:H1; [|discriminate H]. exists (replace_start p q), (fun s => s). intros A B. unfold replace_start.
  rewrite !stops_prefix by assumption. destruct (strip_prefix p A); rewrite <- ?app_assoc; now split.
Qed.
Lemma replace_stops : forall x y p q B, p <> [] -> stops x y p = true -> hd_error p <> Some y -> forall A k, (k <= length A)%nat ->
  replace_aux p q k (A ++ x :: y :: B) = replace_aux p q k A ++ x :: y :: replace_aux p q 0 B.
Proof.
  intros x y p q B Np H Hd.
  assert (P : forall A, starts_with (A ++ x :: y :: B) p = starts_with A p) by (intros A; unfold starts_with; rewrite stops_prefix by exact H; now destruct (strip_prefix p A)).
  assert (Sy : starts_with (y :: B) p = false).
  { destruct p as [|a p]; [congruence|]. unfold starts_with. cbn [strip_prefix]. destruct (N.eqb_spec a y) as [->|]; [now elim Hd|reflexivity]. }
  induction A as [|z A IH]; intros k L; cbn [app length] in *.
  - replace k with 0%nat by lia. cbn [replace_aux]. rewrite Sy. change (x :: y :: B) with ([] ++ x :: y :: B) at 1. rewrite P.
    destruct p; [congruence|reflexivity].
  - destruct k as [|k]; cbn [replace_aux]; [|apply IH; lia].
    change (z :: A ++ x :: y :: B) with ((z :: A) ++ x :: y :: B). rewrite P. destruct (starts_with (z :: A) p) eqn:Q.
    + apply starts_with_len in Q. cbn [length] in Q. rewrite IH by lia. now rewrite <- app_assoc.
    + rewrite IH by lia. reflexivity.
Qed.
Lemma swaps_all : forall x y p q,
  (if stops x y p then if stops y x p then match p with [] => false | a :: _ => if a =? x then false else if a =? y then false else true end else false else false) = true ->
  swaps x y (replace p q).
Proof.
  intros x y p q H. destruct (stops x y p) eqn:H1; [|discriminate H]. destruct (stops y x p) eqn:H2; [|discriminate H].
  destruct p as [|a p]; [discriminate H|]. destruct (N.eqb_spec a x) as [|D1]; [discriminate H|]. destruct (N.eqb_spec a y) as [|D2]; [discriminate H|].
  exists (replace (a :: p) q), (replace (a :: p) q). intros A B. split; apply replace_stops; try assumption; try discriminate; try lia; cbn [hd_error]; congruence.
Qed.
Lemma swaps_end : forall x y p q, isin x p || isin y p = false -> swaps x y (fun t => replace_end t p q).
Proof.
  intros x y p q H. rewrite !orb_false_iff, !isin_false in H. destruct H as [H1 H2].
  exists (fun s => s), (fun s => replace_end s p q). intros A B. split.
  - rewrite replace_end_split by exact H1. do 2 f_equal. now apply (replace_end_split p q y [] B).
  - rewrite replace_end_split by exact H2. do 2 f_equal. now apply (replace_end_split p q x [] B).
Qed.
(** Two passes for the same stem, the one before [x], the other before [y]. *)
Lemma swaps_stem : forall x y w w', w <> [] -> ~ In x w -> ~ In y w -> ~ In x w' -> ~ In y w' -> x <> y ->
  swaps x y (fun s => replace (w ++ [y]) (w' ++ [y]) (replace (w ++ [x]) (w' ++ [x]) s)).
Proof.
  intros x y w w' Wn Xw Yw Xw' Yw' D.
  set (R1 := replace (w ++ [x]) (w' ++ [x])). set (R2 := replace (w ++ [y]) (w' ++ [y])).
  assert (Nx : ~ In x (w ++ [y])) by (intros I; apply in_app_or in I as [I|[I|[]]]; congruence).
  assert (Ny : ~ In y (w ++ [x])) by (intros I; apply in_app_or in I as [I|[I|[]]]; congruence).
  assert (S1 : forall A B, R1 (A ++ y :: B) = R1 A ++ y :: R1 B) by (intros; apply replace_split; [exact Ny|now destruct w]).
  assert (S2 : forall A B, R2 (A ++ x :: B) = R2 A ++ x :: R2 B) by (intros; apply replace_split; [exact Nx|now destruct w]).
  assert (M1 : forall A B, R1 (A ++ y :: x :: B) = R1 A ++ y :: x :: R1 B).
  { intros A B. rewrite S1. do 2 f_equal. apply (stem_miss w w' x Wn Xw B []). intros a E. symmetry in E. apply app_eq_nil in E as [_ E]. congruence. }
  assert (M2 : forall A B, R2 (A ++ x :: y :: B) = R2 A ++ x :: y :: R2 B).
  { intros A B. rewrite S2. do 2 f_equal. apply (stem_miss w w' y Wn Yw B []). intros a E. symmetry in E. apply app_eq_nil in E as [_ E]. congruence. }
  exists (fun A => if ends_with A w then R2 (R1 (firstn (length A - length w) A)) ++ w' else R2 (R1 A)), (fun B => R2 (R1 B)).
  intros A B. destruct (ends_with A w) eqn:E.
  - apply ends_with_spec in E as [a ->]. rewrite app_length. replace (length a + length w - length w)%nat with (length a) by lia.
    rewrite firstn_app, firstn_all, Nat.sub_diag, app_nil_r. rewrite <- !app_assoc. split.
    + assert (H := stem_hit w w' x Wn Xw a (y :: B)). fold R1 in H. cbn [app] in H |- *. rewrite H. clear H.
      change (R1 (y :: B)) with (R1 ([] ++ y :: B)). rewrite S1. change (R1 []) with ([] : ustr). cbn [app].
      rewrite app_assoc. rewrite M2. assert (F := free_end w w' y Wn Yw w' (R1 a) Yw'). fold R2 in F. rewrite F. now rewrite <- app_assoc.
    + rewrite app_assoc. rewrite M1. assert (F := free_end w w' x Wn Xw w a Xw). fold R1 in F. rewrite F. rewrite <- app_assoc.
      assert (H := stem_hit w w' y Wn Yw (R1 a) (x :: R1 B)). fold R2 in H. cbn [app] in H |- *. rewrite H. clear H.
      change (R2 (x :: R1 B)) with (R2 ([] ++ x :: R1 B)). rewrite S2. change (R2 []) with ([] : ustr). cbn [app]. reflexivity.
  - assert (En : forall a, A <> a ++ w).
    { intros a Ea. assert (ends_with A w = true) by (apply ends_with_spec; now exists a). congruence. }
    split.
    + assert (H := stem_miss w w' x Wn Xw (y :: B) A En). fold R1 in H. rewrite H. change (R1 (y :: B)) with (R1 ([] ++ y :: B)). rewrite S1.
      change (R1 []) with ([] : ustr). cbn [app]. apply M2.
    + rewrite M1. assert (En2 : forall a, R1 A <> a ++ w).
      { intros a Ea. destruct (ends_back w w' x Wn Xw A a Ea) as (a' & Ea'). now elim (En a'). }
      assert (H := stem_miss w w' y Wn Yw (x :: R1 B) (R1 A) En2). fold R2 in H. rewrite H. change (R2 (x :: R1 B)) with (R2 ([] ++ x :: R1 B)). rewrite S2.
      change (R2 []) with ([] : ustr). reflexivity.
Qed.
(** ** Several passes *)
Lemma swaps_nil : forall x y, swaps x y (run_passes []).
Proof. intros x y. exists (fun s => s), (fun s => s). intros A B. now split. Qed.
Lemma swaps_compose : forall x y f g, swaps x y f -> swaps x y g -> swaps x y (fun s => g (f s)).
Proof.
  intros x y f g (l & r & F) (l' & r' & G). exists (fun s => l' (l s)), (fun s => r' (r s)). intros A B.
  destruct (F A B) as [-> ->]. apply G.
Qed.
Lemma swaps_cons : forall x y f fs, swaps x y f -> swaps x y (run_passes fs) -> swaps x y (run_passes (f :: fs)).
Proof. intros x y f fs F G. exact (swaps_compose x y f (run_passes fs) F G). Qed.
Lemma swaps_pair : forall x y f g fs, swaps x y (fun s => g (f s)) -> swaps x y (run_passes fs) -> swaps x y (run_passes (f :: g :: fs)).
Proof. intros x y f g fs F G. exact (swaps_compose x y (fun s => g (f s)) (run_passes fs) F G). Qed.
Ltac passes := repeat first [apply swaps_nil
  |apply swaps_cons; [first [apply swaps_all; reflexivity|apply swaps_start; reflexivity|apply swaps_end; reflexivity]|]].
Lemma vowels_same : forall x y, is_vowel (Some x) false = true -> is_vowel (Some y) false = true -> forall A B,
  vowels_to_3 (first_vowel_to_A (A ++ x :: y :: B)) = vowels_to_3 (first_vowel_to_A (A ++ y :: x :: B)).
Proof.
  intros x y Vx Vy A B. unfold vowels_to_3, first_vowel_to_A, replace_char.
  assert (G : forall s i, (0 < i)%nat -> replace_char_aux (fun i c => if Nat.eqb i 0 && is_vowel (Some c) false then # "A" else c) i s = s).
  { induction s as [|c s IH]; intros i L; [reflexivity|]. cbn [replace_char_aux]. destruct i as [|i]; [lia|]. cbn [Nat.eqb andb]. now rewrite IH by lia. }
  rewrite !(replace_char_const (fun c => if is_vowel (Some c) false then # "3" else c)).
  destruct A as [|c A]; cbn [app replace_char_aux Nat.eqb andb].
  - rewrite Vx, Vy, !G by lia. cbn [map]. now rewrite Vx, Vy.
  - rewrite !G by lia. cbn [map]. f_equal. rewrite !map_app. cbn [map]. now rewrite Vx, Vy.
Qed.
Lemma passes_same : forall x y n fs, is_vowel (Some x) false = true -> is_vowel (Some y) false = true -> swaps x y (run_passes (firstn n fs)) ->
  nth_error fs n = Some first_vowel_to_A -> nth_error fs (S n) = Some vowels_to_3 ->
  forall A B, run_passes fs (A ++ x :: y :: B) = run_passes fs (A ++ y :: x :: B).
Proof.
  intros x y n fs Vx Vy (l & r & K) E1 E2 A B. apply nth_error_split in E1 as (f1 & f2 & -> & <-).
  rewrite firstn_app, firstn_all, Nat.sub_diag, app_nil_r in K.
  rewrite nth_error_app2 in E2 by lia. replace (S (length f1) - length f1)%nat with 1%nat in E2 by lia.
  destruct f2 as [|g f2]; [discriminate E2|]. cbn [nth_error] in E2. injection E2 as ->.
  rewrite !run_app. destruct (K A B) as [-> ->]. rewrite !run_cons. now rewrite (vowels_same x y Vx Vy).
Qed.
Lemma swap1_ao : forall A B, run_passes caverphone1_passes (A ++ # "o" :: # "a" :: B) = run_passes caverphone1_passes (A ++ # "a" :: # "o" :: B).
Proof.
  apply (passes_same _ _ 23); [reflexivity..| |reflexivity|reflexivity]. cbn [firstn caverphone1_passes]. passes.
  apply swaps_pair; [|passes]. apply (swaps_stem (# "o") (# "a") $ "ti" $ "si"); try discriminate; cbn; intuition discriminate.
Qed.
Lemma swap1_ei : forall A B, run_passes caverphone1_passes (A ++ # "i" :: # "e" :: B) = run_passes caverphone1_passes (A ++ # "e" :: # "i" :: B).
Proof.
  apply (passes_same _ _ 23); [reflexivity..| |reflexivity|reflexivity]. cbn [firstn caverphone1_passes]. passes.
  apply swaps_pair; [|passes]. apply (swaps_stem (# "i") (# "e") $ "c" $ "s"); try discriminate; cbn; intuition discriminate.
Qed.
Lemma swap2_ao : forall A B, run_passes caverphone2_passes (A ++ # "o" :: # "a" :: B) = run_passes caverphone2_passes (A ++ # "a" :: # "o" :: B).
Proof.
  apply (passes_same _ _ 25); [reflexivity..| |reflexivity|reflexivity]. cbn [firstn caverphone2_passes]. passes.
  apply swaps_pair; [|passes]. apply (swaps_stem (# "o") (# "a") $ "ti" $ "si"); try discriminate; cbn; intuition discriminate.
Qed.
(** ** The encoders *)
Lemma swap_passes : forall (run : ustr -> ustr) (x y : N), (forall A B, run (A ++ (x + 32) :: (y + 32) :: B) = run (A ++ (y + 32) :: (x + 32) :: B)) ->
  # "A" <= x <= # "Z" -> # "A" <= y <= # "Z" -> forall u a b, ascii_text a -> ascii_text b ->
  run (remove_all_non_letter u (str_lower u (a ++ x :: y :: b))) = run (remove_all_non_letter u (str_lower u (a ++ y :: x :: b))).
Proof.
  intros run x y H Hx Hy u a b Ha Hb.
  assert (Cl : forall c d, # "A" <= c <= # "Z" -> # "A" <= d <= # "Z" -> remove_all_non_letter u (str_lower u (a ++ c :: d :: b)) =
    map ascii_low (filter is_ascii_alpha a) ++ (c + 32) :: (d + 32) :: map ascii_low (filter is_ascii_alpha b)).
  { intros c d Hc Hd. assert (L : forall e, # "A" <= e <= # "Z" -> is_ascii_alpha e = true /\ ascii_low e = e + 32).
    { intros e He. split; [|destruct (ascii_low_cases e) as [[_ ->]|[Ne _]]; [reflexivity|lia]].
      unfold is_ascii_alpha. assert (E : is_ascii_upper e = true) by (unfold is_ascii_upper; apply andb_true_intro; split; apply N.leb_le; lia). now rewrite E. }
    destruct (L c Hc) as [Ac Lc], (L d Hd) as [Ad Ld]. rewrite cleaned_ascii.
    - rewrite filter_app, map_app. cbn [filter]. rewrite Ac. cbn [map filter]. rewrite Ad. cbn [map]. now rewrite Lc, Ld.
    - intros e I. change (# "Z") with 90 in *. apply in_app_or in I as [I|[<-|[<-|I]]]; [now apply Ha|lia|lia|now apply Hb]. }
  rewrite !Cl by assumption. apply H.
Qed.
Lemma caverphone1_swap : forall u x y, together [$ "AO"; $ "EI"] x y -> # "A" <= x <= # "Z" -> # "A" <= y <= # "Z" ->
  swappable (caverphone1_encode u) ascii_text ascii_text x y.
Proof.
  intros u x y T Hx Hy a b Ha Hb. destruct T as [->|(g & Ig & Ix & Iy)]; [reflexivity|]. rewrite !encode1_eq.
  rewrite (swap_passes (run_passes caverphone1_passes) x y); [reflexivity| |assumption..].
  intros A B. destruct Ig as [<-|[<-|[]]]; destruct Ix as [<-|[<-|[]]]; destruct Iy as [<-|[<-|[]]]; 
    [reflexivity|exact (eq_sym (swap1_ao A B))|exact (swap1_ao A B)|reflexivity|reflexivity|exact (eq_sym (swap1_ei A B))|exact (swap1_ei A B)|reflexivity].
Qed.
Lemma caverphone2_swap : forall u x y, together [$ "AO"] x y -> # "A" <= x <= # "Z" -> # "A" <= y <= # "Z" ->
  swappable (caverphone2_encode u) ascii_text ascii_text x y.
Proof.
  intros u x y T Hx Hy a b Ha Hb. destruct T as [->|(g & Ig & Ix & Iy)]; [reflexivity|]. rewrite !encode2_eq.
  rewrite (swap_passes (run_passes caverphone2_passes) x y); [reflexivity| |assumption..].
  intros A B. destruct Ig as [<-|[]]; destruct Ix as [<-|[<-|[]]]; destruct Iy as [<-|[<-|[]]]; 
    [reflexivity|exact (eq_sym (swap2_ao A B))|exact (swap2_ao A B)|reflexivity].
Qed.
