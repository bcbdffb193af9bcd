(** * Evaluating contextual rules when only the surroundings of the letter are known: for each place
    near the letter a set of possible characters.  The answer may be "unknown". *)
From Verif Require Import Base BaseLemmas Spec_common Spec_contextual Rewrite_proofs Contextual_proofs.
Local Open Scope Z_scope.

Inductive know := Char (set : ustr) | Outside | Unknown.
(** [walpha]: the characters that may occur anywhere in the text. *)
Record window := { walpha : ustr; wleft : list ustr; wfirst : bool; wright : list ustr; wlast : bool }.
Definition seen (w : window) (off : Z) : know :=
  if 0 <=? off then
    match nth_error (wright w) (Z.to_nat off) with
    | Some set => Char set | None => if wlast w then Outside else Unknown end
  else
    match nth_error (wleft w) (Z.to_nat (- off - 1)) with
    | Some set => Char set | None => if wfirst w then Outside else Unknown end.

(** The text, read at position [i], looks as the window says. *)
Record fits (w : window) (text : ustr) (i : nat) : Prop := {
  ft_alpha : forall c, In c text -> In c (walpha w);
  ft_cell : forall off, match seen w off with
                        | Char set => exists c, char_b text (Z.of_nat i + off) = Some c /\ In c set
                        | Outside => char_b text (Z.of_nat i + off) = None
                        | Unknown => True
                        end;
  ft_left : (length (wleft w) <= i)%nat;
  ft_first : wfirst w = true -> length (wleft w) = i;
  ft_right : (i + length (wright w) <= length text)%nat;
  ft_last : wlast w = true -> length text = (i + length (wright w))%nat }.

Lemma Forall2_nth : forall A B (P : A -> B -> Prop) l l' n, Forall2 P l l' ->
  match nth_error l' n with
  | Some b => exists a, nth_error l n = Some a /\ P a b
  | None => nth_error l n = None
  end.
Proof.
  intros A B P l l' n F. revert n. induction F as [|a b l l' H F IH]; intros [|n]; cbn; auto; eauto.
  apply IH.
Qed.
Lemma Forall2_same_length : forall A B (P : A -> B -> Prop) l l', Forall2 P l l' -> length l = length l'.
Proof. intros A B P l l' F. induction F; cbn; congruence. Qed.
Lemma nth_error_app_l : forall A (a b : list A) n x, nth_error a n = Some x -> nth_error (a ++ b) n = Some x.
Proof. intros A a b n x H. rewrite nth_error_app1; [exact H|]. apply nth_error_Some. congruence. Qed.
Lemma rev_nth_error : forall A (l : list A) n x, nth_error l n = Some x ->
  nth_error (rev l) (length l - S n) = Some x.
Proof.
  intros A l n x H. assert (Ln : (n < length l)%nat) by (apply nth_error_Some; congruence).
  rewrite (nth_error_nth' (rev l) x) by (rewrite rev_length; lia). f_equal.
  rewrite rev_nth by lia. replace (length l - S (length l - S n))%nat with n by lia.
  now apply nth_error_nth.
Qed.
Definition among (c : N) (set : ustr) : Prop := In c set.
(** [l1]: the characters before the letter, nearest first; [r1]: the letter and those after it. *)
Lemma fits_intro : forall w l1 l2 r1 r2,
  Forall2 among l1 (wleft w) -> Forall2 among r1 (wright w) ->
  (wfirst w = true -> l2 = []) -> (wlast w = true -> r2 = []) ->
  (forall c, In c (rev (l1 ++ l2) ++ r1 ++ r2) -> In c (walpha w)) ->
  fits w (rev (l1 ++ l2) ++ r1 ++ r2) (length (l1 ++ l2)).
Proof.
  intros w l1 l2 r1 r2 F1 F2 B E Al.
  pose proof (Forall2_same_length _ _ _ _ _ F1) as L1. pose proof (Forall2_same_length _ _ _ _ _ F2) as L2. constructor.
  - exact Al.
  - intros off. unfold seen. destruct (Z.leb_spec 0 off) as [P|P].
    + pose proof (Forall2_nth _ _ _ _ _ (Z.to_nat off) F2) as K.
      assert (C : char_b (rev (l1 ++ l2) ++ r1 ++ r2) (Z.of_nat (length (l1 ++ l2)) + off)
                  = nth_error (r1 ++ r2) (Z.to_nat off)).
      { unfold char_b. replace (_ <? 0) with false by (symmetry; apply Z.ltb_ge; lia).
        rewrite nth_error_app2; rewrite rev_length; [f_equal; lia|lia]. }
      cbv beta in K. revert K. destruct (nth_error (wright w) (Z.to_nat off)) as [set|]; intros K.
      * destruct K as (c & K1 & K2). exists c. split; [|exact K2]. rewrite C. now apply nth_error_app_l.
      * destruct (wlast w); [|exact I]. rewrite C, E, app_nil_r by reflexivity. exact K.
    + pose proof (Forall2_nth _ _ _ _ _ (Z.to_nat (- off - 1)) F1) as K.
      cbv beta in K. revert K. destruct (nth_error (wleft w) (Z.to_nat (- off - 1))) as [set|]; intros K.
      * destruct K as (c & K1 & K2). exists c. split; [|exact K2].
        assert (Hl : (Z.to_nat (- off - 1) < length l1)%nat) by (apply nth_error_Some; congruence).
        unfold char_b. rewrite app_length. replace (_ <? 0) with false by (symmetry; apply Z.ltb_ge; lia).
        apply nth_error_app_l. apply (nth_error_app_l _ _ l2), rev_nth_error in K1. rewrite app_length in K1.
        rewrite <- K1. f_equal. lia.
      * destruct (wfirst w); [|exact I]. rewrite B, app_nil_r by reflexivity.
        apply nth_error_None in K. unfold char_b. now replace (_ <? 0) with true by (symmetry; apply Z.ltb_lt; lia).
  - rewrite app_length. lia.
  - intros H. rewrite B, app_nil_r by assumption. lia.
  - rewrite ?app_length, ?rev_length, ?app_length. lia.
  - intros H. rewrite (E H), app_nil_r. rewrite ?app_length, ?rev_length, ?app_length. lia.
Qed.

(** ** Three values *)
Definition and3 (a b : option bool) : option bool :=
  match a, b with
  | Some false, _ | _, Some false => Some false
  | Some true, Some true => Some true
  | _, _ => None
  end.
Definition not3 (a : option bool) : option bool := option_map negb a.
Definition or3 (a b : option bool) : option bool := not3 (and3 (not3 a) (not3 b)).
Definition means (a : option bool) (b : bool) : Prop := forall x, a = Some x -> b = x.
Lemma means_and : forall a b x y, means a x -> means b y -> means (and3 a b) (x && y).
Proof.
  unfold means. intros [[|]|] [[|]|] x y A B z H; cbn in H; try discriminate; injection H as <-;
    try (rewrite (A _ eq_refl)); try (rewrite (B _ eq_refl)); auto using andb_false_r.
Qed.
Lemma means_not : forall a x, means a x -> means (not3 a) (negb x).
Proof. unfold means. intros [a|] x A z H; cbn in H; [|discriminate]. injection H as <-. now rewrite (A _ eq_refl). Qed.
Lemma means_or : forall a b x y, means a x -> means b y -> means (or3 a b) (x || y).
Proof.
  intros a b x y A B. replace (x || y) with (negb (negb x && negb y)) by now destruct x, y.
  apply means_not, means_and; now apply means_not.
Qed.

Definition char3 (k : know) (c : N) : option bool :=
  match k with
  | Char set => if isin c set then (if forallb (N.eqb c) set then Some true else None) else Some false
  | Outside => Some false
  | Unknown => None
  end.
Fixpoint word3 (w : window) (off : Z) (word : ustr) : option bool :=
  match word with
  | [] => Some true
  | c :: r => and3 (char3 (seen w off) c) (word3 w (off + 1) r)
  end.
Definition words3 (alpha : ustr) (f : ustr -> option bool) (ws : list ustr) : option bool :=
  fold_right (fun word acc =>
    or3 (match word with
         | [] => None
         | _ => if forallb (fun c => isin c alpha) word then f word else Some false
         end) acc) (Some false) ws.
Fixpoint cond3 (w : window) (c : cond) : option bool :=
  match c with
  | At d ws => words3 (walpha w) (word3 w d) ws
  | Precede n => if Nat.leb n (length (wleft w)) then Some true else if wfirst w then Some false else None
  | Follow n => if wlast w then Some (Nat.eqb (length (wright w)) (n + 1))
                else if Nat.ltb (n + 1) (length (wright w)) then Some false else None
  | Long n => if Nat.leb n (length (wleft w) + length (wright w)) then Some true
              else if wfirst w && wlast w then Some false else None
  | Begins ws =>
      words3 (walpha w) (if wfirst w then word3 w (- Z.of_nat (length (wleft w))) else fun _ => None) ws
  | Finishes ws | Somewhere ws => words3 (walpha w) (fun _ => None) ws
  | Both c d => and3 (cond3 w c) (cond3 w d)
  | Either c d => or3 (cond3 w c) (cond3 w d)
  | Not c => not3 (cond3 w c)
  end.
(** The results agree when both branches do. *)
Fixpoint rule3 {A B} (eqb : B -> B -> bool) (f : A -> B) (w : window) (r : rule A) : option B :=
  match r with
  | Out a => Some (f a)
  | If c r1 r2 =>
      match cond3 w c with
      | Some true => rule3 eqb f w r1
      | Some false => rule3 eqb f w r2
      | None => match rule3 eqb f w r1, rule3 eqb f w r2 with
                | Some x, Some y => if eqb x y then Some x else None
                | _, _ => None
                end
      end
  end.

Lemma stands_cons : forall text c r p,
  stands_atb text (c :: r) p
  = match char_b text p with Some x => N.eqb c x && stands_atb text r (p + 1) | None => false end.
Proof.
  intros text c r p. unfold stands_atb, char_b. destruct (Z.ltb_spec p 0) as [L|L].
  - replace (0 <=? p) with false by (symmetry; apply Z.leb_gt; lia). reflexivity.
  - replace (0 <=? p) with true by (symmetry; apply Z.leb_le; lia).
    replace (0 <=? p + 1) with true by (symmetry; apply Z.leb_le; lia). cbn [andb].
    rewrite nth_skipn. replace (Z.to_nat (p + 1)) with (S (Z.to_nat p)) by lia.
    assert (Sk : skipn (S (Z.to_nat p)) text = tl (skipn (Z.to_nat p) text)).
    { generalize (Z.to_nat p). intros n. revert text. induction n as [|n IH]; intros [|x t]; try reflexivity. cbn [skipn] in *. apply IH. }
    rewrite Sk.
    assert (Ln : length (skipn (Z.to_nat p) text) = (length text - Z.to_nat p)%nat) by apply skipn_length.
    destruct (skipn (Z.to_nat p) text) as [|x t] eqn:E; cbn [hd_error tl length] in *.
    + destruct (p <=? Z.of_nat (length text)); reflexivity.
    + replace (p <=? Z.of_nat (length text)) with true by (symmetry; apply Z.leb_le; lia).
      replace (p + 1 <=? Z.of_nat (length text)) with true by (symmetry; apply Z.leb_le; lia).
      cbn [andb]. unfold starts_with. cbn [strip_prefix]. destruct (N.eqb c x); reflexivity.
Qed.
Lemma char3_means : forall w text i off c, fits w text i ->
  means (char3 (seen w off) c) match char_b text (Z.of_nat i + off) with Some x => N.eqb c x | None => false end.
Proof.
  intros w text i off c F. pose proof (ft_cell _ _ _ F off) as K. destruct (seen w off) as [set| |]; cbn [char3].
  - destruct K as (x & K1 & K2). rewrite K1. intros b H. destruct (isin c set) eqn:E.
    + destruct (forallb (N.eqb c) set) eqn:Fb; [|discriminate]. injection H as <-.
      rewrite forallb_forall in Fb. now apply Fb.
    + injection H as <-. apply N.eqb_neq. intros ->. apply isin_false in E. contradiction.
  - rewrite K. intros b H. now injection H as <-.
  - intros b H. discriminate.
Qed.
Lemma word3_means : forall w text i, fits w text i -> forall word off,
  (word = [] -> 0 <= Z.of_nat i + off <= Z.of_nat (length text)) ->
  means (word3 w off word) (stands_atb text word (Z.of_nat i + off)).
Proof.
  intros w text i F. induction word as [|c r IH]; intros off Hb; cbn [word3].
  - intros b H. injection H as <-. apply stands_at_iff. specialize (Hb eq_refl).
    exists (firstn (Z.to_nat (Z.of_nat i + off)) text), (skipn (Z.to_nat (Z.of_nat i + off)) text).
    split; [cbn [app]; symmetry; apply firstn_skipn|]. rewrite firstn_length. lia.
  - rewrite stands_cons. pose proof (char3_means w text i off c F) as C.
    destruct (char_b text (Z.of_nat i + off)) as [x|] eqn:E.
    + apply means_and; [exact C|]. replace (Z.of_nat i + off + 1) with (Z.of_nat i + (off + 1)) by lia.
      apply IH. intros _. unfold char_b in E. destruct (Z.ltb_spec (Z.of_nat i + off) 0); [discriminate|].
      assert (Z.to_nat (Z.of_nat i + off) < length text)%nat by (apply nth_error_Some; congruence). lia.
    + intros b H. destruct b; [|reflexivity].
      destruct (char3 (seen w off) c) as [[|]|]; cbn in H.
      * now specialize (C _ eq_refl).
      * discriminate.
      * destruct (word3 w (off + 1) r) as [[|]|]; discriminate.
Qed.
Lemma words3_means : forall alpha (f : ustr -> option bool) (g : ustr -> bool) ws,
  (forall c r, means (f (c :: r)) (g (c :: r))) ->
  (forall word, g word = true -> forall c, In c word -> In c alpha) ->
  means (words3 alpha f ws) (existsb g ws).
Proof.
  intros alpha f g ws H A. induction ws as [|word ws IH]; cbn [words3 fold_right existsb].
  - intros b E. now injection E as <-.
  - apply means_or; [|exact IH]. destruct word as [|c r]; [intros b E; discriminate|].
    destruct (forallb (fun c => isin c alpha) (c :: r)) eqn:E; [apply H|].
    intros b Eb. injection Eb as <-. destruct (g (c :: r)) eqn:G; [|reflexivity].
    assert (K : forallb (fun c => isin c alpha) (c :: r) = true).
    { apply forallb_forall. intros x Hx. apply isin_In. now apply (A _ G). }
    congruence.
Qed.
Lemma stands_at_chars : forall text word p c, stands_at text word p -> In c word -> In c text.
Proof. intros text word p c (a & b & -> & _) H. apply in_or_app. right. apply in_or_app. now left. Qed.
Lemma cond3_means : forall w text i, fits w text i -> forall c, means (cond3 w c) (holdsb text i c).
Proof.
  intros w text i F c. pose proof (ft_alpha _ _ _ F) as Al.
  induction c as [d ws|n|n|n|ws|ws|ws|c IHc d IHd|c IHc d IHd|c IHc]; cbn [cond3 holdsb].
  - apply words3_means.
    + intros c r. apply word3_means; [exact F|discriminate].
    + intros word G c Hc. apply Al. apply stands_at_iff in G. now apply (stands_at_chars _ _ _ _ G).
  - pose proof (ft_left _ _ _ F) as L. pose proof (ft_first _ _ _ F) as L'. intros b H.
    destruct (Nat.leb_spec n (length (wleft w))) as [K|K].
    + injection H as <-. apply Nat.leb_le. lia.
    + destruct (wfirst w); [|discriminate]. injection H as <-. apply Nat.leb_gt. rewrite <- L'; [lia|reflexivity].
  - pose proof (ft_right _ _ _ F) as L. pose proof (ft_last _ _ _ F) as L'. intros b H.
    destruct (wlast w).
    + injection H as <-. rewrite L' by reflexivity. destruct (Nat.eqb_spec (length (wright w)) (n + 1)) as [K|K];
        [apply Nat.eqb_eq; lia|apply Nat.eqb_neq; lia].
    + destruct (Nat.ltb_spec (n + 1) (length (wright w))); [|discriminate]. injection H as <-. apply Nat.eqb_neq. lia.
  - pose proof (ft_right _ _ _ F) as L. pose proof (ft_last _ _ _ F) as L'.
    pose proof (ft_left _ _ _ F) as K. pose proof (ft_first _ _ _ F) as K'. intros b H.
    destruct (Nat.leb_spec n (length (wleft w) + length (wright w))).
    + injection H as <-. apply Nat.leb_le. lia.
    + destruct (wfirst w); [|discriminate]. destruct (wlast w); [|discriminate]. injection H as <-.
      apply Nat.leb_gt. rewrite L', <- K' by reflexivity. lia.
  - pose proof (ft_first _ _ _ F) as L. apply words3_means.
    + intros c r. destruct (wfirst w); [|intros b H; discriminate]. specialize (L eq_refl).
      assert (E : starts_with text (c :: r) = stands_atb text (c :: r) (Z.of_nat i + - Z.of_nat (length (wleft w)))).
      { rewrite L. replace (Z.of_nat i + - Z.of_nat i) with 0 by lia. unfold stands_atb.
        replace (0 <=? Z.of_nat (length text)) with true by (symmetry; apply Z.leb_le; lia). reflexivity. }
      rewrite E. apply word3_means; [exact F|discriminate].
    + intros word G c Hc. apply Al. apply starts_with_spec in G as [r ->]. apply in_or_app. now left.
  - apply words3_means; [intros c r b H; discriminate|].
    intros word G c Hc. apply Al. apply ends_with_spec in G as [r ->]. apply in_or_app. now right.
  - apply words3_means; [intros c r b H; discriminate|].
    intros word G c Hc. apply Al. apply somewhere_iff in G as [p G]. now apply (stands_at_chars _ _ _ _ G).
  - now apply means_and.
  - now apply means_or.
  - now apply means_not.
Qed.
Lemma rule3_means : forall A B (eqb : B -> B -> bool) (f : A -> B) w text i,
  (forall x y, eqb x y = true -> x = y) -> fits w text i ->
  forall r b, rule3 eqb f w r = Some b -> f (run text i r) = b.
Proof.
  intros A B eqb f w text i He F r. induction r as [a|c r1 IH1 r2 IH2]; intros b H; cbn [rule3 run] in *.
  - now injection H as <-.
  - pose proof (cond3_means w text i F c) as C. destruct (cond3 w c) as [[|]|].
    + rewrite (C _ eq_refl). now apply IH1.
    + rewrite (C _ eq_refl). now apply IH2.
    + destruct (rule3 eqb f w r1) as [x|]; [|discriminate]. destruct (rule3 eqb f w r2) as [y|]; [|discriminate].
      destruct (eqb x y) eqn:E; [|discriminate]. apply He in E. subst y. injection H as <-.
      destruct (holdsb text i c); [now apply IH1|now apply IH2].
Qed.
