(** * Double Metaphone: the program looks where the plans say. *)
From Verif Require Import Base UnicodeM Lib Helper DoubleMetaphone BaseLemmas Spec_common Spec_contextual
  Spec_double_metaphone Spec_double_metaphone_looks Rewrite_proofs Contextual_proofs DoubleMetaphone_proofs
  Double_metaphone_spec_proofs Double_metaphone_run_proofs Double_metaphone_any_proofs.
Local Open Scope Z_scope.

Section Looks.
Variable v : ustr.
Variable i : nat.
Notation index := (Z.of_nat i).
Hypothesis Upper : forall x, In x (in_places v) -> is_ascii_lower x = false.

(** What the program does for a look, for a plan. *)
Definition zplace (pl : place) : Z := match pl with Off d => index + d | Pos p => p | Tail n => len v - n end.
Definition letter_in (s : ustr) (x : option N) : res bool := Ok (match x with Some c => isin c s | None => false end).
Fixpoint ev (l : look) : res bool :=
  match l with
  | Word pl n ws => contains v (zplace pl) n ws
  | Letter pl s => bind (char_at v (zplace pl)) (letter_in s)
  | Free c => Ok (holdsb (in_places v) i c)
  | And a b => andr (ev a) (ev b)
  | Or a b => orr (ev a) (ev b)
  | Neg a => notr (ev a)
  end.
Fixpoint evp (p : plan) : res unit :=
  match p with
  | Stop => Ok tt
  | Ask l yes no => bind (ev l) (fun b : bool => if b then evp yes else evp no)
  end.

(** The tests on the index. *)
Lemma t_lt0 : (0 <? index) = Nat.leb 1 i. Proof. destruct (Z.ltb_spec 0 index), (Nat.leb_spec 1 i); lia. Qed.
Lemma t_lt1 : (1 <? index) = Nat.leb 2 i. Proof. destruct (Z.ltb_spec 1 index), (Nat.leb_spec 2 i); lia. Qed.
Lemma t_lt2 : (2 <? index) = Nat.leb 3 i. Proof. destruct (Z.ltb_spec 2 index), (Nat.leb_spec 3 i); lia. Qed.
Lemma t_lt3 : (3 <? index) = Nat.leb 4 i. Proof. destruct (Z.ltb_spec 3 index), (Nat.leb_spec 4 i); lia. Qed.
Lemma t_ltb1 : (index <? 1) = negb (Nat.leb 1 i). Proof. destruct (Z.ltb_spec index 1), (Nat.leb_spec 1 i); cbn; lia. Qed.
Lemma t_ltb2 : (index <? 2) = negb (Nat.leb 2 i). Proof. destruct (Z.ltb_spec index 2), (Nat.leb_spec 2 i); cbn; lia. Qed.
Lemma t_eq0 : (index =? 0) = negb (Nat.leb 1 i). Proof. destruct (Z.eqb_spec index 0), (Nat.leb_spec 1 i); cbn; lia. Qed.
Lemma t_eq1 : (index =? 1) = Nat.leb 1 i && negb (Nat.leb 2 i).
Proof. destruct (Z.eqb_spec index 1), (Nat.leb_spec 1 i), (Nat.leb_spec 2 i); cbn; lia. Qed.
Lemma t_len : len v = Z.of_nat (length (in_places v)).
Proof. unfold len. now rewrite in_places_len. Qed.
Lemma t_last : (index =? len v - 1) = Nat.eqb (length (in_places v)) (i + 1 + 0).
Proof. rewrite t_len. destruct (Z.eqb_spec index (Z.of_nat (length (in_places v)) - 1)), (Nat.eqb_spec (length (in_places v)) (i + 1 + 0)); lia. Qed.
Lemma t_last1 : (index + 1 =? len v - 1) = Nat.eqb (length (in_places v)) (i + 1 + 1).
Proof. rewrite t_len. destruct (Z.eqb_spec (index + 1) (Z.of_nat (length (in_places v)) - 1)), (Nat.eqb_spec (length (in_places v)) (i + 1 + 1)); lia. Qed.
Lemma t_len4 : (len v =? 4) = Nat.leb 4 (length (in_places v)) && negb (Nat.leb 5 (length (in_places v))).
Proof.
  rewrite t_len. destruct (Z.eqb_spec (Z.of_nat (length (in_places v))) 4), (Nat.leb_spec 4 (length (in_places v))),
    (Nat.leb_spec 5 (length (in_places v))); cbn; lia.
Qed.
Lemma t_follow2 : pure (3 <=? len v) &&! pure (index =? len v - 3) = Ok (Nat.eqb (length (in_places v)) (i + 1 + 2)).
Proof.
  rewrite t_len. destruct (Z.leb_spec 3 (Z.of_nat (length (in_places v)))) as [L|L]; cbn [pure andr bind].
  - unfold pure. f_equal. destruct (Z.eqb_spec index (Z.of_nat (length (in_places v)) - 3)), (Nat.eqb_spec (length (in_places v)) (i + 1 + 2)); lia.
  - f_equal. destruct (Nat.eqb_spec (length (in_places v)) (i + 1 + 2)); lia.
Qed.
Lemma t_tail : forall k ws, pure (Z.of_nat k <? len v) &&! contains v (len v - (1 + Z.of_nat k)) (S k) ws = contains v (len v - (1 + Z.of_nat k)) (S k) ws.
Proof.
  intros k ws. destruct (Z.ltb_spec (Z.of_nat k) (len v)) as [L|L]; [reflexivity|]. cbn [pure andr bind].
  unfold contains. destruct (Z.ltb_spec (len v - (1 + Z.of_nat k)) 0) as [M|M]; [reflexivity|lia].
Qed.
Lemma t_tail2 : forall ws, pure (1 <? len v) &&! contains v (len v - 2) 2 ws = contains v (len v - 2) 2 ws.
Proof. exact (t_tail 1). Qed.
Lemma t_tail1 : forall ws, pure (0 <? len v) &&! contains v (len v - 1) 1 ws = contains v (len v - 1) 1 ws.
Proof. exact (t_tail 0). Qed.
Lemma t_at_is : forall p k, at_is v p k = bind (char_at v p) (letter_in [k]).
Proof.
  intros p k. unfold at_is, letter_in. destruct (char_at v p) as [[x|]| |]; cbn [bind opt_is]; try reflexivity.
  unfold isin. cbn [existsb]. rewrite orb_false_r. now rewrite N.eqb_sym.
Qed.
Lemma char_at_in : forall p x, char_at v p = Ok (Some x) -> In x v.
Proof.
  intros p x H. unfold char_at in H. destruct (_ && _); [|discriminate]. unfold slice_from in H.
  destruct (split_byte (Z.to_nat p) v) as [[a b]|] eqn:E; [|discriminate]. cbn [bind] in H. apply split_byte_spec in E as [-> _].
  destruct b as [|y b]; [discriminate|]. cbn [hd_error] in H. injection H as <-. apply in_or_app. right. now left.
Qed.
Lemma t_at_vowel : forall p, at_vowel v p = bind (char_at v p) (letter_in $ "AEIOUY").
Proof.
  intros p. unfold at_vowel, letter_in. destruct (char_at v p) as [[x|]| |] eqn:E; cbn [bind]; try reflexivity.
  cbn [option_map]. f_equal. apply char_at_in in E. destruct (N.ltb_spec x 128) as [L|L].
  - apply up_vowel. apply Upper. apply in_flat_map. exists x. split; [exact E|]. unfold places.
    replace (x <? 128)%N with true by (symmetry; now apply N.ltb_lt). now left.
  - assert (E' : ascii_low x = x).
    { unfold ascii_low, is_ascii_upper. replace (x <=? 90)%N with false by (symmetry; apply N.leb_gt; lia). now rewrite andb_false_r. }
    rewrite E'. cbn [is_vowel]. unfold isin. cbn [existsb].
    repeat match goal with |- context[N.eqb ?k ?q] => replace (N.eqb k q) with false by (symmetry; apply N.eqb_neq; lia) end.
    reflexivity.
Qed.
Lemma t_slavo : is_slavo_germanic v = holdsb (in_places v) i SlavoGermanic.
Proof.
  rewrite <- places_slavo. unfold is_slavo_germanic, SlavoGermanic. cbn [holdsb existsb].
  change somewhereb with contains_str. rewrite orb_false_r, !contains_letter, existsb_orb, !orb_assoc. reflexivity.
Qed.

Definition quiet {A} (m : res A) : res unit := rmap (fun _ => tt) m.
Ltac tests := rewrite ?t_follow2, ?t_tail2, ?t_tail1, ?t_lt0, ?t_lt1, ?t_lt2, ?t_lt3, ?t_ltb1, ?t_ltb2, ?t_eq0, ?t_eq1, ?t_last, ?t_last1, ?t_len4,
  ?t_at_is, ?t_at_vowel, ?t_slavo.
Ltac zs := change (index - 1) with (index + (-1)); change (index - 2) with (index + (-2)); change (index - 3) with (index + (-3));
  change (index - 4) with (index + (-4)).
Lemma ask : forall A (c : res bool) (x y : res A) l yes no, c = ev l ->
  (c = Ok true -> quiet x = evp yes) -> (c = Ok false -> quiet y = evp no) ->
  quiet (bind c (fun b : bool => if b then x else y)) = evp (Ask l yes no).
Proof.
  intros A c x y l yes no E X Y. cbn [evp]. rewrite <- E. destruct c as [[|]| |]; cbn [bind quiet rmap]; auto.
Qed.
Lemma ask_free : forall A (b : bool) (x y : res A) c yes no, b = holdsb (in_places v) i c ->
  (b = true -> quiet x = evp yes) -> (b = false -> quiet y = evp no) ->
  quiet (if b then x else y) = evp (Ask (Free c) yes no).
Proof. intros A b x y c yes no E X Y. cbn [evp ev bind]. rewrite <- E. destruct b; auto. Qed.
Lemma ask_then : forall A B (m : res A) (f : A -> res B) l p,
  quiet m = evp (Check l) -> (forall a, m = Ok a -> quiet (f a) = evp p) -> quiet (bind m f) = evp (Then l p).
Proof.
  intros A B m f l p E F. unfold Check, Then in *. cbn [evp] in *. destruct m as [a| |]; cbn [bind quiet rmap] in *.
  - destruct (ev l) as [b| |]; cbn [bind] in *; [|discriminate|discriminate]. rewrite (F a eq_refl). now destruct b.
  - destruct (ev l) as [b| |]; cbn [bind] in *; [now destruct b|reflexivity|discriminate].
  - destruct (ev l) as [b| |]; cbn [bind] in *; [now destruct b|discriminate|reflexivity].
Qed.
Lemma ask_skip : forall ops b l, b = ev l -> quiet (then_skip_if ops b) = evp (Check l).
Proof. intros ops b l E. unfold then_skip_if, Check. apply ask; [exact E| |]; intros _; reflexivity. Qed.

Ltac start := tests; zs; unfold quiet, Check, Then, at_, begins, vowel, next, first, second, after_, last_, slavo, First, Second, Last;
  cbn [evp ev zplace holdsb]; rewrite ?Z.add_0_r; try reflexivity.
Ltac cut1 :=
    match goal with
      | |- context[bind (contains v ?p ?n ?ws) _] => destruct (contains v p n ws) as [[|]| |]
      | |- context[orr (contains v ?p ?n ?ws) _] => destruct (contains v p n ws) as [[|]| |]
      | |- context[andr (contains v ?p ?n ?ws) _] => destruct (contains v p n ws) as [[|]| |]
      | |- context[notr (contains v ?p ?n ?ws)] => destruct (contains v p n ws) as [[|]| |]
      | |- context[char_at v ?p] => destruct (char_at v p) as [[?x|]| |]
      | |- context[Nat.leb ?a ?b] => destruct (Nat.leb a b)
      | |- context[Nat.eqb ?a ?b] => destruct (Nat.eqb a b)
      | |- context[isin ?a ?b] => destruct (isin a b)
      | |- context[holdsb ?a ?b ?c] => destruct (holdsb a b c)
      end.
Ltac walk := repeat (cbn [bind rmap andr orr notr pure negb andb orb letter_in]; first [reflexivity | cut1]).

(** More positions after the letter than before. *)
Ltac known := repeat match goal with
  | |- context[Nat.leb ?a i] => let E := fresh "E" in destruct (Nat.leb_spec a i) as [E|E]; try (exfalso; lia); cbn [negb andb orb]
  end.
Ltac auto_see := start; known; walk.

Lemma eqb_isin2 : forall x a b, isin x [a; b] = N.eqb x a || N.eqb x b.
Proof. intros x a b. unfold isin. cbn [existsb]. now rewrite orb_false_r. Qed.
Lemma see_bacher : condition_c0 v index = ev look_bacher.
Proof.
  unfold condition_c0, look_bacher. start. destruct (contains v index 4 _) as [[|]| |]; try reflexivity.
  cbn [bind orr]. known; cbn [bind orr andr pure]; try reflexivity.
  destruct (char_at v (index + -2)) as [[x|]| |]; cbn [bind notr letter_in andr]; try reflexivity.
  1: destruct (isin x _); cbn [negb]; try reflexivity.
  all: destruct (contains v (index + -1) 3 _) as [[|]| |]; cbn [bind notr negb andr]; try reflexivity;
    destruct (char_at v (index + 2)) as [[y|]| |]; cbn [bind letter_in notr]; try reflexivity;
    unfold pure; rewrite eqb_isin2, negb_orb; reflexivity.
Qed.
Lemma see_greek : condition_ch0 v index = ev look_greek_ch.
Proof. unfold condition_ch0, look_greek_ch. auto_see. Qed.
Lemma see_germanic : condition_ch1 v index = ev look_germanic_ch.
Proof. unfold condition_ch1, contains_array, L_R_N_M_B_H_F_V_W_SPACE, look_germanic_ch. start. Qed.
Lemma see_ch : quiet (handle_ch v index) = evp plan_ch.
Proof.
  unfold handle_ch, plan_ch. apply ask; [start|reflexivity|intros _].
  apply ask; [cbn [ev]; now rewrite see_greek, see_germanic|reflexivity|intros _].
  auto_see.
Qed.
Lemma see_cc : quiet (handle_cc v index) = evp plan_cc.
Proof.
  unfold handle_cc, plan_cc. apply ask; [start|intros _|reflexivity].
  apply ask; [start|reflexivity|reflexivity].
Qed.
Lemma see_c : quiet (handle_c v index) = evp plan_c.
Proof.
  unfold handle_c, plan_c.
  apply ask; [apply see_bacher|reflexivity|intros _].
  apply ask; [start|reflexivity|intros _].
  apply ask; [start|intros _; apply see_ch|intros _].
  apply ask; [start|reflexivity|intros _].
  apply ask; [start|reflexivity|intros _].
  apply ask; [start|intros _; apply see_cc|intros _].
  apply ask; [start|reflexivity|intros _].
  apply ask; [start|intros _|intros _].
  { apply ask; [start|reflexivity|reflexivity]. }
  apply ask; [start|reflexivity|intros _].
  apply ask; [start|reflexivity|reflexivity].
Qed.
Lemma see_d : quiet (handle_d v index) = evp plan_d.
Proof.
  unfold handle_d, plan_d.
  apply ask; [start|intros _|intros _]; (apply ask; [start|reflexivity|reflexivity]).
Qed.
Lemma see_gh : quiet (handle_gh v index) = evp plan_gh.
Proof.
  unfold handle_gh, plan_gh.
  apply ask; [start|reflexivity|intros _].
  apply ask_free; [apply t_eq0|intros _|intros E0; rewrite t_eq0 in E0; apply negb_false_iff in E0].
  { apply ask; [start|reflexivity|reflexivity]. }
  apply ask; [start|reflexivity|intros _].
  apply ask; [start|reflexivity|intros _].
  start. rewrite E0. walk.
Qed.
Lemma see_gn : forall sg, sg = is_slavo_germanic v -> quiet
    (ifm pure (index =? 1) &&! at_vowel v 0 &&! pure (negb sg)
     thenm done (astr2 $ "KN" $ "N") 1
     elsem
     ifm notr (contains v (index + 2) 2 [$ "EY"]) &&! notr (at_is v (index + 1) (# "Y"))
         &&! pure (negb sg)
     thenm done (astr2 $ "N" $ "KN") 1
     elsem done (astr $ "KN") 1) = evp plan_gn.
Proof.
  intros sg ->. unfold plan_gn. apply ask; [start|reflexivity|intros _]. destruct (is_slavo_germanic v); start; walk.
Qed.
Lemma see_g : quiet (handle_g v (is_slavo_germanic v) index) = evp plan_g.
Proof.
  unfold handle_g, plan_g, contains_array, ES_EP_EB_EL_EY_IB_IL_IN_IE_EI_ER.
  apply ask; [start|intros _; apply see_gh|intros _].
  apply ask; [start|intros _; now apply see_gn|intros _].
  apply ask; [start|reflexivity|intros _].
  apply ask; [start|reflexivity|intros _].
  apply ask; [start|intros _|intros _].
  - apply ask; [start|reflexivity|intros _]. apply ask; [start|reflexivity|reflexivity].
  - apply ask; [start|reflexivity|reflexivity].
Qed.
Lemma see_h : quiet (handle_h v index) = evp plan_h.
Proof. unfold handle_h, plan_h. apply ask; [start|reflexivity|reflexivity]. Qed.
Lemma see_j : quiet (handle_j v (is_slavo_germanic v) index) = evp plan_j.
Proof.
  unfold handle_j, plan_j, contains_array, L_T_K_S_N_M_B_Z.
  apply ask; [start|intros _|intros F].
  { apply ask; [start|reflexivity|reflexivity]. }
  assert (J : contains v index 4 [$ "JOSE"] = Ok false).
  { unfold orr in F. destruct (contains v index 4 _) as [[|]| |]; cbn [bind] in F; try discriminate. reflexivity. }
  rewrite J. cbn [notr bind negb]. rewrite !t_eq0, !t_lt0.
  assert (G : forall ops, quiet (then_skip_if ops (at_is v (index + 1) (# "J"))) = evp (Check (next $ "J"))).
  { intros ops. apply ask_skip. start. }
  cbn [evp]. destruct (Nat.leb_spec 1 i) as [L|L]; cbn [negb].
  - replace (ev first) with (@Ok bool false) by (unfold first, First; cbn [ev holdsb]; destruct (Nat.leb_spec 1 i); [reflexivity|lia]).
    cbn [pure andr bind orr].
    assert (V : ev (And (And (vowel (Off (-1))) (Neg slavo)) (next $ "AO"))
      = at_vowel v (index - 1) &&! pure (negb (is_slavo_germanic v)) &&! (at_is v (index + 1) (# "A") ||! at_is v (index + 1) (# "O"))).
    { start.
      destruct (char_at v (index + -1)) as [[x|]| |]; cbn [bind letter_in andr]; try reflexivity.
      destruct (isin x _), (holdsb (in_places v) i SlavoGermanic); cbn [bind andr notr pure negb]; try reflexivity.
      destruct (char_at v (index + 1)) as [[y|]| |]; cbn [bind letter_in orr]; try reflexivity.
      unfold letter_in, isin. cbn [existsb bind]. rewrite !orb_false_r. destruct (y =? _)%N; cbn [orb]; [reflexivity|]. destruct (y =? _)%N; reflexivity. }
    rewrite V. unfold andr at 3.
    cbn [bind].
    destruct (at_vowel v (index - 1) &&! pure (negb (is_slavo_germanic v)) &&! (at_is v (index + 1) 65%N ||! at_is v (index + 1) 79%N))
      as [[|]| |]; cbn [bind]; try reflexivity; [apply G|].
    unfold last_, Last. cbn [ev holdsb]. rewrite <- t_last. destruct (index =? len v - 1); cbn [bind]; [apply G|].
    match goal with |- _ = ?r => change r with (evp (Then (And (Neg (at_ 1 1 (letters $ "LTKSNMBZ"))) (Neg (at_ (-1) 1 (letters $ "SKL")))) (Check (next $ "J")))) end.
    apply ask_then; [|intros; apply G]. apply ask; [start|reflexivity|reflexivity].
  - replace (ev first) with (@Ok bool true) by (unfold first, First; cbn [ev holdsb]; destruct (Nat.leb_spec 1 i); [lia|reflexivity]).
    cbn [pure andr bind]. apply G.
Qed.
Lemma see_l : quiet (handle_l v index) = evp plan_l.
Proof.
  unfold handle_l, plan_l. apply ask; [start|intros _|reflexivity].
  apply ask; [|reflexivity|reflexivity]. unfold condition_l0. start.
  change (letters [65%N; 79%N]) with [[65%N]; [79%N]].
  match goal with |- bind ?c (fun b : bool => if b then Ok true else ?e) = orr ?c' ?e' =>
    assert (E1 : e = e'); [|rewrite E1; reflexivity] end.
  destruct (Z.ltb_spec 0 (len v)) as [L|L].
  - unfold andr at 1. destruct (orr _ _) as [[|]| |]; reflexivity.
  - unfold contains at 1 2 4 5. replace (len v - 2 <? 0) with true by (symmetry; apply Z.ltb_lt; lia).
    replace (len v - 1 <? 0) with true by (symmetry; apply Z.ltb_lt; lia). reflexivity.
Qed.
Lemma see_m : forall ops, quiet (then_skip_if ops (condition_m0 v index)) = evp plan_m.
Proof. intros ops. apply ask_skip. unfold condition_m0. start. Qed.
Lemma see_p : quiet (handle_p v index) = evp plan_p.
Proof. unfold handle_p, plan_p. apply ask; [start|reflexivity|intros _]. apply ask_skip. start. Qed.
Lemma see_r : quiet (handle_r v (is_slavo_germanic v) index) = evp plan_r.
Proof.
  unfold handle_r, plan_r. apply ask_then; [|intros; apply ask_skip; start].
  apply ask; [start|reflexivity|reflexivity].
Qed.
Lemma see_sc : quiet (handle_sc v index) = evp plan_sc.
Proof.
  unfold handle_sc, plan_sc. apply ask; [start|intros _|intros _].
  - apply ask; [start|intros _|intros _].
    + apply ask; [start|reflexivity|reflexivity].
    + start. walk.
  - apply ask; [start|reflexivity|reflexivity].
Qed.
Lemma see_s : quiet (handle_s v (is_slavo_germanic v) index) = evp plan_s.
Proof.
  unfold handle_s, plan_s.
  apply ask; [start|reflexivity|intros _].
  apply ask; [start|reflexivity|intros _].
  apply ask; [start|intros _|intros _].
  { apply ask; [start|reflexivity|reflexivity]. }
  apply ask; [start|intros _; now destruct (is_slavo_germanic v)|intros _].
  apply ask; [start|intros _; apply ask_skip; start|intros _].
  apply ask; [start|intros _; apply see_sc|intros _].
  apply ask_then; [|intros; apply ask_skip; start].
  apply ask; [start|reflexivity|reflexivity].
Qed.
Lemma see_t : quiet (handle_t v index) = evp plan_t.
Proof.
  unfold handle_t, plan_t.
  apply ask; [start|reflexivity|intros _].
  apply ask; [start|intros _|intros _; apply ask_skip; start].
  apply ask; [start|reflexivity|reflexivity].
Qed.
Lemma see_w : quiet (handle_w v index) = evp plan_w.
Proof.
  unfold handle_w, plan_w.
  apply ask; [start|reflexivity|intros _].
  apply ask; [start|intros E|intros _].
  { rewrite t_eq0, t_at_vowel in *. destruct (char_at v (index + 1)) as [[x|]| |]; cbn [bind letter_in] in *.
    - now destruct (isin x _).
    - reflexivity.
    - destruct (Nat.leb 1 i); discriminate E.
    - destruct (Nat.leb 1 i); discriminate E. }
  apply ask; [start|reflexivity|intros _].
  apply ask; [start|reflexivity|reflexivity].
Qed.
Lemma see_x : quiet (handle_x v index) = evp plan_x.
Proof.
  unfold handle_x, plan_x. apply ask_free; [apply t_eq0|reflexivity|intros _].
  apply ask_then; [|intros; apply ask_skip; start].
  start. walk.
Qed.
Lemma see_z : quiet (handle_z v (is_slavo_germanic v) index) = evp plan_z.
Proof.
  unfold handle_z, plan_z. apply ask; [start|reflexivity|intros _].
  apply ask_then; [|intros; apply ask_skip; start].
  apply ask; [start|reflexivity|reflexivity].
Qed.
End Looks.

(** ** What the looks answer *)
Lemma app_split_len : forall (a b c d : ustr), a ++ b = c ++ d -> length a = length c -> a = c /\ b = d.
Proof.
  induction a as [|x a IH]; intros b [|y c] d E L; try discriminate L; [now split|].
  cbn [app] in E. injection E as -> E. injection L as L. destruct (IH b c d E L) as [-> ->]. now split.
Qed.
Fixpoint fair (l : look) : bool :=
  match l with
  | Word _ n ws => forallb plain ws && Nat.leb 1 n
  | Letter _ s => plain s
  | Free _ => true
  | And a b => fair a && fair b
  | Or a b => fair a && fair b
  | Neg a => fair a
  end.
Fixpoint fair_plan (p : plan) : bool :=
  match p with Stop => true | Ask l y n => fair l && fair_plan y && fair_plan n end.

Lemma word_look : forall v p n ws, forallb plain ws = true -> (1 <= n)%nat ->
  let torn := 0 <= p /\ p + Z.of_nat n <= Z.of_nat (length (in_places v)) /\ (~ boundary v p \/ ~ boundary v (p + Z.of_nat n)) in
  match contains v p n ws with
  | Ok b => ~ torn /\ (b = true <-> exists w, In w ws /\ length w = n /\ stands_at (in_places v) w p)
  | Panic => torn
  | NoFuel => False
  end.
Proof.
  intros v p n ws P L torn. unfold contains. destruct (Z.ltb_spec p 0) as [N0|N0].
  { split; [intros [K _]; lia|]. split; [discriminate|]. intros (w & _ & _ & a & b & _ & E). lia. }
  destruct (Nat.leb_spec (Z.to_nat p + n) (blen v)) as [K|K].
  2: { split; [intros (_ & K2 & _); rewrite in_places_len in K2; lia|]. split; [discriminate|].
       intros (w & _ & Lw & a & b & E & La). apply (f_equal (@length N)) in E. rewrite !app_length, in_places_len in E. lia. }
  unfold slice. replace (Nat.ltb (Z.to_nat p + n) (Z.to_nat p)) with false by (symmetry; apply Nat.ltb_ge; lia).
  replace (Z.to_nat p + n - Z.to_nat p)%nat with n by lia.
  destruct (split_byte (Z.to_nat p) v) as [[x r]|] eqn:E.
  2: { cbn [bind]. split; [exact N0|]. split; [rewrite in_places_len; lia|]. left. intros (a & b & -> & La).
       rewrite in_places_len in La. rewrite <- La, Nat2Z.id, split_byte_app in E. discriminate. }
  apply split_byte_spec in E as [Ev Ex].
  assert (B1 : boundary v p). { exists x, r. split; [exact Ev|]. rewrite in_places_len. lia. }
  unfold slice_to. destruct (split_byte n r) as [[t r']|] eqn:E.
  - cbn [bind]. apply split_byte_spec in E as [Er Et]. split.
    + intros (_ & _ & [H|H]); apply H; [exact B1|]. exists (x ++ t), r'. split; [rewrite <- app_assoc, <- Er; exact Ev|].
      rewrite in_places_len, blen_app. lia.
    + rewrite existsb_exists. split.
      * intros (w & Hw & K1). apply seq_eqb_eq in K1. subst t. exists w. split; [exact Hw|].
        rewrite forallb_forall in P. specialize (P w Hw). apply plain_ascii in P. rewrite ascii_blen in Et by exact P.
        split; [exact Et|]. exists (in_places x), (in_places r'). split.
        -- rewrite Ev, Er, !in_places_app. now rewrite (in_places_of_ascii w P).
        -- rewrite in_places_len. lia.
      * intros (w & Hw & Lw & a & b & E & La). exists w. split; [exact Hw|]. apply seq_eqb_eq.
        rewrite forallb_forall in P. specialize (P w Hw).
        rewrite Ev, in_places_app in E. apply app_split_len in E as [_ E]; [|rewrite in_places_len; lia].
        destruct (places_plain _ _ _ P E) as (r2 & E2 & _). rewrite Er in E2.
        assert (S1 : split_byte n (t ++ r') = Some (t, r')) by (now apply split_byte_spec).
        assert (S2 : split_byte n (t ++ r') = Some (w, r2)).
        { apply split_byte_spec. split; [exact E2|]. rewrite ascii_blen by now apply plain_ascii. exact Lw. }
        congruence.
  - cbn [bind]. split; [exact N0|]. split; [rewrite in_places_len; lia|]. right. intros (a & b & Ea & La).
    rewrite in_places_len in La. rewrite Ev in Ea. apply app_eq_app in Ea as [l [[E1 E2]|[E1 E2]]].
    + subst. rewrite blen_app in *. lia.
    + subst. rewrite blen_app in La. assert (Q : n = blen l) by lia. rewrite Q, split_byte_app in E. discriminate.
Qed.
Lemma letter_look : forall v p s, plain s = true ->
  let torn := 0 <= p < Z.of_nat (length (in_places v)) /\ ~ boundary v p in
  match bind (char_at v p) (letter_in s) with
  | Ok b => ~ torn /\ (b = true <-> exists c, In c s /\ stands_at (in_places v) [c] p)
  | Panic => torn
  | NoFuel => False
  end.
Proof.
  intros v p s P torn. unfold char_at. destruct (_ && _) eqn:C.
  - apply andb_true_iff in C as [C1 C2]. apply Z.leb_le in C1. apply Z.ltb_lt in C2. rewrite t_len in C2.
    unfold slice_from. destruct (split_byte (Z.to_nat p) v) as [[x r]|] eqn:E.
    + apply split_byte_spec in E as [Ev Ex]. cbn [bind]. unfold letter_in. cbn [bind].
      split; [intros [_ H]; apply H; exists x, r; split; [exact Ev|rewrite in_places_len; lia]|].
      rewrite Ev, in_places_app, app_length, in_places_len in C2.
      destruct r as [|c r]; [cbn in C2; lia|]. cbn [hd_error]. rewrite isin_In. split.
      * intros Hc. exists c. split; [exact Hc|]. exists (in_places x), (in_places r). split; [|rewrite in_places_len; lia].
        rewrite Ev, in_places_app. change (c :: r) with ([c] ++ r). rewrite in_places_app.
        rewrite (in_places_of_ascii [c]); [reflexivity|]. intros y [<-|[]]. now apply (plain_ascii s P).
      * intros (k & Hk & a & b & E & La). rewrite Ev, in_places_app in E. apply app_split_len in E as [_ E]; [|rewrite in_places_len; lia].
        assert (Pk : plain [k] = true).
        { unfold plain in *. cbn [forallb]. rewrite forallb_forall in P. now rewrite (P k Hk). }
        destruct (places_plain _ _ _ Pk E) as (r2 & E2 & _). injection E2 as -> _. exact Hk.
    + cbn [bind]. split; [lia|]. intros (a & b & -> & La).
      rewrite in_places_len in La. rewrite <- La, Nat2Z.id, split_byte_app in E. discriminate.
  - cbn [bind]. unfold letter_in. rewrite t_len in C. split.
    + intros [H _]. apply andb_false_iff in C as [C|C]; [apply Z.leb_gt in C|apply Z.ltb_ge in C]; lia.
    + split; [discriminate|]. intros (c & _ & a & b & E & La). apply (f_equal (@length N)) in E.
      rewrite !app_length in E. cbn [length] in E.
      apply andb_false_iff in C as [C|C]; [apply Z.leb_gt in C|apply Z.ltb_ge in C]; lia.
Qed.
Lemma ev_spec : forall v i l, fair l = true ->
  match ev v i l with
  | Ok b => ~ torn_look v i l /\ (b = true <-> seen v i l)
  | Panic => torn_look v i l
  | NoFuel => False
  end.
Proof.
  intros v i l. assert (Z : forall pl, zplace v i pl = byte_of v i pl) by (intros [d|p|n]; cbn; rewrite ?t_len; reflexivity).
  induction l as [pl n ws|pl s|c|a IHa b IHb|a IHa b IHb|a IHa]; cbn [fair ev torn_look seen]; intros F.
  - apply andb_true_iff in F as [F1 F2]. apply Nat.leb_le in F2. rewrite Z. now apply word_look.
  - rewrite Z. now apply letter_look.
  - split; [tauto|]. apply holds_iff.
  - apply andb_true_iff in F as [Fa Fb]. specialize (IHa Fa). specialize (IHb Fb). unfold andr.
    destruct (ev v i a) as [[|]| |]; cbn [bind]; try tauto.
    + destruct (ev v i b) as [y| |]; try tauto. 
    + destruct IHa as [T S]. assert (~ seen v i a) by (intros H; now apply S in H). split; [tauto|]. split; [discriminate|tauto].
  - apply andb_true_iff in F as [Fa Fb]. specialize (IHa Fa). specialize (IHb Fb). unfold orr.
    destruct (ev v i a) as [[|]| |]; cbn [bind]; try tauto.
    assert (~ seen v i a) by (intros H; now apply (proj2 IHa) in H).
    destruct (ev v i b) as [y| |]; tauto.
  - specialize (IHa F). unfold notr. destruct (ev v i a) as [[|]| |]; cbn [bind negb]; try tauto.
    + split; [tauto|]. split; [discriminate|]. intros H. elim H. now apply (proj2 IHa).
    + split; [tauto|]. split; [|reflexivity]. intros _ H. apply (proj2 IHa) in H. discriminate.
Qed.
Lemma evp_spec : forall v i p, fair_plan p = true ->
  match evp v i p with Ok _ => ~ torn_plan v i p | Panic => torn_plan v i p | NoFuel => False end.
Proof.
  intros v i. induction p as [|l y IHy n IHn]; cbn [fair_plan evp torn_plan]; intros F; [tauto|].
  apply andb_true_iff in F as [F Fn]. apply andb_true_iff in F as [Fl Fy]. specialize (IHy Fy). specialize (IHn Fn).
  pose proof (ev_spec v i l Fl) as S. destruct (ev v i l) as [[|]| |]; cbn [bind]; try tauto.
  - assert (seen v i l) by (now apply (proj2 S)). destruct (evp v i y); tauto.
  - assert (~ seen v i l) by (intros H; now apply (proj2 S) in H). destruct (evp v i n); tauto.
Qed.

Definition plan_of (c : N) : plan := match find (fun x => N.eqb c (fst x)) plans with Some (_, p) => p | None => Stop end.
Lemma plan_of_fair : forall c, fair_plan (plan_of c) = true.
Proof.
  intros c. unfold plan_of. destruct (find _ plans) as [[k p]|] eqn:E; [|reflexivity]. apply find_some in E as [H _].
  assert (A : forallb (fun x => fair_plan (snd x)) plans = true) by (vm_compute; reflexivity).
  rewrite forallb_forall in A. exact (A _ H).
Qed.
Lemma plan_of_in : forall c p, In (c, p) plans -> plan_of c = p.
Proof.
  intros c p H. unfold plans in H. cbn [In] in H.
  repeat (destruct H as [H|H]; [injection H as <- <-; reflexivity|]). destruct H.
Qed.
Lemma plan_of_some : forall c, plan_of c = Stop \/ In (c, plan_of c) plans.
Proof.
  intros c. unfold plan_of. destruct (find _ plans) as [[k p]|] eqn:E; [right|now left]. apply find_some in E as [H E].
  cbn [fst] in E. apply N.eqb_eq in E. now subst.
Qed.
Lemma dm_char_plan : forall v i c, (forall x, In x (in_places v) -> is_ascii_lower x = false) ->
  quiet (dm_char v (is_slavo_germanic v) (Z.of_nat i) c) = evp v i (plan_of c).
Proof.
  intros v i c U. unfold dm_char. destruct (isin c $ "AEIOUY") eqn:V.
  { apply isin_In in V. cbn [In] in V. repeat (destruct V as [<-|V]; [destruct (Z.of_nat i =? 0); reflexivity|]). destruct V. }
  assert (G : forall ops k, quiet (then_skip_if ops (at_is v (Z.of_nat i + 1) k)) = evp v i (Check (next [k]))).
  { intros ops k. apply ask_skip. unfold next. cbn [ev zplace]. now rewrite t_at_is. }
  repeat match goal with |- quiet (if N.eqb c ?k then _ else _) = _ => destruct (N.eqb_spec c k) as [->|?];
    [first [reflexivity | apply G | now apply see_c | now apply see_d | now apply see_g | now apply see_h | now apply see_j | now apply see_l
      | now apply see_m | now apply see_p | now apply see_r | now apply see_s | now apply see_t | now apply see_w | now apply see_x | now apply see_z]|] end.
  unfold plan_of, plans. cbn [find fst].
  repeat match goal with |- context[N.eqb c ?k] => replace (N.eqb c k) with false by (symmetry; apply N.eqb_neq; assumption) end.
  reflexivity.
Qed.

(** ** The loop *)
Lemma complete_iff : forall max p a, ascii_str p -> ascii_str a ->
  dm_is_complete max (dm_of (dm_cut max p) (dm_cut max a)) = false <-> unfinished max p a.
Proof.
  intros [n|] p a Ap Aa; cbn [dm_is_complete unfinished dm_cut dm_of dm_primary dm_alternate]; [|tauto].
  rewrite !ascii_blen by (now apply ascii_str_firstn). rewrite !firstn_length, andb_false_iff, !Nat.leb_gt. lia.
Qed.
Lemma dm_loop_torn : forall max rest before skip p a,
  (forall x, In x (in_places (before ++ rest)) -> is_ascii_lower x = false) -> ascii_str p -> ascii_str a ->
  let m := dm_loop (before ++ rest) max (is_slavo_germanic (before ++ rest)) skip
    (char_indices_from (blen before) rest) (dm_of (dm_cut max p) (dm_cut max a)) in
  (m = Panic <-> dm_torn max (before ++ firstn skip rest) (skipn skip rest) p a) /\ m <> NoFuel.
Proof.
  intros max. induction rest as [|c rest IH]; intros before skip p a U Ap Aa.
  - cbv zeta. cbn [char_indices_from dm_loop]. split; [|discriminate]. split; [discriminate|]. rewrite skipn_nil. intros H. inversion H.
  - assert (Ev : before ++ c :: rest = (before ++ [c]) ++ rest) by (now rewrite <- app_assoc).
    assert (Eb : (blen before + utf8_len c)%nat = blen (before ++ [c])).
    { rewrite blen_app. cbn [blen]. lia. }
    cbv zeta. cbn [char_indices_from dm_loop]. rewrite Eb. destruct skip as [|k].
    2: { cbn [firstn skipn]. rewrite Ev in *. specialize (IH (before ++ [c]) k p a U Ap Aa). cbv zeta in IH.
         destruct IH as [I1 I2]. split; [|exact I2]. rewrite I1, <- app_assoc. reflexivity. }
    cbn [firstn skipn]. rewrite app_nil_r.
    pose proof (complete_iff max p a Ap Aa) as CI. destruct (dm_is_complete _ _).
    { split; [|discriminate]. split; [discriminate|]. intros H. exfalso.
      assert (unfinished max p a) by (inversion H; assumption). apply CI in H0. discriminate. }
    assert (UF : unfinished max p a) by (now apply CI). clear CI.
    pose proof (dm_char_plan (before ++ c :: rest) (blen before) c U) as DP.
    pose proof (evp_spec (before ++ c :: rest) (blen before) (plan_of c) (plan_of_fair c)) as ES.
    rewrite <- DP in ES. destruct (dm_char _ _ _ c) as [[ops k]| |] eqn:Hd; cbn [quiet rmap bind] in ES; cbn [bind].
    2: { split; [|discriminate]. split; [intros _|reflexivity].
         apply (dt_now max before c rest p a (plan_of c)); [exact UF| |rewrite in_places_len; exact ES].
         destruct (plan_of_some c) as [E|E]; [|exact E]. rewrite E in ES. destruct ES. }
    2: { destruct ES. }
    assert (GV : run (in_places (before ++ c :: rest)) (blen before) (lookup double_metaphone_table_any (nothing 0) c)
               = (flat_map op_primary ops, flat_map op_alternate ops, k)).
    { destruct (N.ltb_spec c 128) as [L|L].
      - pose proof (dm_char_run (in_places (before ++ c :: rest)) (length (in_places before)) (in_places_ascii _) U c (nth_places before c rest L)) as R.
        pose proof (ref_dm_char _ _ _ _ _ Hd) as Hd'. rewrite places_slavo, in_places_len, Hd' in R. cbn [rmap bind] in R.
        rewrite lookup_any_ascii by exact L. injection R as R. symmetry. exact R.
      - rewrite dm_char_high in Hd by exact L. rewrite run_high by exact L. injection Hd as <- <-. cbv zeta.
        destruct (N.eqb c (# "Ç")); [reflexivity|]. destruct (N.eqb c (# "Ñ")); reflexivity. }
    pose proof (step_good_ascii _ _ _ (dm_char_good _ _ _ _ _ Hd)) as Gd.
    assert (AP : dm_apply max (dm_of (dm_cut max p) (dm_cut max a)) ops
      = Ok (dm_of (dm_cut max (p ++ flat_map op_primary ops)) (dm_cut max (a ++ flat_map op_alternate ops)))).
    { destruct max as [n|]; cbn [dm_cut]; [now apply dm_apply_cut|apply dm_apply_none]. }
    rewrite AP. cbn [bind]. clear AP.
    assert (Ap' : ascii_str (p ++ flat_map op_primary ops) /\ ascii_str (a ++ flat_map op_alternate ops)).
    { destruct (flat_map_ascii _ Gd) as [F1 F2]. split; apply ascii_str_app; now split. }
    destruct Ap' as [Ap' Aa']. rewrite Ev in U |- *.
    specialize (IH (before ++ [c]) k _ _ U Ap' Aa'). cbv zeta in IH. destruct IH as [IH NF]. split; [|exact NF].
    rewrite IH. rewrite <- app_assoc. cbn [app]. split.
    + intros H. eapply dt_later; [exact UF| | |exact H].
      * now apply (rule_of_iff _ _ _ _ _ dm_table_any_disjoint).
      * apply gives_iff. rewrite in_places_len. now symmetry.
    + intros H. inversion H as [? ? ? ? ? pl _ Hpl T|? ? ? r ? ? p' a' k' _ Ho Hg Hr]; subst.
      * apply plan_of_in in Hpl. subst pl. rewrite in_places_len in T. now elim ES.
      * apply (rule_of_iff _ _ _ _ _ dm_table_any_disjoint) in Ho. subst r. apply gives_iff in Hg. rewrite in_places_len, GV in Hg.
        injection Hg as -> -> ->. exact Hr.
Qed.
