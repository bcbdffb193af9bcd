(** * C95, Metaphone: the fifth encoding of a name is final. *)
From Verif Require Import Base UnicodeM Lib Helper Metaphone BaseLemmas Spec_common Spec_rewrite Spec_contextual
  Spec_metaphone Rewrite_proofs Contextual_proofs UnicodeLemmas UnicodeReal Upper_ok Cologne_proofs Metaphone_proofs
  Codes_proofs Metaphone_spec_proofs Metaphone_doubled_proofs Blank_metaphone_proofs Props_metaphone Props_again.
Local Open Scope N_scope.

(** What a letter of a code gives, after [p] and before [n]. *)
Definition piece (p : option N) (c : N) (n : option N) : ustr :=
  if c =? # "B" then (if opt_is p (# "M") && match n with None => true | _ => false end then [] else [c])
  else if c =? # "P" then (if opt_is n (# "H") then $ "F" else [c])
  else if c =? # "S" then (if opt_is n (# "H") then $ "X" else [c])
  else if c =? # "T" then (if opt_is n (# "H") then $ "0" else [c])
  else if c =? # "X" then $ "KS"
  else if isin c $ "HWY0" then []
  else [c].
Fixpoint pieces (p : option N) (b : ustr) : ustr :=
  match b with
  | [] => []
  | c :: r => (if opt_is p c then [] else piece p c (hd_error r)) ++ pieces (Some c) r
  end.

Lemma sym_piece : forall first long p n m2 c,
  (forall x, n = Some x -> In x mt_consonants) -> (forall x, p = Some x -> In x (mt_vowels ++ mt_consonants)) ->
  (first = true /\ In c mt_vowels \/ In c mt_consonants) -> sym first long p n m2 c = (piece p c n, 0%nat).
Proof.
  intros first long p n m2 c Hn Hp Hc.
  assert (Nv : isin_opt n Vowel = false).
  { destruct n as [x|]; [|reflexivity]. specialize (Hn x eq_refl). cbn in Hn. repeat (destruct Hn as [<-|Hn]; [reflexivity|]). destruct Hn. }
  assert (Ni : opt_is n (# "I") = false).
  { destruct n as [x|]; [|reflexivity]. specialize (Hn x eq_refl). cbn in Hn. repeat (destruct Hn as [<-|Hn]; [reflexivity|]). destruct Hn. }
  assert (Nc : opt_is n (# "C") = false).
  { destruct n as [x|]; [|reflexivity]. specialize (Hn x eq_refl). cbn in Hn. repeat (destruct Hn as [<-|Hn]; [reflexivity|]). destruct Hn. }
  assert (Pc : isin_opt p $ "C" = false).
  { destruct p as [x|]; [|reflexivity]. specialize (Hp x eq_refl). cbn in Hp. repeat (destruct Hp as [<-|Hp]; [reflexivity|]). destruct Hp. }
  assert (H1 : isin_opt n $ "H" = opt_is n (# "H")) by apply isin_opt1.
  assert (M1 : isin_opt p $ "M" = opt_is p (# "M")) by apply isin_opt1.
  cbn [mt_vowels mt_consonants] in Hc.
  destruct Hc as [[-> Hc]|Hc]; cbn in Hc;
    repeat (destruct Hc as [<-|Hc]; [
      unfold sym, piece; cbv zeta; cbv [isin existsb N.eqb Pos.eqb orb Vowel mt_vowels];
      fold Vowel; rewrite ?Nv, ?Ni, ?Nc, ?Pc, ?H1, ?M1; destruct (opt_is n (# "H")); cbn [andb orb];
      repeat match goal with |- context[if ?x then _ else _] => destruct x end; reflexivity|]); destruct Hc.
Qed.

Lemma code_upper : forall t, mt_code_ok t -> ascii_str t /\ map ascii_up t = t /\ (forall x, In x t -> is_ascii_lower x = false).
Proof.
  intros t H. pose proof (mt_code_ok_ascii t H) as A. destruct H as [H _].
  assert (U : forall x, In x t -> ascii_up x = x /\ is_ascii_lower x = false).
  { intros x Hx. apply H in Hx. cbn in Hx. repeat (destruct Hx as [<-|Hx]; [split; reflexivity|]). destruct Hx. }
  split; [exact A|]. split; [|intros x Hx; now apply U].
  clear A H. induction t as [|x t IH]; [reflexivity|]. cbn. f_equal; [apply U; now left|]. apply IH. intros y Hy. apply U. now right.
Qed.

Lemma loop_pieces : forall t, mt_code_ok t -> forall chars i code, chars = skipn i t ->
  mt_loop None t (length t) i 0 chars code = Ok (code ++ pieces (prev t i) chars).
Proof.
  intros t Ht. destruct (code_upper t Ht) as (A & _ & L). destruct Ht as [V C].
  assert (At : forall j x, nth_error t (j + 1) = Some x -> In x mt_consonants).
  { intros j x Hx. apply C. replace (j + 1)%nat with (S j) in Hx by lia. destruct t; [discriminate|]. cbn in Hx |- *; now apply nth_error_In in Hx. }
  induction chars as [|c r IH]; intros i code E; cbn [mt_loop pieces]; [now rewrite app_nil_r|].
  assert (Hc : nth_error t i = Some c) by (rewrite nth_skipn, <- E; reflexivity).
  assert (Er : r = skipn (i + 1) t).
  { replace (i + 1)%nat with (1 + i)%nat by lia. rewrite <- skipn_skipn, <- E. reflexivity. }
  assert (N1 : n1 t i = hd_error r) by (unfold n1; now rewrite nth_skipn, <- Er).
  cbn [mt_full]. rewrite prev_b.
  assert (X : (if (c =? # "C") || negb (opt_is (prev t i) c) then mt_symbol t (length t) i c else Ok ([], 0%nat))
     = Ok (if opt_is (prev t i) c then [] else piece (prev t i) c (hd_error r), 0%nat)).
  { assert (NC : (c =? # "C") = false).
    { apply nth_error_In in Hc. apply V in Hc. cbn in Hc. repeat (destruct Hc as [<-|Hc]; [reflexivity|]). destruct Hc. }
    rewrite NC. destruct (opt_is (prev t i) c) eqn:P; cbn [orb negb]; [reflexivity|].
    rewrite mt_symbol_run by auto. rewrite (run_sym t i c Hc), sym_piece, N1; [reflexivity|..].
    - rewrite N1. intros x Hx. unfold n1 in N1. rewrite <- N1 in Hx. now apply At in Hx.
    - intros x Hx. unfold prev in Hx. destruct (Nat.ltb 0 i); [|discriminate]. apply V. now apply nth_error_In in Hx.
    - destruct i as [|i]; [|right; apply (At i); now rewrite Nat.add_1_r].
      apply nth_error_In in Hc. apply V in Hc. apply in_app_or in Hc as [Hc|Hc]; [now left|now right]. }
  rewrite X. cbn [bind mt_truncate]. replace (S i) with (i + 1)%nat by lia. rewrite (IH (i + 1)%nat _ Er).
  rewrite (prev_next t i c Hc), <- app_assoc. reflexivity.
Qed.

Definition limited (max : option nat) (code : ustr) : ustr := match max with Some n => firstn n code | None => code end.
Definition next_code (max : option nat) (c : ustr) : ustr :=
  match c with [_] => c | _ => limited max (pieces None (mt_local c)) end.

Lemma local_ok : forall c, mt_code_ok c -> mt_code_ok (mt_local c).
Proof.
  intros [|x c] H; [exact H|]. pose proof H as [H1 H2].
  assert (T : mt_code_ok c).
  { split; [intros y Hy; apply H1; now right|]. intros y Hy. apply H2. cbn. destruct c; [destruct Hy|now right]. }
  unfold mt_local. destruct (isin x _); [destruct (opt_is _ _); assumption|]. destruct (x =? # "A"); [destruct (opt_is _ _); assumption|].
  assert (K : forall k r, In k mt_consonants -> (forall y, In y r -> In y mt_consonants) -> mt_code_ok (k :: r)).
  { intros k r Hk Hr. split; [|exact Hr]. intros y [<-|Hy]; apply in_or_app; auto. }
  destruct (x =? # "W").
  - destruct (opt_is _ _); [assumption|]. destruct (opt_is _ _); [|assumption].
    apply K; [vm_compute; tauto|]. intros y Hy. apply H2. cbn. destruct c; [destruct Hy|now right].
  - destruct (x =? # "X"); [|assumption]. apply K; [vm_compute; tauto|exact H2].
Qed.

Lemma next_encoded : forall u max c, mt_code_ok c -> metaphone_encode u max c = Ok (next_code max c).
Proof.
  intros u max c H. destruct (code_upper c H) as (A & U & _).
  assert (E : str_upper u c = c) by now rewrite str_upper_ascii.
  assert (B : blen c = length c) by now apply ascii_blen.
  destruct (Nat.eq_dec (length c) 1) as [E1|E1].
  - destruct c as [|x [|]]; try discriminate E1. unfold metaphone_encode. rewrite E, B. reflexivity.
  - assert (F : metaphone_encode u None c = Ok (pieces None (mt_local c))).
    { unfold metaphone_encode. rewrite E, B. replace (Nat.eqb _ 1) with false by (symmetry; now apply Nat.eqb_neq).
      pose proof (local_ok c H) as L. rewrite ascii_blen by now apply code_upper. now rewrite loop_pieces. }
    assert (Q : next_code max c = limited max (pieces None (mt_local c))) by (destruct c as [|x [|]]; [reflexivity|now destruct E1|reflexivity]).
    rewrite Q. destruct max as [n|]; [|exact F]. apply C23_max_length_is_truncation; [now rewrite E, B|exact F].
Qed.

(** ** What is left after each time *)
Definition without (set : ustr) (c : ustr) : Prop := forall x, In x c -> ~ In x set.
Definition no_doubles (c : ustr) : Prop := forall a x b, c <> a ++ x :: x :: b.
Definition small (c : ustr) : Prop := (length c <= 1)%nat.
Definition settled (c : ustr) : Prop := no_doubles c /\ without $ "XHWY0" c
  /\ (forall a, c <> a ++ $ "MB") /\ (forall r, c <> # "K" :: # "N" :: r) /\ (forall r, c <> # "P" :: # "N" :: r).

Lemma small_next : forall max c, small c -> next_code max c = c.
Proof. intros max [|x [|y c]] H; unfold small in H; cbn in H; [now destruct max as [[|]|]|reflexivity|lia]. Qed.

Lemma local_in : forall c x, In x (mt_local c) -> In x c \/ x = # "S".
Proof.
  intros [|k c] x H; [now left|]. unfold mt_local in H.
  destruct (isin k _); [destruct (opt_is _ _); auto; left; now right|]. destruct (k =? # "A"); [destruct (opt_is _ _); auto; left; now right|].
  destruct (N.eqb_spec k (# "W")) as [->|].
  - destruct (opt_is _ _); [left; now right|]. destruct (opt_is _ _); auto. destruct H as [<-|H]; [left; now left|].
    left. right. destruct c; [destruct H|now right].
  - destruct (k =? # "X"); auto. destruct H as [<-|H]; [now right|left; now right].
Qed.

Lemma piece_in : forall p c n x, In x (piece p c n) -> ~ In x $ "HWY" /\ (~ opt_is n (# "H") = true -> ~ In x $ "X0")
  /\ (c <> # "X" -> ~ opt_is n (# "H") = true -> x = c).
Proof.
  intros p c n x H. unfold piece in H. destruct (opt_is n (# "H")) eqn:E.
  - assert (G : ~ In x $ "HWY"); [|split; [exact G|split; intros; congruence]].
    destruct (N.eqb_spec c (# "B")) as [->|]; [destruct (_ && _); [destruct H|]; destruct H as [<-|[]]; vm_compute; intuition discriminate|].
    destruct (c =? # "P"); [destruct H as [<-|[]]; vm_compute; intuition discriminate|].
    destruct (c =? # "S"); [destruct H as [<-|[]]; vm_compute; intuition discriminate|].
    destruct (c =? # "T"); [destruct H as [<-|[]]; vm_compute; intuition discriminate|].
    destruct (c =? # "X"); [destruct H as [<-|[<-|[]]]; vm_compute; intuition discriminate|].
    destruct (isin c _) eqn:I; [destruct H|]. destruct H as [<-|[]]. intros K.
    assert (J : isin c $ "HWY0" = true) by (apply isin_In; cbn in K |- *; tauto). congruence.
  - destruct (N.eqb_spec c (# "B")) as [->|]; [destruct (_ && _); [destruct H|]; destruct H as [<-|[]]; vm_compute; intuition discriminate|].
    destruct (N.eqb_spec c (# "P")) as [->|]; [destruct H as [<-|[]]; vm_compute; intuition discriminate|].
    destruct (N.eqb_spec c (# "S")) as [->|]; [destruct H as [<-|[]]; vm_compute; intuition discriminate|].
    destruct (N.eqb_spec c (# "T")) as [->|]; [destruct H as [<-|[]]; vm_compute; intuition discriminate|].
    destruct (N.eqb_spec c (# "X")) as [->|Hx].
    { split; [|split; [intros _|congruence]]; destruct H as [<-|[<-|[]]]; vm_compute; intuition discriminate. }
    destruct (isin c _) eqn:I; [destruct H|]. destruct H as [<-|[]].
    assert (J : ~ In c $ "HWY0") by (intros K; apply isin_In in K; congruence).
    cbn in J |- *. split; [tauto|]. split; [intros _ [K|[K|[]]]; [now apply Hx|tauto]|tauto].
Qed.

Lemma pieces_first : forall b p, without $ "HWY" (pieces p b).
Proof.
  induction b as [|c r IH]; intros p x H; [destruct H|]. cbn [pieces] in H. apply in_app_or in H as [H|H]; [|now apply (IH (Some c) x)].
  destruct (opt_is p c); [destruct H|]. now apply piece_in in H.
Qed.
Lemma pieces_second : forall b p, without $ "H" b -> without $ "X0" (pieces p b).
Proof.
  induction b as [|c r IH]; intros p W x H; [destruct H|]. cbn [pieces] in H.
  apply in_app_or in H as [H|H]; [|apply (IH (Some c)); [intros y Hy; apply W; now right|exact H]].
  destruct (opt_is p c); [destruct H|]. apply piece_in in H as (_ & H & _). apply H. intros E.
  destruct r as [|y r]; [discriminate|]. cbn in E. apply N.eqb_eq in E. subst y. apply (W (# "H")); [right|]; now left.
Qed.

(** Without X, H, W, Y and 0 a letter stays or goes. *)
Definition plain (b : ustr) := without $ "XHWY0" b.
Lemma plain_tl : forall c b, plain (c :: b) -> plain b.
Proof. intros c b H x Hx. apply H. now right. Qed.
Lemma plain_piece : forall p c r, plain (c :: r) ->
  (opt_is p (# "M") = true /\ c = # "B" /\ r = [] /\ piece p c (hd_error r) = [])
  \/ (~ (opt_is p (# "M") = true /\ c = # "B" /\ r = []) /\ piece p c (hd_error r) = [c]).
Proof.
  intros p c r H. assert (Hn : opt_is (hd_error r) (# "H") = false).
  { destruct r as [|y r]; [reflexivity|]. cbn. apply N.eqb_neq. intros ->. apply (H (# "H")); [right; now left|right; now left]. }
  unfold piece. rewrite Hn. destruct (N.eqb_spec c (# "B")) as [->|NB].
  - destruct (opt_is p (# "M")) eqn:M; destruct r as [|y r]; cbn [andb hd_error]; [left; tauto|right..];
      (split; [intros (K1 & _ & K2); congruence|reflexivity]).
  - right. split; [tauto|]. destruct (_ =? _); [reflexivity|]. destruct (_ =? _); [reflexivity|]. destruct (_ =? _); [reflexivity|].
    assert (J : forall y, In y $ "XHWY0" -> c <> y) by (intros y Hy ->; apply (H y); [now left|exact Hy]).
    destruct (N.eqb_spec c (# "X")); [exfalso; apply (J (# "X")); [now left|assumption]|].
    destruct (isin c _) eqn:I; [|reflexivity]. apply isin_In in I. exfalso. apply (J c); [cbn in I |- *; tauto|reflexivity].
Qed.
Lemma pieces_plain : forall b p, plain b -> plain (pieces p b) /\ no_doubles (pieces p b) /\ (length (pieces p b) <= length b)%nat
  /\ (forall x, p = Some x -> hd_error (pieces p b) <> Some x).
Proof.
  induction b as [|c r IH]; intros p H.
  - repeat split; cbn; try (intros; discriminate); [intros x []|intros [|] ? ?; discriminate|lia].
  - destruct (IH (Some c) (plain_tl _ _ H)) as (I1 & I2 & I3 & I4). cbn [pieces].
    destruct (opt_is p c) eqn:E.
    + cbn [app length]. split; [exact I1|]. split; [exact I2|]. split; [lia|]. intros x ->. cbn in E. apply N.eqb_eq in E. subst x. now apply I4.
    + assert (Np : forall x, p = Some x -> x <> c) by (intros x ->; cbn in E; now apply N.eqb_neq in E).
      destruct (plain_piece p c r H) as [(M & -> & -> & ->)|(_ & ->)]; cbn [app].
      * cbn. split; [intros x []|]. split; [intros [|] ? ?; discriminate|]. split; [lia|discriminate].
      * split; [intros x [<-|Hx]; [apply H; now left|now apply I1]|]. split.
        { intros [|y a] x b Q; cbn in Q; injection Q as -> Q; [|now apply (I2 a x b)]. apply (I4 x eq_refl). now rewrite Q. }
        split; [cbn; lia|]. intros x Hx Q. injection Q as ->. now apply (Np x).
Qed.
Lemma no_doubles_tl : forall c b, no_doubles (c :: b) -> no_doubles b.
Proof. intros c b H a x r ->. now apply (H (c :: a) x r). Qed.
(** With no letter twice in a row everything stays but a B after M at the end. *)
Lemma pieces_single : forall b p, plain b -> no_doubles b -> (forall x, p = Some x -> hd_error b <> Some x) ->
  (pieces p b = b /\ (forall a, b <> a ++ $ "MB")) \/ (exists a, b = a ++ $ "MB" /\ pieces p b = a ++ $ "M")
  \/ (p = Some (# "M") /\ b = $ "B" /\ pieces p b = []).
Proof.
  induction b as [|c r IH]; intros p H D Hp.
  - left. split; [reflexivity|]. intros [|? [|]]; discriminate.
  - assert (E : opt_is p c = false).
    { destruct p as [x|]; [|reflexivity]. cbn. apply N.eqb_neq. intros ->. now apply (Hp c). }
    cbn [pieces]. rewrite E.
    destruct (plain_piece p c r H) as [(M & -> & -> & ->)|(Nm & ->)].
    + right. right. destruct p as [x|]; [|discriminate]. cbn in M. apply N.eqb_eq in M. subst x. auto.
    + destruct (IH (Some c) (plain_tl _ _ H) (no_doubles_tl _ _ D)) as [[Q K]|[(a & -> & ->)|(K & -> & ->)]].
      * intros x [= <-] Q. destruct r as [|y r]; [discriminate|]. injection Q as ->. now apply (D [] c r).
      * left. rewrite Q. split; [reflexivity|]. intros [|y a] R; cbn in R; injection R as -> R; [|now apply (K a)].
        rewrite R in Q. discriminate Q.
      * right. left. exists (c :: a). split; reflexivity.
      * right. left. injection K as ->. exists []. split; reflexivity.
Qed.

Definition within (max : option nat) (c : ustr) : Prop := match max with Some n => (length c <= n)%nat | None => True end.
Lemma limited_in : forall max c x, In x (limited max c) -> In x c.
Proof. intros [n|] c x H; [now apply In_firstn in H|exact H]. Qed.
Lemma limited_within : forall max c, within max (limited max c).
Proof. intros [n|] c; cbn; [rewrite firstn_length; lia|exact I]. Qed.
Lemma limited_id : forall max c, within max c -> limited max c = c.
Proof. intros [n|] c H; cbn in *; [now apply firstn_all2|reflexivity]. Qed.
Lemma limited_doubles : forall max c, no_doubles c -> no_doubles (limited max c).
Proof.
  intros [n|] c H; [|exact H]. cbn. intros a x b E. apply (H a x (b ++ skipn n c)).
  rewrite <- (firstn_skipn n c) at 1. rewrite E, <- app_assoc. reflexivity.
Qed.
Lemma next_big : forall max c, ~ small c -> next_code max c = limited max (pieces None (mt_local c)).
Proof. intros max [|x [|y c]] H; [now destruct H; unfold small; cbn; lia|destruct H; unfold small; cbn; lia|reflexivity]. Qed.
Lemma next_ok : forall max c, mt_code_ok c -> mt_code_ok (next_code max c).
Proof.
  intros max c H. destruct (Nat.eq_dec (length c) 1) as [E|E]; [rewrite small_next by (unfold small; lia); exact H|].
  destruct (code_upper c H) as (A & _ & _).
  destruct (C24_alphabet_ascii real_unicode max c _ A E (next_encoded real_unicode max c H)) as [K1 K2].
  split; [|exact K2]. intros x Hx. apply K1 in Hx. cbn in Hx |- *. tauto.
Qed.
Lemma small_dec : forall c, small c \/ ~ small c.
Proof. intros c. unfold small. destruct (Nat.le_gt_cases (length c) 1); [now left|right; lia]. Qed.

Lemma second_code : forall max c, small c \/ without $ "HWY" (next_code max c) /\ within max (next_code max c).
Proof.
  intros max c. destruct (small_dec c) as [S|S]; [now left|]. right. rewrite next_big by assumption.
  split; [|apply limited_within]. intros x Hx. apply limited_in in Hx. now apply pieces_first in Hx.
Qed.
Lemma third_code : forall max c, without $ "HWY" c -> small c \/ plain (next_code max c) /\ within max (next_code max c).
Proof.
  intros max c W. destruct (small_dec c) as [S|S]; [now left|]. right. rewrite next_big by assumption.
  split; [|apply limited_within]. intros x Hx. apply limited_in in Hx.
  assert (H : without $ "H" (mt_local c)).
  { intros y Hy [<-|[]]. apply local_in in Hy as [Hy|Hy]; [|discriminate]. apply (W _ Hy). now left. }
  pose proof (pieces_first (mt_local c) None x Hx) as P. pose proof (pieces_second (mt_local c) None H x Hx) as Q.
  cbn in P, Q |- *. tauto.
Qed.
Lemma local_without : forall c, plain c -> plain (mt_local c).
Proof. intros c H x Hx. apply local_in in Hx as [Hx| ->]; [now apply H|]. vm_compute. intuition discriminate. Qed.
Lemma local_cases : forall c, plain c -> (mt_local c = c \/ exists x, c = x :: mt_local c)
  /\ (forall r, mt_local c <> # "K" :: # "N" :: r) /\ (forall r, mt_local c <> # "P" :: # "N" :: r).
Proof.
  intros [|x c] H; [split; [now left|split; discriminate]|].
  assert (NW : x <> # "W") by (intros ->; apply (H (# "W")); [now left|vm_compute; tauto]).
  assert (NX : x <> # "X") by (intros ->; apply (H (# "X")); [now left|vm_compute; tauto]).
  unfold mt_local. apply N.eqb_neq in NW, NX. rewrite NW, NX.
  destruct (isin x $ "KGP") eqn:G.
  - destruct (opt_is (hd_error c) (# "N")) eqn:E.
    + destruct c as [|y c]; [discriminate|]. cbn in E. apply N.eqb_eq in E. subst y.
      split; [right; now exists x|]. split; discriminate.
    + split; [now left|]. split; intros r Q; injection Q as _ ->; discriminate E.
  - assert (K : x <> # "K" /\ x <> # "P") by (split; intros ->; discriminate G).
    destruct (x =? # "A").
    + destruct (opt_is (hd_error c) (# "E")) eqn:E; [|split; [now left|split; intros r Q; injection Q as -> _; now destruct K]].
      destruct c as [|y c]; [discriminate|]. cbn in E. apply N.eqb_eq in E. subst y.
      split; [right; now exists x|]. split; discriminate.
    + split; [now left|]. split; intros r Q; injection Q as -> _; now destruct K.
Qed.
Lemma fourth_code : forall max c, plain c ->
  small c \/ plain (next_code max c) /\ no_doubles (next_code max c) /\ within max (next_code max c).
Proof.
  intros max c W. destruct (small_dec c) as [S|S]; [now left|]. right. rewrite next_big by assumption.
  destruct (pieces_plain (mt_local c) None (local_without c W)) as (P1 & P2 & _).
  split; [intros x Hx; apply limited_in in Hx; now apply P1|]. split; [now apply limited_doubles|apply limited_within].
Qed.
Lemma fifth_code : forall max c, plain c -> no_doubles c -> within max c ->
  small c \/ settled (next_code max c) /\ within max (next_code max c).
Proof.
  intros max c W D L. destruct (small_dec c) as [S|S]; [now left|]. right. rewrite next_big by assumption.
  destruct (local_cases c W) as (C & K1 & K2). pose proof (local_without c W) as W2.
  assert (D2 : no_doubles (mt_local c)) by (destruct C as [->|[x C]]; [exact D|rewrite C in D; now apply no_doubles_tl in D]).
  destruct (pieces_plain (mt_local c) None W2) as (P1 & P2 & P3 & _).
  assert (L2 : within max (pieces None (mt_local c))).
  { destruct max as [n|]; [|exact I]. cbn in *. assert (length (mt_local c) <= length c)%nat by (destruct C as [->|[x C]]; [lia|rewrite C at 2; cbn; lia]). lia. }
  rewrite limited_id by assumption. split; [|exact L2]. split; [exact P2|]. split; [exact P1|].
  destruct (pieces_single (mt_local c) None W2 D2) as [[-> Q]|[(a & E & ->)|(K & _)]]; [discriminate|auto| |discriminate].
  rewrite E in K1, K2. split.
  { intros b Q. replace (b ++ $ "MB") with ((b ++ $ "M") ++ $ "B") in Q by (rewrite <- app_assoc; reflexivity). apply app_inj_tail in Q as [_ Q]. discriminate. }
  split; intros r Q; (destruct a as [|y [|z a]]; [discriminate|injection Q as _ Q; discriminate Q|]); cbn in Q; injection Q as -> -> _;
    [now apply (K1 (a ++ $ "MB"))|now apply (K2 (a ++ $ "MB"))].
Qed.
Lemma settled_next : forall max c, mt_code_ok c -> settled c -> within max c -> next_code max c = c.
Proof.
  intros max c [V C] (D & W & M & K & P) L. destruct (small_dec c) as [S|S]; [now apply small_next|].
  rewrite next_big by assumption.
  assert (E : mt_local c = c).
  { destruct c as [|x [|y c]]; [reflexivity|destruct S; unfold small; cbn; lia|]. unfold mt_local.
    assert (NW : x <> # "W") by (intros ->; apply (W (# "W")); [now left|vm_compute; tauto]).
    assert (NX : x <> # "X") by (intros ->; apply (W (# "X")); [now left|vm_compute; tauto]).
    apply N.eqb_neq in NW, NX. rewrite NW, NX. cbn [hd_error opt_is].
    destruct (isin x $ "KGP") eqn:G.
    - destruct (N.eqb_spec y (# "N")) as [->|]; [|reflexivity]. exfalso. apply isin_In in G. destruct G as [<-|[<-|[<-|[]]]].
      + now apply (K c).
      + assert (F : In (# "G") (mt_vowels ++ mt_consonants)) by (apply V; now left). vm_compute in F. intuition discriminate.
      + now apply (P c).
    - destruct (x =? # "A"); [|reflexivity]. destruct (N.eqb_spec y (# "E")) as [->|]; [|reflexivity]. exfalso.
      assert (F : In (# "E") mt_consonants) by (apply C; now left). vm_compute in F. intuition discriminate. }
  rewrite E. destruct (pieces_single c None W D) as [[-> _]|[(a & -> & _)|(Q & _)]]; [discriminate|now apply limited_id| |discriminate].
  now destruct (M a).
Qed.

(** The first code of any text is made of code letters, or one character. *)
Lemma first_code : forall u max s c, UpperOK u -> metaphone_encode u max s = Ok c -> mt_code_ok c \/ metaphone_encode u max c = Ok c.
Proof.
  intros u max s c U H. destruct (Nat.eq_dec (blen (str_upper u s)) 1) as [E|E].
  - right. unfold metaphone_encode in H. rewrite E in H. cbn in H. injection H as <-.
    destruct (str_upper u s) as [|x r] eqn:Q; [discriminate E|].
    assert (X : r = [] /\ x < 128).
    { cbn [blen] in E. pose proof (utf8_len_pos x). destruct r as [|y r]; [|cbn [blen] in E; pose proof (utf8_len_pos y); lia].
      split; [reflexivity|]. unfold utf8_len in E. destruct (N.ltb_spec x 128); [assumption|]. exfalso. cbn [blen] in E.
      repeat destruct (_ <? _) in E; lia. }
    destruct X as [-> X]. rewrite C23_single_character_ignores_limit by assumption. f_equal. f_equal.
    assert (Lx : is_ascii_lower x = false).
    { assert (I1 : In x (str_upper u s)) by (rewrite Q; now left). unfold str_upper in I1. apply in_flat_map in I1 as (y & _ & I1). now apply U in I1. }
    unfold ascii_up. now rewrite Lx.
  - left. destruct (C24_alphabet u max s c E H) as [K1 K2]. split; [|exact K2]. intros x Hx. apply K1 in Hx. cbn in Hx |- *. tauto.
Qed.

Theorem C95_metaphone_settles : forall u max s c, UpperOK u -> metaphone_encode u max s = Ok c ->
  exists final, encoded (metaphone_encode u max) 5 s = Ok final /\ metaphone_encode u max final = Ok final.
Proof.
  intros u max s c U H. cbn [encoded]. rewrite H. cbn [bind].
  destruct (first_code u max s c U H) as [H1|F].
  2: { exists c. do 4 (rewrite F; cbn [bind]). split; reflexivity. }
  pose proof (next_ok max _ H1) as H2. pose proof (next_ok max _ H2) as H3. pose proof (next_ok max _ H3) as H4. pose proof (next_ok max _ H4) as H5.
  do 4 (rewrite next_encoded by assumption; cbn [bind]).
  eexists. split; [reflexivity|]. rewrite next_encoded by assumption. f_equal.
  destruct (second_code max c) as [S|[W _]]; [now rewrite !(small_next max c)|].
  set (c2 := next_code max c) in *.
  destruct (third_code max c2 W) as [S|[W3 _]]; [now rewrite !(small_next max c2)|].
  set (c3 := next_code max c2) in *.
  destruct (fourth_code max c3 W3) as [S|(W4 & D4 & L4)]; [now rewrite !(small_next max c3)|].
  set (c4 := next_code max c3) in *.
  destruct (fifth_code max c4 W4 D4 L4) as [S|(W5 & L5)]; [now rewrite !(small_next max c4)|].
  now apply settled_next.
Qed.
Theorem C95_metaphone_five : forall u,
  encoded (metaphone_encode u None) 4 $ "mabathababatahab" = Ok $ "MB"
  /\ encoded (metaphone_encode u None) 5 $ "mabathababatahab" = Ok $ "M".
Proof. intros u. split; vm_compute; reflexivity. Qed.
