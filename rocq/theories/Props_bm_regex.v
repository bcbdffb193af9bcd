(** * Beider-Morse context matchers: C44. *)
From Verif Require Import Base UnicodeM Lib Helper RulesParser BmLanguages BmRegex BmRule MiniRegex BaseLemmas Spec_bm.
Local Open Scope N_scope.

(** Characters with no meaning of their own in a regular expression, and in a
    character list. *)
Definition plain (t : ustr) : Prop := forall c, In c t -> ~ In c $ "\*+?{}()|[]^$.".
Definition plain_list (l : ustr) : Prop := l <> [] /\ forall c, In c l -> ~ In c $ "[]\^-&~".

(** The special-cased patterns, each with its meaning on a text. *)
Inductive shape : ustr -> (ustr -> Prop) -> Prop :=
| shape_equals : forall t, plain t -> shape ($ "^" ++ t ++ $ "$") (fun s => s = t)
| shape_starts : forall t, plain t -> shape ($ "^" ++ t) (fun s => exists r, s = t ++ r)
| shape_ends : forall t, plain t -> shape (t ++ $ "$") (fun s => exists p, s = p ++ t)
| shape_equals_in : forall l, plain_list l -> shape ($ "^[" ++ l ++ $ "]$") (fun s => exists c, s = [c] /\ In c l)
| shape_starts_in : forall l, plain_list l -> shape ($ "^[" ++ l ++ $ "]") (fun s => exists c r, s = c :: r /\ In c l)
| shape_ends_in : forall l, plain_list l -> shape ($ "[" ++ l ++ $ "]$") (fun s => exists p c, s = p ++ [c] /\ In c l)
| shape_equals_out : forall l, plain_list l -> shape ($ "^[^" ++ l ++ $ "]$") (fun s => exists c, s = [c] /\ ~ In c l)
| shape_starts_out : forall l, plain_list l -> shape ($ "^[^" ++ l ++ $ "]") (fun s => exists c r, s = c :: r /\ ~ In c l)
| shape_ends_out : forall l, plain_list l -> shape ($ "[^" ++ l ++ $ "]$") (fun s => exists p c, s = p ++ [c] /\ ~ In c l).

(** ** The regular expressions *)
Fixpoint lit (t : ustr) (k : re) : re := match t with [] => k | c :: t => RCat (RChr c) (lit t k) end.
Lemma plain_cons : forall c t, plain (c :: t) -> ~ In c $ "\*+?{}()|[]^$." /\ plain t.
Proof. intros c t H. split; [apply H; now left|]. intros x Hx. apply H. now right. Qed.
Lemma parse_seq_lit : forall t f rest, plain t ->
  parse_seq (length t + f) (t ++ rest) = match parse_seq f rest with Some (b, r) => Some (lit t b, r) | None => None end.
Proof.
  induction t as [|c t IH]; intros f rest H; [cbn [length Nat.add app lit]; now destruct (parse_seq f rest) as [[b r]|]|].
  apply plain_cons in H as [Hc H]. cbn [length Nat.add app parse_seq].
  assert (E : forall x, In x $ "\*+?{}()|[]^$." -> (c =? x) = false).
  { intros x Hx. apply N.eqb_neq. intros ->. contradiction. }
  rewrite !E by (cbn; tauto). cbn [orb]. unfold is_special.
  assert (S : isin c $ "\*+?{}()|]" = false).
  { destruct (isin c _) eqn:S; [|reflexivity]. apply isin_In in S. elim Hc. cbn in *. tauto. }
  rewrite S. cbv iota. rewrite IH by assumption. now destruct (parse_seq f rest) as [[b r]|].
Qed.
Lemma parse_set_list : forall l acc rest, ~ In (# "]") l -> parse_set (l ++ # "]" :: rest) acc = Some (rev acc ++ l, rest).
Proof.
  induction l as [|c l IH]; intros acc rest H; cbn [app parse_set].
  - rewrite N.eqb_refl. now rewrite app_nil_r.
  - replace (c =? # "]") with false by (symmetry; apply N.eqb_neq; intros ->; apply H; now left).
    rewrite IH by (intros K; apply H; now right). cbn [rev]. now rewrite <- app_assoc.
Qed.
Lemma parse_seq_set : forall (neg : bool) l f rest, plain_list l ->
  parse_seq (S f) ($ "[" ++ (if neg then $ "^" else []) ++ l ++ $ "]" ++ rest)
  = match parse_seq f rest with Some (b, r) => Some (RCat (RSet neg l) b, r) | None => None end.
Proof.
  intros neg l f rest [N H].
  assert (HB : ~ In (# "]") l) by (intros K; apply (H _ K); cbn; tauto).
  destruct neg.
  - change ($ "[" ++ $ "^" ++ l ++ $ "]" ++ rest) with (# "[" :: # "^" :: l ++ # "]" :: rest). cbn [parse_seq].
    change ((91 =? # "|") || (91 =? # ")")) with false. cbv iota.
    change (# "[" =? # "(") with false. change (# "[" =? # "[") with true. change (# "^" =? # "^") with true. cbv iota.
    rewrite parse_set_list by assumption. cbn [rev app]. reflexivity.
  - destruct l as [|c l]; [congruence|].
    change ($ "[" ++ [] ++ (c :: l) ++ $ "]" ++ rest) with (# "[" :: c :: l ++ # "]" :: rest). cbn [parse_seq].
    change ((91 =? # "|") || (91 =? # ")")) with false. cbv iota.
    change (# "[" =? # "(") with false. change (# "[" =? # "[") with true. cbv iota.
    replace (c =? # "^") with false by (symmetry; apply N.eqb_neq; intros ->; apply (H _ (or_introl eq_refl)); cbn; tauto).
    pose proof (parse_set_list (c :: l) [] rest HB) as P. cbn [app rev] in P. rewrite P. reflexivity.
Qed.
Definition then_re (a : re) (x : option (re * ustr)) : option (re * ustr) :=
  match x with Some (b, r) => Some (RCat a b, r) | None => None end.
Lemma parse_seq_bol : forall f rest, parse_seq (S f) (# "^" :: rest) = then_re RBol (parse_seq f rest).
Proof. reflexivity. Qed.
Lemma parse_seq_eol : forall f rest, parse_seq (S f) (# "$" :: rest) = then_re REol (parse_seq f rest).
Proof. reflexivity. Qed.
Lemma parse_seq_nil : forall f, parse_seq (S f) [] = Some (REps, []).
Proof. reflexivity. Qed.
Lemma compile_seq : forall p f r, (S f = 2 * length p + 2)%nat -> parse_seq f p = Some (r, []) -> compile_re p = Some r.
Proof. intros p f r E H. unfold compile_re. rewrite <- E. cbn [parse_re]. now rewrite H. Qed.

Definition finish_re := RCat REol REps.
Lemma compile_equals : forall t, plain t -> compile_re ($ "^" ++ t ++ $ "$") = Some (RCat RBol (lit t finish_re)).
Proof.
  intros t H. apply (compile_seq _ (S (length t + S (S (length t + 2))))); [rewrite !app_length; cbn; lia|].
  change ($ "^" ++ t ++ $ "$") with (# "^" :: t ++ [# "$"]). rewrite parse_seq_bol, parse_seq_lit, parse_seq_eol by assumption.
  now rewrite parse_seq_nil.
Qed.
Lemma compile_starts : forall t, plain t -> compile_re ($ "^" ++ t) = Some (RCat RBol (lit t REps)).
Proof.
  intros t H. apply (compile_seq _ (S (length t + S (length t + 1)))); [rewrite !app_length; cbn; lia|].
  change ($ "^" ++ t) with (# "^" :: t). rewrite parse_seq_bol.
  pose proof (parse_seq_lit t (S (length t + 1)) [] H) as E. rewrite app_nil_r in E. rewrite E. now rewrite parse_seq_nil.
Qed.
Lemma compile_ends : forall t, plain t -> compile_re (t ++ $ "$") = Some (lit t finish_re).
Proof.
  intros t H. apply (compile_seq _ (length t + S (S (length t + 1)))); [rewrite !app_length; cbn; lia|].
  rewrite parse_seq_lit by assumption. change ($ "$") with [# "$"]. rewrite parse_seq_eol. now rewrite parse_seq_nil.
Qed.
Definition negp (neg : bool) : ustr := if neg then $ "^" else [].
Lemma compile_equals_set : forall neg l, plain_list l ->
  compile_re ($ "^" ++ $ "[" ++ negp neg ++ l ++ $ "]" ++ $ "$") = Some (RCat RBol (RCat (RSet neg l) finish_re)).
Proof.
  intros neg l H. pose (p := $ "^" ++ $ "[" ++ negp neg ++ l ++ $ "]" ++ $ "$").
  apply (compile_seq _ (S (S (S (S (2 * length p - 3)))))); [unfold p; rewrite !app_length; cbn; lia|].
  change ($ "^" ++ ?x) with (# "^" :: x). rewrite parse_seq_bol. unfold negp. rewrite (parse_seq_set neg l _ ($ "$") H).
  change ($ "$") with [# "$"]. rewrite parse_seq_eol. now rewrite parse_seq_nil.
Qed.
Lemma compile_starts_set : forall neg l, plain_list l ->
  compile_re ($ "^" ++ $ "[" ++ negp neg ++ l ++ $ "]") = Some (RCat RBol (RCat (RSet neg l) REps)).
Proof.
  intros neg l H. pose (p := $ "^" ++ $ "[" ++ negp neg ++ l ++ $ "]").
  apply (compile_seq _ (S (S (S (2 * length p - 2))))); [unfold p; rewrite !app_length; cbn; lia|].
  change ($ "^" ++ ?x) with (# "^" :: x). rewrite parse_seq_bol. unfold negp. rewrite <- (app_nil_r ($ "]")). rewrite (parse_seq_set neg l _ [] H).
  now rewrite parse_seq_nil.
Qed.
Lemma compile_ends_set : forall neg l, plain_list l ->
  compile_re ($ "[" ++ negp neg ++ l ++ $ "]" ++ $ "$") = Some (RCat (RSet neg l) finish_re).
Proof.
  intros neg l H. pose (p := $ "[" ++ negp neg ++ l ++ $ "]" ++ $ "$").
  apply (compile_seq _ (S (S (S (2 * length p - 2))))); [unfold p; rewrite !app_length; cbn; lia|].
  unfold negp. rewrite (parse_seq_set neg l _ ($ "$") H).
  change ($ "$") with [# "$"]. rewrite parse_seq_eol. now rewrite parse_seq_nil.
Qed.

Lemma re_at_lit : forall t k before mid after,
  re_at (lit t k) before mid after <-> exists m, mid = t ++ m /\ re_at k (before ++ t) m after.
Proof.
  induction t as [|c t IH]; intros k before mid after; cbn [lit].
  - rewrite app_nil_r. split; [intros H; now exists mid|intros (m & -> & H); exact H].
  - cbn [re_at]. split.
    + intros (m1 & m2 & -> & -> & H). apply IH in H as (m & -> & H). exists m. split; [reflexivity|]. now rewrite <- app_assoc in H.
    + intros (m & -> & H). exists [c], (t ++ m). repeat split. apply IH. exists m. split; [reflexivity|]. now rewrite <- app_assoc.
Qed.
Lemma re_at_finish : forall before mid after, re_at finish_re before mid after <-> mid = [] /\ after = [].
Proof.
  intros. cbn. split.
  - intros (m1 & m2 & -> & [-> H] & ->). split; [reflexivity|exact H].
  - intros [-> ->]. now exists [], [].
Qed.
Lemma re_at_bol : forall k before mid after, re_at (RCat RBol k) before mid after <-> before = [] /\ re_at k [] mid after.
Proof.
  intros. cbn [re_at]. split.
  - intros (m1 & m2 & -> & [-> ->] & H). split; [reflexivity|exact H].
  - intros [-> H]. now exists [], mid.
Qed.
Lemma re_at_set : forall neg l k before mid after, re_at (RCat (RSet neg l) k) before mid after <->
  exists c m, mid = c :: m /\ (if neg then ~ In c l else In c l) /\ re_at k (before ++ [c]) m after.
Proof.
  intros. cbn [re_at]. split.
  - intros (m1 & m2 & -> & (c & -> & H) & K). now exists c, m2.
  - intros (c & m & -> & H & K). exists [c], m. repeat split; [now exists c|exact K].
Qed.

(** The regular expression of a shape means what the shape says. *)
Theorem shape_regex : forall p M, shape p M -> exists r, compile_re p = Some r /\ forall s, re_search r s <-> M s.
Proof.
  intros p M H. destruct H as [t H|t H|t H|l H|l H|l H|l H|l H|l H].
  - eexists. split; [now apply compile_equals|]. intros s. unfold re_search. split.
    + intros (b & m & a & -> & K). apply re_at_bol in K as [-> K]. apply re_at_lit in K as (m' & -> & K). apply re_at_finish in K as [-> ->]. now rewrite !app_nil_r.
    + intros ->. exists [], t, []. rewrite app_nil_r. split; [reflexivity|]. apply re_at_bol. split; [reflexivity|]. apply re_at_lit. exists []. rewrite app_nil_r. split; [reflexivity|]. now apply re_at_finish.
  - eexists. split; [now apply compile_starts|]. intros s. unfold re_search. split.
    + intros (b & m & a & -> & K). apply re_at_bol in K as [-> K]. apply re_at_lit in K as (m' & -> & K). cbn in K. subst m'. exists a. now rewrite app_nil_r.
    + intros (r & ->). exists [], t, r. split; [reflexivity|]. apply re_at_bol. split; [reflexivity|]. apply re_at_lit. exists []. rewrite app_nil_r. now split.
  - eexists. split; [now apply compile_ends|]. intros s. unfold re_search. split.
    + intros (b & m & a & -> & K). apply re_at_lit in K as (m' & -> & K). apply re_at_finish in K as [-> ->]. exists b. now rewrite !app_nil_r.
    + intros (b & ->). exists b, t, []. rewrite app_nil_r. split; [reflexivity|]. apply re_at_lit. exists []. rewrite app_nil_r. split; [reflexivity|]. now apply re_at_finish.
  - eexists. split; [exact (compile_equals_set false l H)|]. intros s. unfold re_search. split.
    + intros (b & m & a & -> & K). apply re_at_bol in K as [-> K]. apply re_at_set in K as (c & m' & -> & Hc & K). apply re_at_finish in K as [-> ->]. now exists c.
    + intros (c & -> & Hc). exists [], [c], []. split; [reflexivity|]. apply re_at_bol. split; [reflexivity|]. apply re_at_set. exists c, []. repeat split; [exact Hc|]. now apply re_at_finish.
  - eexists. split; [exact (compile_starts_set false l H)|]. intros s. unfold re_search. split.
    + intros (b & m & a & -> & K). apply re_at_bol in K as [-> K]. apply re_at_set in K as (c & m' & -> & Hc & K). cbn in K. subst m'. now exists c, a.
    + intros (c & r & -> & Hc). exists [], [c], r. split; [reflexivity|]. apply re_at_bol. split; [reflexivity|]. apply re_at_set. now exists c, [].
  - eexists. split; [exact (compile_ends_set false l H)|]. intros s. unfold re_search. split.
    + intros (b & m & a & -> & K). apply re_at_set in K as (c & m' & -> & Hc & K). apply re_at_finish in K as [-> ->]. now exists b, c.
    + intros (b & c & -> & Hc). exists b, [c], []. split; [reflexivity|]. apply re_at_set. exists c, []. repeat split; [exact Hc|]. now apply re_at_finish.
  - eexists. split; [exact (compile_equals_set true l H)|]. intros s. unfold re_search. split.
    + intros (b & m & a & -> & K). apply re_at_bol in K as [-> K]. apply re_at_set in K as (c & m' & -> & Hc & K). apply re_at_finish in K as [-> ->]. now exists c.
    + intros (c & -> & Hc). exists [], [c], []. split; [reflexivity|]. apply re_at_bol. split; [reflexivity|]. apply re_at_set. exists c, []. repeat split; [exact Hc|]. now apply re_at_finish.
  - eexists. split; [exact (compile_starts_set true l H)|]. intros s. unfold re_search. split.
    + intros (b & m & a & -> & K). apply re_at_bol in K as [-> K]. apply re_at_set in K as (c & m' & -> & Hc & K). cbn in K. subst m'. now exists c, a.
    + intros (c & r & -> & Hc). exists [], [c], r. split; [reflexivity|]. apply re_at_bol. split; [reflexivity|]. apply re_at_set. now exists c, [].
  - eexists. split; [exact (compile_ends_set true l H)|]. intros s. unfold re_search. split.
    + intros (b & m & a & -> & K). apply re_at_set in K as (c & m' & -> & Hc & K). apply re_at_finish in K as [-> ->]. now exists b, c.
    + intros (b & c & -> & Hc). exists b, [c], []. split; [reflexivity|]. apply re_at_set. exists c, []. repeat split; [exact Hc|]. now apply re_at_finish.
Qed.

(** ** The optimised matchers *)
Lemma last_cons_ne : forall (c x : N) (t : ustr), ends_with_char (t ++ [x]) c = (x =? c).
Proof. intros. unfold ends_with_char. now rewrite rev_app_distr. Qed.
Lemma ends_with_char_app : forall (a : ustr) x (b : ustr) c, ends_with_char (a ++ x :: b) c = ends_with_char (x :: b) c.
Proof.
  intros a x b c. unfold ends_with_char. rewrite rev_app_distr. cbn [rev].
  destruct (rev b) as [|y r] eqn:E; reflexivity.
Qed.
Lemma ends_with_char_In : forall c t, ends_with_char t c = true -> In c t.
Proof.
  intros c t H. unfold ends_with_char in H. destruct (rev t) as [|x r] eqn:E; [discriminate|]. apply N.eqb_eq in H. subst x.
  apply in_rev. rewrite E. now left.
Qed.
Lemma drop_last_snoc_ : forall (t : ustr) x, drop_last (t ++ [x]) = t.
Proof. intros. apply removelast_last. Qed.
Lemma isin_app : forall c a b, isin c (a ++ b) = isin c a || isin c b.
Proof. intros. unfold isin. apply existsb_app. Qed.

Lemma match_starts : forall t s, opt_is_match (StartsWith t) s = true <-> exists r, s = t ++ r.
Proof.
  intros t s. cbn [opt_is_match]. split.
  - destruct (Nat.ltb _ _) eqn:E; [discriminate|]. intros H. now apply starts_with_spec in H.
  - intros (r & ->). replace (Nat.ltb _ _) with false by (symmetry; apply Nat.ltb_ge; rewrite blen_app; lia).
    apply starts_with_spec. now exists r.
Qed.
Lemma match_ends : forall t s, opt_is_match (EndsWith t) s = true <-> exists p, s = p ++ t.
Proof.
  intros t s. cbn [opt_is_match]. split.
  - destruct (Nat.ltb _ _) eqn:E; [discriminate|]. intros H. now apply ends_with_spec in H.
  - intros (r & ->). replace (Nat.ltb _ _) with false by (symmetry; apply Nat.ltb_ge; rewrite blen_app; lia).
    apply ends_with_spec. now exists r.
Qed.
Lemma eqb_isin : forall c l b, Bool.eqb (isin c l) b = true <-> (if b then In c l else ~ In c l).
Proof.
  intros c l b. destruct (isin c l) eqn:E; [apply isin_In in E|apply isin_false in E]; destruct b; cbn; split; intros; try discriminate; try tauto.
Qed.
Lemma match_equals_char : forall l b s, opt_is_match (EqualsChar l b) s = true <-> exists c, s = [c] /\ (if b then In c l else ~ In c l).
Proof.
  intros l b s. cbn [opt_is_match]. split.
  - destruct s as [|c [|d s]]; try discriminate. intros H. apply eqb_isin in H. now exists c.
  - intros (c & -> & H). now apply eqb_isin.
Qed.
Lemma match_starts_char : forall l b s, opt_is_match (StartsWithChar l b) s = true <-> exists c r, s = c :: r /\ (if b then In c l else ~ In c l).
Proof.
  intros l b s. cbn [opt_is_match]. split.
  - destruct s as [|c s]; try discriminate. intros H. apply eqb_isin in H. now exists c, s.
  - intros (c & r & -> & H). now apply eqb_isin.
Qed.
Lemma match_ends_char : forall l b s, opt_is_match (EndsWithChar l b) s = true <-> exists p c, s = p ++ [c] /\ (if b then In c l else ~ In c l).
Proof.
  intros l b s. cbn [opt_is_match]. split.
  - destruct (rev s) as [|c r] eqn:E; try discriminate. intros H. apply eqb_isin in H. exists (rev r), c. split; [|exact H].
    rewrite <- (rev_involutive s), E. reflexivity.
  - intros (p & c & -> & H). rewrite rev_app_distr. now apply eqb_isin.
Qed.

(** What the pattern [c] is read as when it holds no '[': the text itself, with
    its anchors; nothing is special in it. *)
Lemma optimized_right_unboxed : forall c, ~ In (# "[") c -> ends_with_char c (# "$") = false ->
  exists o, optimized_from_str ($ "^" ++ c) = Some o /\ forall s, opt_is_match o s = true <-> exists r, s = c ++ r.
Proof.
  intros c H E. assert (EE : ends_with_char ($ "^" ++ c) (# "$") = false).
  { destruct c as [|x c]; [reflexivity|]. change ($ "^") with [# "^"]. now rewrite ends_with_char_app. }
  unfold optimized_from_str. rewrite EE. change (starts_with_char ($ "^" ++ c) (# "^")) with true. cbn [tl app]. cbv iota zeta.
  change ($ "^" ++ c) with (# "^" :: c).
  replace (isin (# "[") (# "^" :: c)) with false by (symmetry; apply isin_false; intros [K|K]; [discriminate|contradiction]).
  cbn [negb andb orb]. destruct c as [|x c]; eexists; split; try reflexivity.
  - intros s. split; [intros _; now exists s|reflexivity].
  - apply match_starts.
Qed.
Lemma optimized_equals_unboxed : forall c, ~ In (# "[") c ->
  exists o, optimized_from_str ($ "^" ++ c ++ $ "$") = Some o /\ forall s, opt_is_match o s = true <-> s = c.
Proof.
  intros c H. assert (EE : ends_with_char ($ "^" ++ c ++ $ "$") (# "$") = true).
  { rewrite app_assoc. now rewrite ends_with_char_app. }
  unfold optimized_from_str. rewrite EE. change (starts_with_char ($ "^" ++ c ++ $ "$") (# "^")) with true.
  change ($ "^" ++ c ++ $ "$") with (# "^" :: c ++ [# "$"]). cbn [tl]. rewrite drop_last_snoc_.
  replace (isin (# "[") (# "^" :: c ++ [# "$"])) with false.
  2: { symmetry. apply isin_false. intros [K|K]; [discriminate|]. apply in_app_iff in K as [K|[K|[]]]; [contradiction|discriminate]. }
  cbn [negb andb orb]. destruct c as [|x c]; eexists; split; try reflexivity.
  - intros [|y s]; cbn; split; congruence.
  - intros s. cbn [opt_is_match]. rewrite seq_eqb_eq. split; congruence.
Qed.
Lemma optimized_left_unboxed : forall c, ~ In (# "[") c -> starts_with_char c (# "^") = false ->
  exists o, optimized_from_str (c ++ $ "$") = Some o /\ forall s, opt_is_match o s = true <-> exists p, s = p ++ c.
Proof.
  intros c H E. assert (SS : starts_with_char (c ++ $ "$") (# "^") = false) by (destruct c; [reflexivity|exact E]).
  unfold optimized_from_str. rewrite ends_with_char_app, SS. change (ends_with_char [# "$"] (# "$")) with true. cbv iota zeta.
  change ($ "$") with [# "$"]. rewrite drop_last_snoc_.
  replace (isin (# "[") (c ++ [# "$"])) with false.
  2: { symmetry. apply isin_false. intros K. apply in_app_iff in K as [K|[K|[]]]; [contradiction|discriminate]. }
  cbn [negb andb orb]. destruct c as [|x c]; eexists; split; try reflexivity.
  - intros s. split; [intros _; exists s; now rewrite app_nil_r|reflexivity].
  - apply match_ends.
Qed.

(** One box: [x] is the text between the brackets. *)
Definition box_meaning (x : ustr) (c : N) : Prop :=
  if starts_with_char x (# "^") then ~ In c (tl x) else In c x.
Lemma box_meaning_iff : forall x c, (if negb (starts_with_char x (# "^")) then In c (if starts_with_char x (# "^") then tl x else x)
  else ~ In c (if starts_with_char x (# "^") then tl x else x)) <-> box_meaning x c.
Proof. intros x c. unfold box_meaning. destruct (starts_with_char x (# "^")); cbn; tauto. Qed.
Lemma boxed_isin : forall a x b, isin (# "[") (a ++ # "[" :: x ++ b) = true.
Proof. intros. apply isin_In. apply in_app_iff. right. now left. Qed.
Lemma optimized_right_box : forall x, ~ In (# "[") x ->
  exists o, optimized_from_str ($ "^" ++ $ "[" ++ x ++ $ "]") = Some o
    /\ forall s, opt_is_match o s = true <-> exists c r, s = c :: r /\ box_meaning x c.
Proof.
  intros x H.
  assert (EE : ends_with_char ($ "^" ++ $ "[" ++ x ++ $ "]") (# "$") = false).
  { rewrite !app_assoc. change ($ "]") with [# "]"]. now rewrite last_cons_ne. }
  unfold optimized_from_str. rewrite EE. change (starts_with_char ($ "^" ++ $ "[" ++ x ++ $ "]") (# "^")) with true.
  change ($ "^" ++ $ "[" ++ x ++ $ "]") with ([# "^"] ++ # "[" :: x ++ [# "]"]). rewrite boxed_isin. cbn [negb app tl]. cbv iota zeta.
  change (starts_with_char (# "[" :: x ++ [# "]"]) (# "[")) with true.
  change (# "[" :: x ++ [# "]"]) with ((# "[" :: x) ++ [# "]"]) at 1. rewrite last_cons_ne. change (# "]" =? # "]") with true. cbn [andb].
  rewrite drop_last_snoc_. rewrite (proj2 (isin_false (# "[") x) H). cbn [negb].
  eexists. split; [reflexivity|]. intros s. rewrite match_starts_char.
  split; intros (c & r & -> & K); exists c, r; (split; [reflexivity|]); now apply box_meaning_iff.
Qed.
Lemma optimized_equals_box : forall x, ~ In (# "[") x ->
  exists o, optimized_from_str ($ "^" ++ $ "[" ++ x ++ $ "]" ++ $ "$") = Some o
    /\ forall s, opt_is_match o s = true <-> exists c, s = [c] /\ box_meaning x c.
Proof.
  intros x H.
  assert (EE : ends_with_char ($ "^" ++ $ "[" ++ x ++ $ "]" ++ $ "$") (# "$") = true).
  { rewrite !app_assoc. change ($ "$") with [# "$"]. now rewrite last_cons_ne. }
  unfold optimized_from_str. rewrite EE. change (starts_with_char ($ "^" ++ $ "[" ++ x ++ $ "]" ++ $ "$") (# "^")) with true.
  change ($ "^" ++ $ "[" ++ x ++ $ "]" ++ $ "$") with ([# "^"] ++ # "[" :: x ++ [# "]"; # "$"]). rewrite boxed_isin. cbn [negb app tl]. cbv iota zeta.
  replace (# "[" :: x ++ [# "]"; # "$"]) with ((# "[" :: x ++ [# "]"]) ++ [# "$"]) by (cbn [app]; now rewrite <- app_assoc).
  rewrite drop_last_snoc_. 
  change (starts_with_char (# "[" :: x ++ [# "]"]) (# "[")) with true.
  change (# "[" :: x ++ [# "]"]) with ((# "[" :: x) ++ [# "]"]) at 1. rewrite last_cons_ne. change (# "]" =? # "]") with true. cbn [andb tl].
  rewrite drop_last_snoc_. rewrite (proj2 (isin_false (# "[") x) H). cbn [negb].
  eexists. split; [reflexivity|]. intros s. rewrite match_equals_char.
  split; intros (c & -> & K); exists c; (split; [reflexivity|]); now apply box_meaning_iff.
Qed.
Lemma optimized_left_box : forall x, ~ In (# "[") x ->
  exists o, optimized_from_str ($ "[" ++ x ++ $ "]" ++ $ "$") = Some o
    /\ forall s, opt_is_match o s = true <-> exists p c, s = p ++ [c] /\ box_meaning x c.
Proof.
  intros x H.
  assert (EE : ends_with_char ($ "[" ++ x ++ $ "]" ++ $ "$") (# "$") = true).
  { rewrite !app_assoc. change ($ "$") with [# "$"]. now rewrite last_cons_ne. }
  unfold optimized_from_str. rewrite EE. change (starts_with_char ($ "[" ++ x ++ $ "]" ++ $ "$") (# "^")) with false.
  change ($ "[" ++ x ++ $ "]" ++ $ "$") with ([] ++ # "[" :: x ++ [# "]"; # "$"]). rewrite boxed_isin. cbn [negb app tl]. cbv iota zeta.
  replace (# "[" :: x ++ [# "]"; # "$"]) with ((# "[" :: x ++ [# "]"]) ++ [# "$"]) by (cbn [app]; now rewrite <- app_assoc).
  rewrite drop_last_snoc_. 
  change (starts_with_char (# "[" :: x ++ [# "]"]) (# "[")) with true.
  change (# "[" :: x ++ [# "]"]) with ((# "[" :: x) ++ [# "]"]) at 1. rewrite last_cons_ne. change (# "]" =? # "]") with true. cbn [andb tl].
  rewrite drop_last_snoc_. rewrite (proj2 (isin_false (# "[") x) H). cbn [negb].
  eexists. split; [reflexivity|]. intros s. rewrite match_ends_char.
  split; intros (p & c & -> & K); exists p, c; (split; [reflexivity|]); now apply box_meaning_iff.
Qed.

Lemma plain_no_bracket : forall t, plain t -> ~ In (# "[") t.
Proof. intros t H K. apply (H _ K). cbn. tauto. Qed.
Lemma plain_no_start : forall t, plain t -> starts_with_char t (# "^") = false.
Proof.
  intros [|c t] H; [reflexivity|]. cbn. apply N.eqb_neq. intros ->. apply (H (# "^")); [now left|cbn; tauto].
Qed.
Lemma plain_no_end : forall t, plain t -> ends_with_char t (# "$") = false.
Proof.
  intros t H. destruct (ends_with_char t (# "$")) eqn:E; [|reflexivity]. apply ends_with_char_In in E.
  elim (H _ E). cbn. tauto.
Qed.
Lemma list_no_bracket : forall l, plain_list l -> ~ In (# "[") l.
Proof. intros l [_ H] K. apply (H _ K). cbn. tauto. Qed.
Lemma list_box : forall l c, plain_list l -> (box_meaning l c <-> In c l).
Proof.
  intros l c [N H]. unfold box_meaning. destruct l as [|x l]; [congruence|]. cbn [starts_with_char].
  replace (x =? # "^") with false; [tauto|]. symmetry. apply N.eqb_neq. intros ->. apply (H (# "^")); [now left|cbn; tauto].
Qed.
Lemma list_box_out : forall l c, box_meaning ($ "^" ++ l) c <-> ~ In c l.
Proof. intros. unfold box_meaning. cbn. tauto. Qed.

(** The matcher of a shape means what the shape says. *)
Theorem shape_optimized : forall p M, shape p M ->
  exists o, optimized_from_str p = Some o /\ forall s, opt_is_match o s = true <-> M s.
Proof.
  intros p M H. destruct H as [t H|t H|t H|l H|l H|l H|l H|l H|l H].
  - apply optimized_equals_unboxed. now apply plain_no_bracket.
  - apply optimized_right_unboxed; [now apply plain_no_bracket|now apply plain_no_end].
  - apply optimized_left_unboxed; [now apply plain_no_bracket|now apply plain_no_start].
  - destruct (optimized_equals_box l (list_no_bracket l H)) as (o & E & K). exists o. split; [exact E|]. intros s. rewrite K.
    split; intros (c & -> & G); exists c; (split; [reflexivity|]); now apply (list_box l c H).
  - destruct (optimized_right_box l (list_no_bracket l H)) as (o & E & K). exists o. split; [exact E|]. intros s. rewrite K.
    split; intros (c & r & -> & G); exists c, r; (split; [reflexivity|]); now apply (list_box l c H).
  - destruct (optimized_left_box l (list_no_bracket l H)) as (o & E & K). exists o. split; [exact E|]. intros s. rewrite K.
    split; intros (c & r & -> & G); exists c, r; (split; [reflexivity|]); now apply (list_box l r H).
  - assert (NB : ~ In (# "[") ($ "^" ++ l)) by (intros [K|K]; [discriminate|now apply (list_no_bracket l H)]).
    destruct (optimized_equals_box ($ "^" ++ l) NB) as (o & E & K). exists o. split; [exact E|]. intros s. rewrite K.
    split; intros (c & -> & G); exists c; (split; [reflexivity|]); now apply list_box_out.
  - assert (NB : ~ In (# "[") ($ "^" ++ l)) by (intros [K|K]; [discriminate|now apply (list_no_bracket l H)]).
    destruct (optimized_right_box ($ "^" ++ l) NB) as (o & E & K). exists o. split; [exact E|]. intros s. rewrite K.
    split; intros (c & r & -> & G); exists c, r; (split; [reflexivity|]); now apply list_box_out.
  - assert (NB : ~ In (# "[") ($ "^" ++ l)) by (intros [K|K]; [discriminate|now apply (list_no_bracket l H)]).
    destruct (optimized_left_box ($ "^" ++ l) NB) as (o & E & K). exists o. split; [exact E|]. intros s. rewrite K.
    split; intros (p & c & -> & G); exists p, c; (split; [reflexivity|]); now apply list_box_out.
Qed.

(** ** C44 *)

(** For the special-cased shapes, the optimised matcher exists and decides
    exactly what the regular expression denotes. *)
Theorem C44_equivalent : forall p M, shape p M ->
  exists o r, optimized_from_str p = Some o /\ compile_re p = Some r
    /\ forall s, (opt_is_match o s = true <-> re_search r s) /\ (opt_is_match o s = true <-> M s).
Proof.
  intros p M H. destruct (shape_optimized p M H) as (o & E1 & K1). destruct (shape_regex p M H) as (r & E2 & K2).
  exists o, r. split; [exact E1|]. split; [exact E2|]. intros s. rewrite K1, K2. tauto.
Qed.
(** So the choice of the matcher cannot be observed, for any correct regular
    expression engine. *)
Theorem C44_unobservable : forall rx p M, shape p M ->
  (forall r s, compile_re p = Some r -> (rx_match rx p s = true <-> re_search r s)) ->
  exists c, parse_context rx p = ROk c /\ forall s, context_is_match rx c s = rx_match rx p s.
Proof.
  intros rx p M H K. destruct (C44_equivalent p M H) as (o & r & E1 & E2 & G). exists (COptimized o).
  split; [unfold parse_context; now rewrite E1|]. intros s. cbn [context_is_match]. apply Bool.eq_iff_eq_true.
  destruct (G s) as [G1 _]. rewrite G1. symmetry. now apply K.
Qed.
(** A pattern that is not special-cased is left to the regular expression. *)
Theorem C44_fallback : forall rx p, optimized_from_str p = None ->
  (rx_valid rx p = true -> exists c, parse_context rx p = ROk c /\ forall s, context_is_match rx c s = rx_match rx p s)
  /\ (rx_valid rx p = false -> parse_context rx p = RErr (BMErr (BadContextRegex (rx_error rx p)))).
Proof.
  intros rx p H. unfold parse_context. rewrite H. split; intros ->; [|reflexivity]. now exists (CRegex p).
Qed.

(** ** What the contexts of a rule mean, for every text of the context *)

(** The right context, by its text. *)
Inductive right_reads : ustr -> (ustr -> Prop) -> Prop :=
| rr_prefix : forall t, ~ In (# "[") t -> ends_with_char t (# "$") = false -> right_reads t (fun s => exists r, s = t ++ r)
| rr_whole : forall t, ~ In (# "[") t -> right_reads (t ++ $ "$") (fun s => s = t)
| rr_box : forall x, ~ In (# "[") x -> right_reads ($ "[" ++ x ++ $ "]") (fun s => exists c r, s = c :: r /\ box_meaning x c)
| rr_whole_box : forall x, ~ In (# "[") x -> right_reads ($ "[" ++ x ++ $ "]" ++ $ "$") (fun s => exists c, s = [c] /\ box_meaning x c).
Inductive left_reads : ustr -> (ustr -> Prop) -> Prop :=
| lr_suffix : forall t, ~ In (# "[") t -> starts_with_char t (# "^") = false -> left_reads t (fun s => exists p, s = p ++ t)
| lr_whole : forall t, ~ In (# "[") t -> left_reads ($ "^" ++ t) (fun s => s = t)
| lr_box : forall x, ~ In (# "[") x -> left_reads ($ "[" ++ x ++ $ "]") (fun s => exists p c, s = p ++ [c] /\ box_meaning x c)
| lr_whole_box : forall x, ~ In (# "[") x -> left_reads ($ "^" ++ $ "[" ++ x ++ $ "]") (fun s => exists c, s = [c] /\ box_meaning x c).

Theorem C44_right_context : forall rx t M, right_reads t M ->
  exists c, parse_context rx ($ "^" ++ t) = ROk c /\ forall s, context_is_match rx c s = true <-> M s.
Proof.
  intros rx t M H.
  assert (G : exists o, optimized_from_str ($ "^" ++ t) = Some o /\ forall s, opt_is_match o s = true <-> M s).
  { destruct H; [now apply optimized_right_unboxed|now apply optimized_equals_unboxed|now apply optimized_right_box|now apply optimized_equals_box]. }
  destruct G as (o & E & K). exists (COptimized o). split; [unfold parse_context; now rewrite E|exact K].
Qed.
Theorem C44_left_context : forall rx t M, left_reads t M ->
  exists c, parse_context rx (t ++ $ "$") = ROk c /\ forall s, context_is_match rx c s = true <-> M s.
Proof.
  intros rx t M H.
  assert (G : exists o, optimized_from_str (t ++ $ "$") = Some o /\ forall s, opt_is_match o s = true <-> M s).
  { destruct H; rewrite <- ?app_assoc; [now apply optimized_left_unboxed|now apply optimized_equals_unboxed|now apply optimized_left_box|now apply optimized_equals_box]. }
  destruct G as (o & E & K). exists (COptimized o). split; [unfold parse_context; now rewrite E|exact K].
Qed.

Lemma starts_with_char_true : forall s c, starts_with_char s c = true -> exists r, s = c :: r.
Proof. intros [|x s] c H; [discriminate|]. apply N.eqb_eq in H. subst. now exists s. Qed.
Lemma ends_with_char_true : forall s c, ends_with_char s c = true -> exists r, s = r ++ [c].
Proof.
  intros s c H. unfold ends_with_char in H. destruct (rev s) as [|x r] eqn:E; [discriminate|]. apply N.eqb_eq in H. subst x.
  exists (rev r). rewrite <- (rev_involutive s), E. reflexivity.
Qed.
Lemma box_of_content : forall s, starts_with_char s (# "[") = true -> ends_with_char s (# "]") = true ->
  s = $ "[" ++ drop_last (tl s) ++ $ "]".
Proof.
  intros s H1 H2. apply starts_with_char_true in H1 as (r & ->). apply ends_with_char_true in H2 as (q & E). cbn [tl].
  destruct q as [|x q]; [discriminate|]. injection E as <- ->. now rewrite drop_last_snoc_.
Qed.
(** Those are all the special cases: every other context goes to the regular
    expression engine. *)
Theorem C44_right_context_complete : forall t,
  (exists M, right_reads t M) \/ optimized_from_str ($ "^" ++ t) = None.
Proof.
  intros t. destruct (isin (# "[") t) eqn:B.
  2: { left. apply isin_false in B. destruct (ends_with_char t (# "$")) eqn:E; [|eexists; now apply rr_prefix].
       apply ends_with_char_true in E as (q & ->). eexists. apply rr_whole. intros K. apply B. apply in_app_iff. now left. }
  destruct (optimized_from_str ($ "^" ++ t)) as [o|] eqn:O; [left|now right].
  assert (T : t <> []) by (intros ->; discriminate).
  unfold optimized_from_str in O. change (starts_with_char ($ "^" ++ t) (# "^")) with true in O.
  assert (EE : ends_with_char ($ "^" ++ t) (# "$") = ends_with_char t (# "$")).
  { destruct t as [|x t]; [congruence|]. change ($ "^") with [# "^"]. now rewrite ends_with_char_app. }
  rewrite EE in O. change (tl ($ "^" ++ t)) with t in O. change (isin (# "[") ($ "^" ++ t)) with (isin (# "[") t) in O. rewrite B in O. cbn [negb] in O.
  cbv iota zeta in O. destruct (ends_with_char t (# "$")) eqn:E.
  - apply ends_with_char_true in E as (q & ->). rewrite drop_last_snoc_ in O.
    destruct (starts_with_char q (# "[")) eqn:S1; [|discriminate]. destruct (ends_with_char q (# "]")) eqn:S2; [|discriminate]. cbn [andb] in O.
    destruct (isin (# "[") (drop_last (tl q))) eqn:I; [discriminate|]. apply isin_false in I.
    rewrite (box_of_content q S1 S2). rewrite <- !app_assoc. eexists. now apply rr_whole_box.
  - destruct (starts_with_char t (# "[")) eqn:S1; [|discriminate]. destruct (ends_with_char t (# "]")) eqn:S2; [|discriminate]. cbn [andb] in O.
    destruct (isin (# "[") (drop_last (tl t))) eqn:I; [discriminate|]. apply isin_false in I.
    rewrite (box_of_content t S1 S2). eexists. now apply rr_box.
Qed.
Theorem C44_left_context_complete : forall t,
  (exists M, left_reads t M) \/ optimized_from_str (t ++ $ "$") = None.
Proof.
  intros t. destruct (isin (# "[") t) eqn:B.
  2: { left. apply isin_false in B. destruct (starts_with_char t (# "^")) eqn:E; [|eexists; now apply lr_suffix].
       apply starts_with_char_true in E as (q & ->). exists (fun s => s = q). apply (lr_whole q). intros K. apply B. now right. }
  destruct (optimized_from_str (t ++ $ "$")) as [o|] eqn:O; [left|now right].
  assert (T : t <> []) by (intros ->; discriminate).
  unfold optimized_from_str in O. change ($ "$") with [# "$"] in O. rewrite last_cons_ne in O. change (# "$" =? # "$") with true in O.
  assert (SS : starts_with_char (t ++ [# "$"]) (# "^") = starts_with_char t (# "^")) by (destruct t; [congruence|reflexivity]).
  rewrite SS in O. rewrite drop_last_snoc_ in O. rewrite isin_app, B in O. cbn [orb negb] in O. cbv iota zeta in O.
  destruct (starts_with_char t (# "^")) eqn:E.
  - apply starts_with_char_true in E as (q & ->). change (tl ((# "^" :: q) ++ [# "$"])) with (q ++ [# "$"]) in O. rewrite drop_last_snoc_ in O.
    destruct (starts_with_char q (# "[")) eqn:S1; [|discriminate]. destruct (ends_with_char q (# "]")) eqn:S2; [|discriminate]. cbn [andb] in O.
    destruct (isin (# "[") (drop_last (tl q))) eqn:I; [discriminate|]. apply isin_false in I.
    rewrite (box_of_content q S1 S2). eexists. now apply (lr_whole_box (drop_last (tl q))).
  - destruct (starts_with_char t (# "[")) eqn:S1; [|discriminate]. destruct (ends_with_char t (# "]")) eqn:S2; [|discriminate]. cbn [andb] in O.
    destruct (isin (# "[") (drop_last (tl t))) eqn:I; [discriminate|]. apply isin_false in I.
    rewrite (box_of_content t S1 S2). eexists. now apply lr_box.
Qed.

(** ** Where the special case and the regular expression differ *)

(** Without '[', groups, alternatives and dots are plain text: the three contexts
    below are taken from the rule files. *)
Theorem C44_groups_refuted :
  exists o r, optimized_from_str $ "^(а|е|о|и|у)" = Some o /\ compile_re $ "^(а|е|о|и|у)" = Some r
    /\ re_search r $ "а" /\ opt_is_match o $ "а" = false.
Proof.
  eexists. eexists. split; [vm_compute; reflexivity|]. split; [vm_compute; reflexivity|].
  split; [|vm_compute; reflexivity]. apply re_is_match_spec. vm_compute. reflexivity.
Qed.
Theorem C44_dot_refuted :
  exists o r, optimized_from_str $ ".$" = Some o /\ compile_re $ ".$" = Some r
    /\ re_search r $ "bac" /\ opt_is_match o $ "bac" = false.
Proof.
  eexists. eexists. split; [vm_compute; reflexivity|]. split; [vm_compute; reflexivity|].
  split; [|vm_compute; reflexivity]. apply re_is_match_spec. vm_compute. reflexivity.
Qed.
(** The same for every text: such a context only matches its own characters. *)
Theorem C44_group_context_needs_parenthesis : forall rx t c s, ~ In (# "[") t ->
  parse_context rx ($ "^" ++ $ "(" ++ t) = ROk c -> context_is_match rx c s = true -> In (# "(") s.
Proof.
  intros rx t c s H P K.
  assert (NB : ~ In (# "[") ($ "(" ++ t)) by (intros [E|E]; [discriminate|contradiction]).
  destruct (C44_right_context_complete ($ "(" ++ t)) as [[M R]|N].
  - destruct (C44_right_context rx _ _ R) as (c' & P' & K'). rewrite P in P'. injection P' as <-. apply K' in K.
    inversion R as [x A B C D|x A B D|x A B D|x A B D].
    + subst x M. destruct K as (r & ->). now left.
    + subst M. subst s. destruct x as [|y x]; [discriminate B|]. injection B as -> _. now left.
  - exfalso. destruct (ends_with_char ($ "(" ++ t) (# "$")) eqn:E.
    + apply ends_with_char_true in E as (q & E). rewrite E in N, NB.
      destruct (optimized_equals_unboxed q) as (o & O & _); [intros Z; apply NB, in_app_iff; now left|].
      change ($ "$") with [# "$"] in O. congruence.
    + destruct (optimized_right_unboxed _ NB E) as (o & O & _). congruence.
Qed.
(** In the rules shipped with the crate, the rule of line 127 of
    rules/bm/gen_rules_any.txt can only apply after a full stop. *)
Theorem C44_shipped_dot_rule : forall rx, exists c, parse_context rx ($ "." ++ $ "$") = ROk c
  /\ forall s, context_is_match rx c s = true <-> exists p, s = p ++ $ ".".
Proof.
  intros rx. apply C44_left_context. apply lr_suffix; [|reflexivity]. cbn. intros [E|[]]. discriminate.
Qed.
(** A range in a box is three characters. *)
Theorem C44_range_is_literal : forall rx, exists c, parse_context rx ($ "^" ++ $ "[a-c]") = ROk c
  /\ forall s, context_is_match rx c s = true <-> exists x r, s = x :: r /\ (x = # "a" \/ x = # "-" \/ x = # "c").
Proof.
  intros rx. destruct (C44_right_context rx ($ "[" ++ $ "a-c" ++ $ "]") _ (rr_box $ "a-c" ltac:(cbn; intuition discriminate))) as (c & P & K).
  exists c. split; [exact P|]. intros s. rewrite K. unfold box_meaning. cbn.
  split; intros (x & r & -> & H); exists x, r; (split; [reflexivity|]); intuition congruence.
Qed.

Example C44_nonvacuous :
  shape $ "^[aeiou]$" (fun s => exists c, s = [c] /\ In c $ "aeiou")
  /\ optimized_from_str $ "^[aeiou]$" = Some (EqualsChar $ "aeiou" true)
  /\ optimized_from_str $ "[^aeiou]$" = Some (EndsWithChar $ "aeiou" false)
  /\ optimized_from_str $ "^([aeiou]|ya)" = None
  /\ optimized_from_str $ "^" = Some AllStringsMatcher.
Proof.
  split; [|repeat split; vm_compute; reflexivity].
  apply (shape_equals_in $ "aeiou"). split; [discriminate|]. intros c H. cbn in *. intuition (subst; discriminate).
Qed.
