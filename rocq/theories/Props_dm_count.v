(** * C82: how many codes Daitch-Mokotoff coding answers. *)
From Coq Require Import ZArith.
From Verif Require Import Base UnicodeM Lib Helper RulesParser DaitchMokotoff DmRules BaseLemmas Spec_common Spec_dm Spec_dm_file Spec_dm_any
  Dm_proofs Dm_order_proofs Dm_build_proofs Props_dm Props_dm_any.
Local Open Scope N_scope.

(** The number of alternatives of a field of a rule: one more than its bars. *)
Definition alternatives (field : ustr) : nat := S (count_occ N.eq_dec field (# "|")).
(** The number of codes in the answer of soundex, which separates them by bars. *)
Definition answers (out : ustr) : nat := alternatives out.
(** Every field of the file has at most [choices] alternatives, written with the characters of [alphabet]. *)
Definition fields_within (items : list dm_item) (choices : nat) (alphabet : ustr) : Prop :=
  forall p x y z field, In (DmRule p x y z) items -> In field [x; y; z] ->
    (alternatives field <= choices)%nat /\ forall c, In c field -> c = # "|" \/ In c alphabet.

(** ** Pieces *)
Lemma split_length : forall s, length (split_on (# "|") s) = alternatives s.
Proof.
  unfold alternatives. induction s as [|c s IH]; [reflexivity|]. cbn [split_on count_occ].
  destruct (N.eqb_spec c (# "|")) as [->|N1].
  - destruct (N.eq_dec (# "|") (# "|")) as [_|K]; [|contradiction]. cbn [length]. now rewrite IH.
  - destruct (N.eq_dec c (# "|")) as [K|_]; [contradiction|]. destruct (split_on (# "|") s) as [|p ps]; [discriminate|exact IH].
Qed.
Lemma split_chars : forall s p c, In p (split_on (# "|") s) -> In c p -> In c s /\ c <> # "|".
Proof.
  induction s as [|x s IH]; intros p c Hp Hc; cbn [split_on] in Hp.
  - destruct Hp as [<-|[]]. destruct Hc.
  - destruct (N.eqb_spec x (# "|")) as [->|N1].
    + destruct Hp as [<-|Hp]; [destruct Hc|]. destruct (IH p c Hp Hc). split; [now right|assumption].
    + destruct (split_on (# "|") s) as [|q ps].
      * destruct Hp as [<-|[]]. destruct Hc as [<-|[]]. split; [now left|assumption].
      * destruct Hp as [<-|Hp].
        -- destruct Hc as [<-|Hc]; [split; [now left|assumption]|]. destruct (IH q c (or_introl eq_refl) Hc). split; [now right|assumption].
        -- destruct (IH p c (or_intror Hp) Hc). split; [now right|assumption].
Qed.
(** ** Words of at most six characters *)
Fixpoint words (alphabet : ustr) (n : nat) : list ustr :=
  match n with
  | O => [[]]
  | S n => [] :: flat_map (fun c => map (cons c) (words alphabet n)) alphabet
  end.
Lemma words_In : forall alphabet n w, (length w <= n)%nat -> (forall c, In c w -> In c alphabet) -> In w (words alphabet n).
Proof.
  induction n as [|n IH]; intros w L H; destruct w as [|c w]; [now left|cbn in L; lia|now left|].
  cbn [words]. right. apply in_flat_map. exists c. split; [apply H; now left|]. apply in_map, IH; [cbn in L; lia|].
  intros x Hx. apply H. now right.
Qed.
Lemma words_length : forall alphabet n, length (words alphabet (S n)) = (1 + length alphabet * length (words alphabet n))%nat.
Proof.
  intros alphabet n. cbn [words length].
  assert (G : forall (ws : list ustr) (a : ustr), length (flat_map (fun c => map (cons c) ws) a) = (length a * length ws)%nat).
  { intros ws. induction a as [|c r IH]; [reflexivity|]. cbn [flat_map length]. rewrite app_length, map_length, IH. reflexivity. }
  rewrite G. reflexivity.
Qed.
Definition up_to_six (k : nat) : nat := 1 + k + k ^ 2 + k ^ 3 + k ^ 4 + k ^ 5 + k ^ 6.
Lemma words_six : forall alphabet, length (words alphabet 6) = up_to_six (length alphabet).
Proof. intros alphabet. rewrite !words_length. cbn [words length]. unfold up_to_six. cbn [Nat.pow]. ring. Qed.
(** ** The kept text, cut *)
Fixpoint cut (n : nat) (k : ustr) : ustr :=
  match k with
  | [] => []
  | c :: r => if Nat.leb (utf8_len c) n then c :: cut (n - utf8_len c) r else []
  end.
Lemma utf8_pos : forall c, (1 <= utf8_len c)%nat.
Proof. intros c. unfold utf8_len. destruct (c <? 128); [lia|]. destruct (c <? 2048); [lia|]. destruct (c <? 65536); lia. Qed.
Lemma cut_first : forall k n, (forall a c b, k = a ++ c :: b -> (blen a < n)%nat -> (n < blen a + utf8_len c)%nat -> False) ->
  (exists rest, k = cut n k ++ rest) /\ (blen (cut n k) = n \/ cut n k = k /\ (blen k < n)%nat).
Proof.
  induction k as [|c k IH]; intros n H; cbn [cut].
  - split; [now exists []|]. cbn. destruct n; [now left|right; split; [reflexivity|lia]].
  - destruct (Nat.leb_spec (utf8_len c) n) as [L|L].
    + destruct (IH (n - utf8_len c)%nat) as ((rest & E) & D).
      { intros a x b E L1 L2. apply (H (c :: a) x b); [cbn; now rewrite E|cbn; lia|cbn; lia]. }
      split; [exists rest; cbn [app]; now rewrite <- E|]. destruct D as [D|[D1 D2]].
      * left. cbn [blen]. rewrite D. lia.
      * right. split; [now rewrite D1|]. cbn [blen]. lia.
    + split; [now exists (c :: k)|]. destruct n as [|n]; [now left|]. exfalso. apply (H [] c k eq_refl); cbn; lia.
Qed.
Lemma cut_length : forall k n, (length (cut n k) <= n)%nat.
Proof.
  induction k as [|c k IH]; intros n; cbn [cut]; [cbn; lia|]. destruct (Nat.leb_spec (utf8_len c) n) as [L|L]; [|cbn; lia].
  cbn [length]. pose proof (utf8_pos c). specialize (IH (n - utf8_len c)%nat). lia.
Qed.
Lemma cut_In : forall k n c, In c (cut n k) -> In c k.
Proof.
  induction k as [|x k IH]; intros n c H; cbn [cut] in H; [destruct H|]. destruct (Nat.leb _ _); [|destruct H].
  destruct H as [<-|H]; [now left|right; eauto].
Qed.
Lemma kept_chars : forall sel prev c, In c (kept prev sel) -> exists x, In x sel /\ In c (fst x).
Proof.
  induction sel as [|[r mn] sel IH]; intros prev c H; cbn [kept] in H; [destruct H|].
  apply in_app_or in H as [H|H].
  - destruct (_ || mn); [|destruct H]. exists (r, mn). split; [now left|exact H].
  - destruct (IH _ _ H) as (x & Hx & Hc). exists x. split; [now right|exact Hc].
Qed.
(** ** The steps of a scan *)
Lemma scan_fields : forall items prev s ev, dm_scan_any (table_of items) prev s ev -> forall e, In e ev ->
  exists p x y z field, In (DmRule p x y z) items /\ In field [x; y; z] /\ fst e = split_on (# "|") field.
Proof.
  intros items prev s ev H. induction H as [prev|prev c s ev T H IH|prev c s ev T NR H IH|prev c s r rest ev Br Er H IH];
    intros e He; [destruct He|auto|auto|].
  destruct He as [<-|He]; [|auto]. apply best_rule_In in Br. apply table_of_In in Br as (p & a & b & d & I & ->).
  exists (c :: p), a, b, d. cbn [fst]. unfold choose_replacements, rule_of_parts, parse_branch. cbn [r_at_start r_before_vowel r_default].
  destruct (prev =? 0); [exists a; cbn; tauto|]. destruct (starts_with_vowel rest); [exists b|exists d]; cbn; tauto.
Qed.
Lemma selection_last : forall ev sel, selection ev sel ->
  hd_error (rev (map fst sel)) = None /\ ev = []
  \/ exists e r, In e ev /\ In r (fst e) /\ hd_error (rev (map fst sel)) = Some r
     /\ hd_error (rev ev) = Some e.
Proof.
  intros ev sel H. induction H as [|e x ev sel [I _] H IH]; [left; now split|right].
  cbn [map rev]. destruct IH as [[Hn ->]|(e' & r & He & Hr & Hl & Hk)].
  - inversion H; subst. exists e, (fst x). split; [now left|]. split; [exact I|]. now split.
  - exists e', r. split; [now right|]. split; [exact Hr|].
    split; [destruct (rev (map fst sel)); [discriminate|exact Hl]|destruct (rev ev); [discriminate|exact Hk]].
Qed.
(** ** Counting *)
Lemma first_of_each_le : forall A (R : A -> A -> Prop) l k, first_of_each R l k -> (length k <= length l)%nat.
Proof. intros A R l k H. induction H; rewrite ?app_length; cbn [length]; lia. Qed.
Lemma first_of_each_NoDup : forall A B (R : A -> A -> Prop) (f : A -> B) l k, first_of_each R l k ->
  (forall a b, In a l -> In b l -> f a = f b -> R a b) -> NoDup (map f k).
Proof.
  intros A B R f l k H. induction H as [|l k a H IH N1|l k a x H IH I X]; intros HR; [constructor| |].
  - rewrite map_app. cbn [map]. apply NoDup_Add with (a := f a) (l := map f k).
    + rewrite <- (app_nil_r (map f k)) at 1. apply Add_app.
    + split; [apply IH; intros x y Hx Hy; apply HR; apply in_or_app; now left|].
      intros K. apply in_map_iff in K as (x & E & Hx). apply (N1 x Hx). apply HR; [|apply in_or_app; right; now left|exact E].
      apply in_or_app. left. exact (first_of_each_incl _ _ _ _ H x Hx).
  - apply IH. intros y z Hy Hz. apply HR; apply in_or_app; now left.
Qed.
Fixpoint product (l : list nat) : nat := match l with [] => 1 | n :: r => (n * product r)%nat end.
Lemma selections_length : forall ev, length (selections ev) = product (map (fun e => length (fst e)) ev).
Proof.
  induction ev as [|[rs mn] ev IH]; [reflexivity|]. cbn [selections map product fst]. rewrite <- IH.
  induction rs as [|r rs IHr]; [reflexivity|]. cbn [flat_map length]. rewrite app_length, map_length, IHr. reflexivity.
Qed.
Lemma answer_sels : forall u text flag items d value ev out,
  dms_build text flag = Ok (inl d) -> dm_file text items [] ->
  dm_scan_any (table_of items) 0 (dm_text u items flag value) ev -> dms_soundex u d value = Ok out ->
  exists sels, first_of_each byte_indistinct (selections ev) sels /\ answers out = length sels /\ sels <> []
    /\ forall sel, selection ev sel -> ~ torn (kept None sel).
Proof.
  intros u text flag items d value ev out B F S H.
  assert (W : forall sel, selection ev sel -> ~ torn (kept None sel)).
  { intros sel Hs T. assert (K : dms_soundex u d value = Panic) by (apply (C77_soundex_panics_iff u text flag items d value ev B F S); now exists sel).
    rewrite K in H. discriminate. }
  destruct (C77_soundex u text flag items d value ev B F S W) as (sels & codes & Fe & F2 & E & Ne & Sp). exists sels.
  split; [exact Fe|]. split; [|split; [intros ->; inversion F2; subst; now apply Ne|exact W]]. rewrite E in H. injection H as <-. unfold answers. rewrite <- split_length, Sp.
  symmetry. clear -F2. induction F2; [reflexivity|cbn; now f_equal].
Qed.
(** ** C82 *)
(** At least one code, and at most as many as there are ways to choose an alternative at every step of the scan. *)
Theorem C82_product : forall u text flag items d value ev out,
  dms_build text flag = Ok (inl d) -> dm_file text items [] ->
  dm_scan_any (table_of items) 0 (dm_text u items flag value) ev -> dms_soundex u d value = Ok out ->
  (1 <= answers out <= product (map (fun e => length (fst e)) ev))%nat.
Proof.
  intros u text flag items d value ev out B F S H. destruct (answer_sels u text flag items d value ev out B F S H) as (sels & Fe & -> & Ne & _).
  split; [destruct sels; [contradiction|cbn; lia]|]. rewrite <- selections_length. exact (first_of_each_le _ _ _ _ Fe).
Qed.
(** However long the text, at most [choices] times the number of words of up to six characters of the alphabet. *)
Theorem C82_bounded : forall u text flag items d value out choices alphabet,
  dms_build text flag = Ok (inl d) -> dm_file text items [] -> fields_within items choices alphabet -> (1 <= choices)%nat ->
  dms_soundex u d value = Ok out ->
  (answers out <= choices * up_to_six (length alphabet))%nat.
Proof.
  intros u text flag items d value out choices alphabet B F W C H.
  destruct (C77_scan_exists items (dm_text u items flag value)) as (ev & S & _).
  destruct (answer_sels u text flag items d value ev out B F S H) as (sels & Fe & -> & _ & T).
  set (f := fun sel : list (ustr * bool) => (cut 6 (kept None sel), hd_error (rev (map fst sel)))).
  assert (ND : NoDup (map f sels)).
  { apply (first_of_each_NoDup _ _ byte_indistinct f (selections ev)); [exact Fe|]. intros a b Ha Hb E. injection E as E1 E2.
    split; [|exact E2]. exists (cut 6 (kept None a)).
    assert (K : forall sel, In sel (selections ev) -> first_six_bytes (kept None sel) (cut 6 (kept None sel))).
    { intros sel Hs. apply selections_iff in Hs. apply cut_first. intros x c y E L1 L2. apply (T sel Hs). now exists x, c, y. }
    split; [now apply K|]. rewrite E1. now apply K. }
  set (lasts := match hd_error (rev ev) with None => [None] | Some e => map Some (fst e) end).
  assert (Ll : (length lasts <= choices)%nat).
  { unfold lasts. destruct (hd_error (rev ev)) as [e|] eqn:E; [|cbn; lia]. rewrite map_length.
    assert (I : In e ev) by (apply in_rev; destruct (rev ev); [discriminate|injection E as ->; now left]).
    destruct (scan_fields _ _ _ _ S e I) as (p & x & y & z & field & I1 & I2 & ->). rewrite split_length. now apply (W p x y z field). }
  rewrite <- (map_length f). apply (Nat.le_trans _ (length (list_prod (words alphabet 6) lasts))).
  2:{ rewrite prod_length, words_six, Nat.mul_comm. now apply Nat.mul_le_mono_r. }
  apply NoDup_incl_length; [exact ND|]. intros [w o] I. apply in_map_iff in I as (sel & E & I). injection E as <- <-.
  apply (first_of_each_incl _ _ _ _ Fe) in I. apply selections_iff in I. apply in_prod.
  - apply words_In; [apply cut_length|]. intros c Hc. apply cut_In in Hc. apply kept_chars in Hc as (x & Hx & Hc).
    assert (G : exists e, In e ev /\ In (fst x) (fst e)).
    { clear -I Hx. induction I as [|e y ev sel [K _] I IH]; [destruct Hx|]. destruct Hx as [<-|Hx]; [exists e; split; [now left|exact K]|].
      destruct (IH Hx) as (e' & He & K'). exists e'. split; [now right|exact K']. }
    destruct G as (e & He & Hr). destruct (scan_fields _ _ _ _ S e He) as (p & y & z & t & field & I1 & I2 & E). rewrite E in Hr.
    destruct (split_chars field (fst x) c Hr Hc) as [K1 K2].
    destruct (proj2 (W p y z t field I1 I2) c K1) as [K|K]; [contradiction|exact K].
  - unfold lasts. destruct (selection_last ev sel I) as [[-> ->]|(e & r & He & Hr & -> & ->)]; [now left|]. now apply in_map.
Qed.
(** The embedded rules: at most two alternatives, digits only. *)
Definition field_fine (field : ustr) : bool :=
  Nat.leb (alternatives field) 2 && forallb (fun c => (c =? # "|") || isin c $ "0123456789") field.
Lemma embedded_fields : exists items, dm_file dmrules_text items [] /\ fields_within items 2 $ "0123456789".
Proof.
  assert (Q : exists items, dm_file dmrules_text items [] /\
    forallb (fun i => match i with DmRule _ a b e => field_fine a && field_fine b && field_fine e | _ => true end) items = true).
  { assert (RL : forall n s, match (fix go n s := match s with [] => Some [] | _ => match n with O => None | S n => match next_line s with Some (i, r) => match go n r with Some l => Some (i :: l) | None => None end | None => None end end end) n s
      with Some l => dm_file s l [] | None => True end).
    { clear. induction n as [|n IH]; intros s; [destruct s; [constructor|exact I]|].
      destruct s as [|x s]; [constructor|]. cbv beta iota. destruct (next_line (x :: s)) as [[i r]|] eqn:E; [|exact I].
      specialize (IH r). destruct (_ n r) as [l|]; [|exact I]. apply next_line_spec in E; [|discriminate]. econstructor; eassumption. }
    specialize (RL 2000%nat dmrules_text).
    match type of RL with match ?g with _ => _ end => let v := eval vm_compute in g in change g with v in RL end.
    cbv iota in RL. eexists. split; [exact RL|]. vm_compute. reflexivity. }
  destruct Q as (items & F & Q). exists items. split; [exact F|]. intros p x y z field I1 I2. rewrite forallb_forall in Q.
  specialize (Q _ I1). cbv beta iota in Q. apply andb_true_iff in Q as [Q Q3]. apply andb_true_iff in Q as [Q1 Q2].
  assert (G : field_fine field = true) by (destruct I2 as [<-|[<-|[<-|[]]]]; assumption).
  apply andb_true_iff in G as [G1 G2]. split; [now apply Nat.leb_le|]. intros c Hc. rewrite forallb_forall in G2. specialize (G2 c Hc).
  apply orb_true_iff in G2 as [G2|G2]; [left; now apply N.eqb_eq|right; now apply isin_In].
Qed.
Theorem C82_embedded : forall u value, exists out, dms_soundex u dms_default value = Ok out
  /\ (N.of_nat (answers out) <= 2222222).
Proof.
  intros u value. destruct embedded_fields as (items & F & W). destruct (C35_default_codes u value) as (codes & E & _).
  exists (join $ "|" codes). split; [exact E|].
  pose proof (C82_bounded u dmrules_text true items dms_default value _ 2 _ dms_default_built F W ltac:(lia) E) as L.
  apply (N.le_trans _ (N.of_nat (2 * up_to_six (length $ "0123456789")))); [lia|].
  change (length $ "0123456789") with 10%nat. unfold up_to_six. rewrite Nat2N.inj_mul, !Nat2N.inj_add, !Nat2N.inj_pow. vm_compute. discriminate.
Qed.
(** A file whose rules give one replacement each answers one code. *)
Corollary C82_one : forall u text flag items d value out, dms_build text flag = Ok (inl d) -> dm_file text items [] ->
  (forall p x y z, In (DmRule p x y z) items -> ~ In (# "|") (x ++ y ++ z)) -> dms_soundex u d value = Ok out -> answers out = 1%nat.
Proof.
  intros u text flag items d value out B F NB H. destruct (C77_scan_exists items (dm_text u items flag value)) as (ev & S & _).
  assert (P : product (map (fun e => length (fst e)) ev) = 1%nat).
  { assert (G : forall e, In e ev -> length (fst e) = 1%nat).
    { intros e He. destruct (scan_fields _ _ _ _ S e He) as (p & x & y & z & field & I1 & I2 & ->). rewrite split_length. unfold alternatives.
      f_equal. apply count_occ_not_In. intros K. apply (NB p x y z I1). rewrite !in_app_iff. destruct I2 as [<-|[<-|[<-|[]]]]; auto. }
    clear -G. induction ev as [|e ev IH]; [reflexivity|]. cbn [map product]. rewrite (G e (or_introl eq_refl)), IH; [reflexivity|].
    intros x Hx. apply G. now right. }
  pose proof (C82_product u text flag items d value ev out B F S H) as L. rewrite P in L. lia.
Qed.
(** Doubling with every letter, up to the limit: 64 codes of a text of twelve letters, and no more of a longer one. *)
Example C82_nonvacuous :
  rmap answers (dms_soundex latin1_only dms_default $ "cocococococo") = Ok 64%nat
  /\ rmap answers (dms_soundex latin1_only dms_default $ "cocococococococococo") = Ok 64%nat
  /\ rmap answers (dms_soundex latin1_only dms_default $ "smith") = Ok 1%nat.
Proof. split; [|split]; vm_compute; reflexivity. Qed.
