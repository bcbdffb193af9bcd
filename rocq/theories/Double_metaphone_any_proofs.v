(** * Double Metaphone on texts that are not ASCII: what it returns is what the rules say of the
    text measured in bytes. *)
From Verif Require Import Base UnicodeM Lib Helper DoubleMetaphone BaseLemmas Spec_common Spec_contextual
  Spec_double_metaphone Rewrite_proofs Contextual_proofs Soundex_proofs UnicodeLemmas DoubleMetaphone_proofs
  Double_metaphone_spec_proofs Double_metaphone_run_proofs.
Local Open Scope Z_scope.

(** ** The text in places *)
Lemma places_len : forall c, length (places c) = utf8_len c.
Proof.
  intros c. unfold places. destruct (N.ltb_spec c 128) as [L|L].
  - now rewrite ascii_utf8_len.
  - apply repeat_length.
Qed.
Lemma places_ascii : forall c x, In x (places c) -> (x < 128)%N.
Proof.
  intros c x. unfold places. destruct (N.ltb_spec c 128) as [L|L]; intros H.
  - destruct H as [<-|[]]. exact L.
  - apply repeat_spec in H. subst. reflexivity.
Qed.
Lemma in_places_ascii : forall s, ascii_str (in_places s).
Proof. intros s x H. apply in_flat_map in H as (c & _ & H). now apply places_ascii in H. Qed.
Lemma in_places_app : forall a b, in_places (a ++ b) = in_places a ++ in_places b.
Proof. intros a b. apply flat_map_app. Qed.
Lemma in_places_len : forall s, length (in_places s) = blen s.
Proof.
  induction s as [|c s IH]; [reflexivity|]. cbn [in_places flat_map blen]. rewrite app_length, places_len.
  change (flat_map places s) with (in_places s). now rewrite IH.
Qed.
Lemma in_places_blen : forall s, blen (in_places s) = blen s.
Proof. intros s. rewrite ascii_blen by apply in_places_ascii. apply in_places_len. Qed.
Lemma in_places_of_ascii : forall s, ascii_str s -> in_places s = s.
Proof.
  induction s as [|c s IH]; intros A; [reflexivity|]. apply ascii_str_cons in A as [Ac A].
  cbn [in_places flat_map]. change (flat_map places s) with (in_places s). rewrite IH by exact A.
  unfold places. replace (c <? 128)%N with true by (symmetry; now apply N.ltb_lt). reflexivity.
Qed.
Definition plain (w : ustr) : bool := forallb (fun c => (0 <? c)%N && (c <? 128)%N) w.
Lemma plain_ascii : forall w, plain w = true -> ascii_str w.
Proof.
  intros w H x Hx. unfold plain in H. rewrite forallb_forall in H. apply H in Hx.
  apply andb_true_iff in Hx as [_ Hx]. now apply N.ltb_lt.
Qed.
Lemma places_zero : forall c, (128 <= c)%N -> exists r, places c = 0%N :: r.
Proof.
  intros c L. unfold places. replace (c <? 128)%N with false by (symmetry; apply N.ltb_ge; lia).
  pose proof (utf8_len_pos c). destruct (utf8_len c); [lia|]. now eexists.
Qed.
Lemma places_plain : forall s w r, plain w = true -> in_places s = w ++ r ->
  exists r', s = w ++ r' /\ r = in_places r'.
Proof.
  induction s as [|c s IH]; intros w r P E.
  - destruct w; [|discriminate]. exists []. split; [reflexivity|]. exact (eq_sym E).
  - destruct w as [|x w]; [exists (c :: s); split; [reflexivity|exact (eq_sym E)]|].
    cbn [plain forallb] in P. apply andb_true_iff in P as [Px P]. apply andb_true_iff in Px as [Px _]. apply N.ltb_lt in Px.
    cbn [in_places flat_map] in E. destruct (N.ltb_spec c 128) as [L|L].
    + unfold places in E. replace (c <? 128)%N with true in E by (symmetry; now apply N.ltb_lt).
      cbn [app] in E. injection E as -> E. destruct (IH w r P E) as (r' & -> & ->). now exists r'.
    + destruct (places_zero c L) as [q Eq]. rewrite Eq in E. cbn [app] in E. injection E as E1 E2. subst x. lia.
Qed.
Lemma places_eq : forall s w, plain w = true -> seq_eqb (in_places s) w = seq_eqb s w.
Proof.
  intros s w P. destruct (seq_eqb s w) eqn:E.
  - apply seq_eqb_eq in E. subst. apply seq_eqb_eq. apply in_places_of_ascii. now apply plain_ascii.
  - destruct (seq_eqb (in_places s) w) eqn:K; [|reflexivity]. apply seq_eqb_eq in K.
    destruct (places_plain s w [] P) as (r' & -> & Er); [now rewrite app_nil_r|].
    destruct r' as [|y r']; [|exfalso].
    + rewrite app_nil_r in E. now rewrite seq_eqb_refl in E.
    + cbn [in_places flat_map] in Er. pose proof (places_len y) as L. pose proof (utf8_len_pos y).
      destruct (places y); [cbn in L; lia|discriminate].
Qed.
Lemma places_starts : forall s w, plain w = true -> starts_with (in_places s) w = starts_with s w.
Proof.
  intros s w P. destruct (starts_with s w) eqn:E.
  - apply starts_with_spec in E as [r ->]. apply starts_with_spec. exists (in_places r).
    rewrite in_places_app. f_equal. apply in_places_of_ascii. now apply plain_ascii.
  - destruct (starts_with (in_places s) w) eqn:K; [|reflexivity]. apply starts_with_spec in K as [r K].
    destruct (places_plain s w r P K) as (r' & -> & _).
    assert (starts_with (w ++ r') w = true) by (apply starts_with_spec; now exists r'). congruence.
Qed.
Lemma places_split : forall n s a b, split_byte n s = Some (a, b) ->
  split_byte n (in_places s) = Some (in_places a, in_places b).
Proof.
  intros n s a b H. apply split_byte_spec in H as [-> <-]. rewrite in_places_app, <- (in_places_blen a).
  apply split_byte_app.
Qed.
Lemma places_slice : forall m n s t, slice m n s = Ok t -> slice m n (in_places s) = Ok (in_places t).
Proof.
  intros m n s t H. unfold slice in *. destruct (Nat.ltb n m); [discriminate|].
  destruct (split_byte m s) as [[a b]|] eqn:E; [|discriminate]. rewrite (places_split _ _ _ _ E).
  unfold slice_to in *. destruct (split_byte (n - m) b) as [[c d]|] eqn:E2; [|discriminate].
  rewrite (places_split _ _ _ _ E2). now injection H as <-.
Qed.
Lemma places_slice_from : forall n s t, slice_from n s = Ok t -> slice_from n (in_places s) = Ok (in_places t).
Proof.
  intros n s t H. unfold slice_from in *. destruct (split_byte n s) as [[a b]|] eqn:E; [|discriminate].
  rewrite (places_split _ _ _ _ E). now injection H as <-.
Qed.

(** ** What returns on the text returns the same on its places *)
Definition ref {A} (a b : res A) : Prop := forall r, a = Ok r -> b = Ok r.
Lemma ref_refl : forall A (a : res A), ref a a.
Proof. intros A a r H. exact H. Qed.
Lemma ref_bind : forall A B (x y : res A) (f g : A -> res B), ref x y -> (forall a, ref (f a) (g a)) ->
  ref (bind x f) (bind y g).
Proof. intros A B x y f g H K r E. apply bind_Ok in E as (a & Ex & E). rewrite (H a Ex). cbn [bind]. now apply K. Qed.
Lemma ref_andr : forall a b a' b', ref a a' -> ref b b' -> ref (andr a b) (andr a' b').
Proof. intros a b a' b' H K. apply ref_bind; [exact H|]. intros []; [exact K|apply ref_refl]. Qed.
Lemma ref_orr : forall a b a' b', ref a a' -> ref b b' -> ref (orr a b) (orr a' b').
Proof. intros a b a' b' H K. apply ref_bind; [exact H|]. intros []; [apply ref_refl|exact K]. Qed.
Lemma ref_notr : forall a a', ref a a' -> ref (notr a) (notr a').
Proof. intros a a' H. apply ref_bind; [exact H|]. intros x. apply ref_refl. Qed.
Lemma ref_then_skip : forall ops b b', ref b b' -> ref (then_skip_if ops b) (then_skip_if ops b').
Proof. intros ops b b' H. apply ref_bind; [exact H|]. intros []; apply ref_refl. Qed.
Lemma ref_contains : forall v p n ws, forallb plain ws = true ->
  ref (contains v p n ws) (contains (in_places v) p n ws).
Proof.
  intros v p n ws P r H. unfold contains in *. destruct (p <? 0); [exact H|]. rewrite in_places_blen.
  destruct (Nat.leb _ _); [|exact H]. apply bind_Ok in H as (t & Ht & H). rewrite (places_slice _ _ _ _ Ht).
  cbn [bind]. injection H as <-. f_equal. clear Ht. induction ws as [|w ws IH]; [reflexivity|].
  cbn [forallb] in P. apply andb_true_iff in P as [Pw P]. cbn [existsb]. rewrite places_eq by exact Pw. now rewrite IH.
Qed.
Definition flat (c : N) : N := if (c <? 128)%N then c else 0%N.
Lemma hd_places : forall s, hd_error (in_places s) = option_map flat (hd_error s).
Proof.
  intros [|c s]; [reflexivity|]. cbn [in_places flat_map hd_error option_map]. unfold flat.
  destruct (N.ltb_spec c 128) as [L|L].
  - unfold places. replace (c <? 128)%N with true by (symmetry; now apply N.ltb_lt). reflexivity.
  - destruct (places_zero c L) as [q ->]. reflexivity.
Qed.
Lemma char_at_places : forall v p x, char_at v p = Ok x -> char_at (in_places v) p = Ok (option_map flat x).
Proof.
  intros v p x H. unfold char_at in *. unfold len in *. rewrite in_places_blen.
  destruct (_ && _); [|injection H as <-; reflexivity]. apply bind_Ok in H as (t & Ht & H).
  rewrite (places_slice_from _ _ _ Ht). cbn [bind]. injection H as <-. f_equal. apply hd_places.
Qed.
Lemma flat_eqb : forall c k, (0 < k < 128)%N -> N.eqb (flat c) k = N.eqb c k.
Proof.
  intros c k K. unfold flat. destruct (N.ltb_spec c 128) as [L|L]; [reflexivity|].
  destruct (N.eqb_spec 0 k); destruct (N.eqb_spec c k); try lia; reflexivity.
Qed.
Lemma ref_char_at : forall B v p (f g : option N -> res B),
  (forall x, ref (f x) (g (option_map flat x))) ->
  ref (bind (char_at v p) f) (bind (char_at (in_places v) p) g).
Proof.
  intros B v p f g K r H. apply bind_Ok in H as (x & Hx & H). rewrite (char_at_places _ _ _ Hx). cbn [bind].
  now apply (K x).
Qed.
Lemma ref_at_is : forall v p k, (0 <? k)%N && (k <? 128)%N = true -> ref (at_is v p k) (at_is (in_places v) p k).
Proof.
  intros v p k K. apply andb_true_iff in K as [K1 K2]. apply N.ltb_lt in K1. apply N.ltb_lt in K2.
  apply ref_char_at. intros [c|]; [|apply ref_refl]. cbn [option_map opt_is]. rewrite flat_eqb by lia. apply ref_refl.
Qed.
Lemma ref_at_vowel : forall v p, ref (at_vowel v p) (at_vowel (in_places v) p).
Proof.
  intros v p. apply ref_char_at. intros [c|]; [|apply ref_refl]. unfold flat. cbn [option_map].
  destruct (N.ltb_spec c 128) as [L|L]; [apply ref_refl|]. cbn [is_vowel].
  assert (E : ascii_low c = c).
  { unfold ascii_low, is_ascii_upper. replace (c <=? 90)%N with false by (symmetry; apply N.leb_gt; lia).
    now rewrite andb_false_r. }
  rewrite E. unfold isin. cbn [existsb].
  repeat match goal with |- context[N.eqb c ?k] => replace (N.eqb c k) with false by (symmetry; apply N.eqb_neq; lia) end.
  apply ref_refl.
Qed.

Ltac refs :=
  repeat (first
    [ match goal with |- ref (bind (char_at _ ?i) _) _ =>
        apply ref_char_at; intros [x|]; cbn [option_map]; rewrite ?flat_eqb by lia end
    | apply ref_at_is; reflexivity | apply ref_at_vowel
    | apply ref_contains; reflexivity
    | apply ref_andr | apply ref_orr | apply ref_notr | apply ref_then_skip
    | apply ref_refl
    | apply ref_bind; [|intros ?]
    | match goal with |- ref (if ?b then _ else _) _ => destruct b end ]).

Lemma len_places : forall v, len (in_places v) = len v.
Proof. intros v. unfold len. now rewrite in_places_blen. Qed.

Lemma ref_dm_char : forall v sg i c, ref (dm_char v sg i c) (dm_char (in_places v) sg i c).
Proof.
  intros v sg i c. unfold dm_char.
  destruct (isin c _); [destruct (Z.eqb i 0); apply ref_refl|].
  destruct (N.eqb c (# "C")) eqn:EC.
  { apply N.eqb_eq in EC. subst c.
    unfold handle_c, condition_c0, handle_cc, handle_ch, condition_ch0, condition_ch1, contains_array, L_R_N_M_B_H_F_V_W_SPACE.
    rewrite len_places.
    match goal with |- context[N.eqb ?a ?b] => change (N.eqb a b) with false end.
    match goal with |- context[N.eqb ?a ?b] => change (N.eqb a b) with false end. cbv iota.
    refs. }
  unfold handle_d, handle_g, handle_gh, handle_h, handle_j, handle_l, condition_l0, condition_m0, handle_p, handle_r,
    handle_s, handle_sc, handle_t, handle_w, handle_x, handle_z, contains_array.
  rewrite !len_places.
  repeat (match goal with |- ref (if N.eqb c ?k then _ else _) _ => destruct (N.eqb c k); [refs|] end).
  apply ref_refl.
Qed.
Lemma ref_dm_loop : forall v max sg items k r,
  ref (dm_loop v max sg k items r) (dm_loop (in_places v) max sg k items r).
Proof.
  intros v max sg. induction items as [|[o c] items IH]; intros k r; [apply ref_refl|].
  cbn [dm_loop]. destruct k as [|k]; [|apply IH]. destruct (dm_is_complete max r); [apply ref_refl|].
  apply ref_bind; [apply ref_dm_char|]. intros [ops k]. apply ref_bind; [apply ref_refl|]. intros r'. apply IH.
Qed.

(** ** Reading *)
Lemma contains_zeros : forall n x s k w, k <> 0%N ->
  contains_str (repeat x n ++ s) (k :: w) = contains_str s (k :: w) \/ x <> 0%N.
Proof.
  intros n x s k w K. destruct (N.eq_dec x 0) as [->|D]; [left|now right].
  induction n as [|n IH]; [reflexivity|]. cbn [repeat app contains_str]. rewrite IH.
  replace (starts_with _ _) with false; [reflexivity|]. symmetry. apply starts_with_not.
  intros r E. injection E as E _. now elim K.
Qed.
Lemma places_contains : forall s k w, plain (k :: w) = true -> contains_str (in_places s) (k :: w) = contains_str s (k :: w).
Proof.
  intros s k w P. induction s as [|c s IH]; [reflexivity|].
  assert (K : k <> 0%N).
  { cbn [plain forallb] in P. apply andb_true_iff in P as [P _]. apply andb_true_iff in P as [P _].
    apply N.ltb_lt in P. lia. }
  cbn [contains_str]. rewrite <- (places_starts (c :: s) _ P), <- IH.
  change (in_places (c :: s)) with (places c ++ in_places s). unfold places.
  destruct (N.ltb_spec c 128) as [L|L]; [reflexivity|].
  pose proof (utf8_len_pos c) as L1. destruct (utf8_len c) as [|n]; [lia|].
  replace (starts_with (repeat 0%N (S n) ++ in_places s) (k :: w)) with false.
  - cbn [orb]. destruct (contains_zeros (S n) 0 (in_places s) k w K) as [E|E]; [exact E|now elim E].
  - symmetry. apply starts_with_not. intros r E. injection E as E _. now elim K.
Qed.
Lemma places_slavo : forall v, is_slavo_germanic (in_places v) = is_slavo_germanic v.
Proof.
  intros v. unfold is_slavo_germanic. rewrite !places_contains by reflexivity. f_equal. f_equal.
  rewrite !existsb_orb. rewrite <- !contains_letter. now rewrite !places_contains by reflexivity.
Qed.

Lemma dm_table_any_disjoint : disjoint_table double_metaphone_table_any.
Proof.
  unfold disjoint_table, double_metaphone_table_any, double_metaphone_table. cbn [map fst concat app].
  repeat (constructor; [intros K; apply isin_In in K; vm_compute in K; discriminate|]). constructor.
Qed.
Lemma lookup_any_ascii : forall c, (c < 128)%N ->
  lookup double_metaphone_table_any (nothing 0) c = lookup double_metaphone_table (nothing 0) c.
Proof.
  intros c L. unfold lookup, double_metaphone_table_any. cbn [find fst].
  replace (isin c $ "Ç") with false by (symmetry; apply isin_false; intros [E|[]]; subst; discriminate L).
  replace (isin c $ "Ñ") with false by (symmetry; apply isin_false; intros [E|[]]; subst; discriminate L).
  reflexivity.
Qed.
Lemma not_listed : forall c s, (128 <= c)%N -> ascii_str s -> isin c s = false.
Proof. intros c s L A. apply isin_false. intros H. apply A in H. lia. Qed.
Lemma dm_char_high : forall v sg i c, (128 <= c)%N ->
  dm_char v sg i c = done (if N.eqb c (# "Ç") then ac (# "S") else if N.eqb c (# "Ñ") then ac (# "N") else []) 0.
Proof.
  intros v sg i c L. unfold dm_char.
  rewrite not_listed by (exact L || (intros x Hx; cbn [In] in Hx; repeat (destruct Hx as [<-|Hx]; [reflexivity|]); destruct Hx)).
  destruct (N.eqb_spec c (# "Ç")) as [->|D1]; [reflexivity|].
  destruct (N.eqb_spec c (# "Ñ")) as [->|D2]; [reflexivity|].
  repeat match goal with |- context[N.eqb c ?k] => replace (N.eqb c k) with false by (symmetry; apply N.eqb_neq; lia) end.
  reflexivity.
Qed.
Lemma run_high : forall t i c, (128 <= c)%N ->
  run t i (lookup double_metaphone_table_any (nothing 0) c)
  = let s := if N.eqb c (# "Ç") then $ "S" else if N.eqb c (# "Ñ") then $ "N" else [] in (s, s, 0%nat).
Proof.
  intros t i c L. unfold lookup, double_metaphone_table_any. cbn [find fst].
  assert (S : forall x, isin c [x] = N.eqb c x).
  { intros x. unfold isin. cbn [existsb]. now rewrite orb_false_r. }
  change (isin c $ "Ç") with (isin c [# "Ç"]). change (isin c $ "Ñ") with (isin c [# "Ñ"]). rewrite !S.
  destruct (N.eqb_spec c (# "Ç")) as [->|D1]; [reflexivity|].
  destruct (N.eqb_spec c (# "Ñ")) as [->|D2]; [reflexivity|].
  unfold double_metaphone_table. cbn [find fst].
  rewrite !not_listed by (exact L || (intros x Hx; cbn [In] in Hx; repeat (destruct Hx as [<-|Hx]; [reflexivity|]); destruct Hx)).
  reflexivity.
Qed.
Lemma nth_places : forall before c rest, (c < 128)%N ->
  nth_error (in_places (before ++ c :: rest)) (length (in_places before)) = Some c.
Proof.
  intros before c rest L. rewrite in_places_app, nth_error_app2 by lia. rewrite Nat.sub_diag.
  cbn [in_places flat_map]. unfold places. replace (c <? 128)%N with true by (symmetry; now apply N.ltb_lt). reflexivity.
Qed.
Lemma dm_loop_reads_any : forall rest before skip p a r,
  (forall x, In x (in_places (before ++ rest)) -> is_ascii_lower x = false) ->
  dm_loop (in_places (before ++ rest)) None (is_slavo_germanic (before ++ rest)) skip
    (char_indices_from (blen before) rest) (dm_of p a) = Ok r ->
  exists ps als, dm_reads_any (before ++ firstn skip rest) (skipn skip rest) ps als /\ r = dm_of (p ++ ps) (a ++ als).
Proof.
  induction rest as [|c rest IH]; intros before skip p a r U H.
  - cbn in H. injection H as <-. exists [], []. rewrite !app_nil_r. split; [|reflexivity].
    rewrite skipn_nil. constructor.
  - assert (Ev : before ++ c :: rest = (before ++ [c]) ++ rest) by (now rewrite <- app_assoc).
    assert (Eb : (blen before + utf8_len c)%nat = blen (before ++ [c])).
    { rewrite blen_app. cbn [blen]. lia. }
    cbn [char_indices_from dm_loop] in H. rewrite Eb in H. destruct skip as [|k].
    + cbn [dm_is_complete] in H. apply bind_Ok in H as ([ops k] & Hd & H).
      rewrite dm_apply_none in H. cbn [bind] in H. rewrite Ev in U, H.
      destruct (IH (before ++ [c]) k _ _ r U H) as (ps & als & Rd & ->).
      exists (flat_map op_primary ops ++ ps), (flat_map op_alternate ops ++ als).
      split; [|now rewrite !app_assoc]. cbn [firstn skipn]. rewrite app_nil_r.
      apply (da_letter before c rest (lookup double_metaphone_table_any (nothing 0) c) _ _ k ps als).
      * now apply (rule_of_iff _ _ _ _ _ dm_table_any_disjoint).
      * apply gives_iff. destruct (N.ltb_spec c 128) as [L|L].
        -- pose proof (dm_char_run (in_places (before ++ c :: rest)) (length (in_places before))
             (in_places_ascii _)) as R.
           rewrite <- Ev in U. specialize (R U c (nth_places before c rest L)).
           rewrite places_slavo, in_places_len, Hd in R. cbn [rmap bind] in R. rewrite lookup_any_ascii by exact L.
           rewrite in_places_len. injection R as R. exact R.
        -- rewrite dm_char_high in Hd by exact L. rewrite run_high by exact L. injection Hd as <- <-. cbv zeta.
           destruct (N.eqb c (# "Ç")); [reflexivity|]. destruct (N.eqb c (# "Ñ")); reflexivity.
      * rewrite <- app_assoc in Rd. exact Rd.
    + rewrite Ev in U, H. destruct (IH (before ++ [c]) k p a r U H) as (ps & als & Rd & ->).
      exists ps, als. split; [|reflexivity]. cbn [firstn skipn]. rewrite <- app_assoc in Rd. exact Rd.
Qed.
Lemma dm_reads_any_unique : forall b t p1 a1, dm_reads_any b t p1 a1 ->
  forall p2 a2, dm_reads_any b t p2 a2 -> p1 = p2 /\ a1 = a2.
Proof.
  intros b t p1 a1 H. induction H as [b|b c rest r p a k ps als Ho Hg Hr IH]; intros p2 a2 H2.
  - inversion H2. now split.
  - inversion H2 as [|b0 c0 rest0 r0 p0 a0 k0 ps0 als0 Ho0 Hg0 Hr0]; subst.
    apply (rule_of_iff _ _ _ _ _ dm_table_any_disjoint) in Ho. apply (rule_of_iff _ _ _ _ _ dm_table_any_disjoint) in Ho0.
    subst. apply gives_iff in Hg. apply gives_iff in Hg0. rewrite <- Hg in Hg0. injection Hg0 as -> -> ->.
    destruct (IH _ _ Hr0) as [-> ->]. now split.
Qed.
Lemma dm_reads_any_exists : forall n t b, (length t <= n)%nat -> exists p a, dm_reads_any b t p a.
Proof.
  induction n as [|n IH]; intros [|c t] b L; try (exists [], []; constructor); cbn [length] in L; [lia|].
  destruct (run (in_places (b ++ c :: t)) (length (in_places b)) (lookup double_metaphone_table_any (nothing 0) c))
    as [[p a] k] eqn:E.
  destruct (IH (skipn k t) (b ++ c :: firstn k t)) as (ps & als & R); [rewrite skipn_length; lia|].
  exists (p ++ ps), (a ++ als). eapply da_letter; [now apply (rule_of_iff _ _ _ _ _ dm_table_any_disjoint)| |exact R].
  apply gives_iff. now symmetry.
Qed.
