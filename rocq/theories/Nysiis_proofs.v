(** * Proofs about Nysiis. *)
From Verif Require Import Base UnicodeM Lib Helper Nysiis BaseLemmas Spec_common
  Soundex_proofs UnicodeLemmas Caverphone_proofs.
Local Open Scope N_scope.

(** ** The loop always succeeds *)
Lemma transcode_len : forall p c next nn,
  (1 <= length (ny_transcode p c next nn))%nat
  /\ (next = None -> length (ny_transcode p c next nn) = 1%nat)
  /\ (nn = None -> (length (ny_transcode p c next nn) <= 2)%nat)
  /\ (length (ny_transcode p c next nn) <= 3)%nat.
Proof.
  intros p c next nn. unfold ny_transcode.
  repeat (match goal with |- context[if ?b then _ else _] => destruct b eqn:? end);
    cbn [length]; repeat split; try lia; intros ->; cbn [opt_is] in *;
    rewrite ?andb_false_r in *; cbn [andb] in *; try discriminate; try lia.
Qed.

Lemma ny_loop_ok : forall chars n p, (length chars <= n)%nat -> exists r, ny_loop n p chars = Ok r.
Proof.
  intros chars n. revert chars. induction n as [|n IH]; intros chars p L.
  - destruct chars; [cbn; eauto|cbn in L; lia].
  - destruct chars as [|c rest]; [cbn; eauto|]. cbn [ny_loop].
    destruct (transcode_len p c (hd_error rest) (hd_error (tl rest))) as (H1 & H2 & H3 & H4).
    set (t := ny_transcode p c (hd_error rest) (hd_error (tl rest))) in *.
    assert (Hl : (length t <= length (c :: rest))%nat).
    { destruct rest as [|x rest]; [cbn; rewrite (H2 eq_refl); lia|].
      destruct rest as [|y rest]; [cbn; pose proof (H3 eq_refl); lia|]. cbn. lia. }
    replace (Nat.ltb (length (c :: rest)) (length t)) with false by (symmetry; apply Nat.ltb_ge; lia).
    assert (Hlen : length (t ++ skipn (length t) (c :: rest)) = length (c :: rest)).
    { rewrite app_length, skipn_length. lia. }
    destruct (t ++ skipn (length t) (c :: rest)) as [|c' rest'] eqn:E; [cbn in Hlen; lia|].
    destruct (IH rest' c') as [r Hr]; [cbn [length] in *; lia|]. rewrite Hr. cbn [bind]. eauto.
Qed.

(** Characters that survive in a key after its first character. *)
Definition ny_tail_char (c : N) : Prop := ~ In c $ "EIOUQZMK".

Lemma transcode_head : forall p c next nn x r,
  ny_transcode p c next nn = x :: r -> x = p \/ ny_tail_char x.
Proof.
  intros p c next nn x r. unfold ny_transcode, ny_tail_char.
  repeat (match goal with |- context[if ?b then _ else _] => destruct b eqn:? end);
    intros E; injection E as <- _; try (left; reflexivity); right; cbn [In]; try (intuition discriminate).
  intros H. repeat (destruct H as [<-|H]; [discriminate|]). destruct H.
Qed.
Lemma transcode_ascii : forall p c next nn, p < 128 -> c < 128 -> ascii_str (ny_transcode p c next nn).
Proof.
  intros p c next nn Hp Hc. unfold ny_transcode.
  repeat (match goal with |- context[if ?b then _ else _] => destruct b end);
    repeat (apply ascii_str_cons; split; [lia|]); apply ascii_str_nil.
Qed.
Definition upper_ok (c : N) : Prop := is_ascii_upper c = true.
Lemma transcode_upper : forall p c next nn x, upper_ok p -> upper_ok c ->
  In x (ny_transcode p c next nn) -> upper_ok x.
Proof.
  intros p c next nn x Hp Hc. unfold ny_transcode.
  repeat (match goal with |- context[if ?b then _ else _] => destruct b end);
    cbn [In]; intros H; repeat (destruct H as [<-|H]; [auto; try reflexivity|]); try destruct H.
Qed.

Lemma ny_loop_spec : forall chars n p r, ny_loop n p chars = Ok r ->
  exists l, r = tl (collapse (p :: l)) /\ length l = length chars
    /\ (forall c, In c r -> ny_tail_char c)
    /\ (upper_ok p -> uppers chars -> uppers l).
Proof.
  intros chars n. revert chars.
  assert (Z : forall p r, Ok [] = Ok r -> exists l : ustr, r = tl (collapse (p :: l)) /\ length l = 0%nat
    /\ (forall c, In c r -> ny_tail_char c) /\ (upper_ok p -> uppers [] -> uppers l)).
  { intros p r H. injection H as <-. exists []. split; [reflexivity|]. split; [reflexivity|].
    split; [intros c []|auto]. }
  induction n as [|n IH]; intros chars p r H.
  - destruct chars; [|discriminate]. now apply Z.
  - destruct chars as [|c rest]; [now apply Z|].
    cbn [ny_loop] in H.
    pose proof (transcode_head p c (hd_error rest) (hd_error (tl rest))) as Hh.
    pose proof (transcode_upper p c (hd_error rest) (hd_error (tl rest))) as Hu.
    destruct (transcode_len p c (hd_error rest) (hd_error (tl rest))) as (H1 & _ & _ & _).
    set (t := ny_transcode p c (hd_error rest) (hd_error (tl rest))) in *.
    destruct (Nat.ltb (length (c :: rest)) (length t)) eqn:El; [discriminate|]. apply Nat.ltb_ge in El.
    assert (Hlen : length (t ++ skipn (length t) (c :: rest)) = length (c :: rest)).
    { rewrite app_length, skipn_length. lia. }
    destruct (t ++ skipn (length t) (c :: rest)) as [|c' rest'] eqn:E; [discriminate|].
    apply bind_Ok in H as (r' & Hr & H). injection H as <-.
    apply IH in Hr as (l & -> & Hl & Ht & Hup). exists (c' :: l).
    assert (Ht0 : exists t', t = c' :: t').
    { destruct t as [|x t']; [cbn in H1; lia|]. injection E as -> _. eauto. }
    destruct Ht0 as [t' Et].
    split; [now rewrite tl_collapse|]. split; [cbn [length] in *; lia|]. split.
    + intros x Hx. destruct (p =? c') eqn:Ep; [now apply Ht|].
      destruct Hx as [<-|Hx]; [|now apply Ht]. apply N.eqb_neq in Ep.
      destruct (Hh c' t' Et); [congruence|assumption].
    + intros Hp Hc.
      assert (Hall : uppers (c' :: rest')).
      { rewrite <- E. intros x Hx. apply in_app_or in Hx as [Hx|Hx].
        - apply Hu; auto. apply Hc. now left.
        - apply Hc. rewrite <- (firstn_skipn (length t) (c :: rest)). apply in_or_app. now right. }
      assert (upper_ok c') by (apply Hall; now left).
      intros x [<-|Hx]; [assumption|]. apply (Hup); auto. intros y Hy. apply Hall. now right.
Qed.

(** ** The beginning and the end *)
Lemma ends_with_len : forall s p, ends_with s p = true -> (length p <= length s)%nat.
Proof. intros s p H. apply ends_with_spec in H as [r ->]. rewrite app_length. lia. Qed.

Lemma ny_replace_start_ne : forall p to tmp, to <> [] -> tmp <> [] -> ny_replace_start p to tmp <> [].
Proof.
  intros p to tmp H1 H2. unfold ny_replace_start. destruct (strip_prefix p tmp); [|assumption].
  intros E. apply app_eq_nil in E. tauto.
Qed.
Lemma ny_start_ne : forall tmp, tmp <> [] -> ny_start tmp <> [].
Proof.
  intros tmp H. unfold ny_start. apply ny_replace_start_ne; [discriminate|].
  destruct (_ || _); [discriminate|]. repeat (apply ny_replace_start_ne; [discriminate|]). exact H.
Qed.
Lemma ny_replace_last2_ne : forall to tmp, to <> [] -> ny_replace_last2 to tmp <> [].
Proof. intros to tmp H E. apply app_eq_nil in E. tauto. Qed.
Lemma ny_end_ne : forall tmp, tmp <> [] -> ny_end tmp <> [].
Proof.
  intros tmp H. unfold ny_end.
  destruct (_ || _ || _ || _ || _); [apply ny_replace_last2_ne; discriminate|].
  destruct (_ || _); [apply ny_replace_last2_ne; discriminate|exact H].
Qed.

Lemma uppers_app : forall a b, uppers (a ++ b) <-> uppers a /\ uppers b.
Proof.
  intros a b. unfold uppers. split.
  - intros H. split; intros c Hc; apply H, in_or_app; auto.
  - intros [Ha Hb] c Hc. apply in_app_or in Hc as [Hc|Hc]; auto.
Qed.
Lemma uppers_firstn : forall n a, uppers a -> uppers (firstn n a).
Proof. intros n a H c Hc. apply H. rewrite <- (firstn_skipn n a). apply in_or_app. now left. Qed.
Lemma uppers_skipn : forall n a, uppers a -> uppers (skipn n a).
Proof. intros n a H c Hc. apply H. rewrite <- (firstn_skipn n a). apply in_or_app. now right. Qed.
Lemma uppersb : forall s, forallb is_ascii_upper s = true -> uppers s.
Proof. intros s H c Hc. rewrite forallb_forall in H. auto. Qed.
Lemma ny_replace_start_up : forall p to tmp, uppers to -> uppers tmp -> uppers (ny_replace_start p to tmp).
Proof.
  intros p to tmp H1 H2. unfold ny_replace_start. destruct (strip_prefix p tmp) as [r|] eqn:E; [|assumption].
  apply strip_prefix_spec in E. subst. apply uppers_app in H2 as [_ H2]. now apply uppers_app.
Qed.
Lemma ny_start_up : forall tmp, uppers tmp -> uppers (ny_start tmp).
Proof.
  intros tmp H. unfold ny_start. apply ny_replace_start_up; [now apply uppersb|].
  assert (K : uppers (ny_replace_start $ "K" $ "C" (ny_replace_start $ "KN" $ "NN" (ny_replace_start $ "MAC" $ "MCC" tmp)))).
  { repeat (apply ny_replace_start_up; [now apply uppersb|]). exact H. }
  destruct (_ || _); [|exact K]. apply uppers_app. split; [now apply uppersb|]. now apply uppers_skipn.
Qed.
Lemma ny_end_up : forall tmp, uppers tmp -> uppers (ny_end tmp).
Proof.
  assert (R : forall to t, uppers to -> uppers t -> uppers (ny_replace_last2 to t)).
  { intros to t H1 H2. unfold ny_replace_last2. apply uppers_app. split; [now apply uppers_firstn|assumption]. }
  intros tmp H. unfold ny_end.
  assert (K : uppers (if ends_with tmp $ "EE" || ends_with tmp $ "IE" then ny_replace_last2 $ "Y" tmp else tmp)).
  { destruct (_ || _); [|exact H]. apply R; [now apply uppersb|exact H]. }
  destruct (_ || _ || _ || _ || _); [|exact K]. apply R; [now apply uppersb|exact K].
Qed.

(** ** The finishing steps *)
(** A last character. *)
Lemma snoc_cases : forall (l : ustr), l = [] \/ exists a x, l = a ++ [x].
Proof. intros l. induction l using rev_ind; [now left|]. right. eauto. Qed.
Lemma ends_with1 : forall a x c, ends_with (a ++ [x]) [c] = (c =? x).
Proof.
  intros a x c. unfold ends_with. rewrite rev_app_distr. cbn [rev app].
  unfold starts_with. cbn [strip_prefix]. destruct (c =? x); reflexivity.
Qed.
Lemma drop_last_snoc : forall (a : ustr) x, firstn (length (a ++ [x]) - 1) (a ++ [x]) = a.
Proof.
  intros a x. rewrite app_length. cbn [length].
  replace (length a + 1 - 1)%nat with (length a) by lia. apply firstn_app_exact.
Qed.
Lemma nae_snoc : forall a x y, no_adjacent_equal (a ++ [x] ++ [y]) <-> no_adjacent_equal (a ++ [x]) /\ x <> y.
Proof.
  induction a as [|z a IH]; intros x y; [cbn; tauto|]. destruct a as [|w a].
  - cbn. tauto.
  - change (no_adjacent_equal ((z :: w :: a) ++ [x] ++ [y]))
      with (z <> w /\ no_adjacent_equal ((w :: a) ++ [x] ++ [y])).
    change (no_adjacent_equal ((z :: w :: a) ++ [x])) with (z <> w /\ no_adjacent_equal ((w :: a) ++ [x])).
    rewrite IH. tauto.
Qed.
Lemma nae_prefix : forall a b, no_adjacent_equal (a ++ b) -> no_adjacent_equal a.
Proof.
  induction a as [|x a IH]; intros b H; [exact I|]. destruct a as [|y a]; [exact I|].
  destruct H as [H1 H2]. split; [exact H1|]. now apply (IH b).
Qed.

(** [ny_finish] of a key: drop a final S, then turn a final AY into Y, then drop
    a final A (each only for keys of more than one byte). *)
Inductive finished (key : ustr) : ustr -> Prop :=
| fin_same : finished key key
| fin_prefix : forall a b, key = a ++ b -> finished key a
| fin_ay : forall a b, key = a ++ $ "AY" ++ b -> a <> [] -> finished key (a ++ $ "Y").
Lemma finish_finished : forall key, finished key (ny_finish key)
  /\ (no_adjacent_equal key -> forall a, ny_finish key = a ++ $ "A" -> a = []).
Proof.
  intros key. unfold ny_finish. destruct (Nat.ltb 1 (blen key)) eqn:Eb.
  2:{ apply Nat.ltb_ge in Eb. split; [apply fin_same|]. intros _ a ->.
      rewrite blen_app in Eb. cbn in Eb. apply blen_zero. lia. }
  clear Eb.
  set (k1 := if ends_with key $ "S" then firstn (length key - 1) key else key).
  assert (P1 : exists b, key = k1 ++ b).
  { unfold k1. destruct (ends_with key $ "S"); [|exists []; now rewrite app_nil_r].
    exists (skipn (length key - 1) key). now rewrite firstn_skipn. }
  destruct P1 as [b1 E1].
  destruct (Nat.ltb 2 (blen k1) && ends_with k1 $ "AY") eqn:Eay.
  - apply andb_true_iff in Eay as [Eb Ee]. apply Nat.ltb_lt in Eb.
    apply ends_with_spec in Ee as [a Ea].
    assert (Hk2 : firstn (length k1 - 2) k1 ++ skipn (length k1 - 1) k1 = a ++ $ "Y").
    { rewrite Ea, app_length. cbn [length]. replace (length a + 2 - 2)%nat with (length a) by lia.
      rewrite firstn_app_exact. f_equal. replace (length a + 2 - 1)%nat with (length (a ++ $ "A"))
        by (rewrite app_length; cbn; lia).
      change (a ++ $ "AY") with (a ++ $ "A" ++ $ "Y"). rewrite app_assoc. apply skipn_app_exact. }
    rewrite Hk2, ends_with1. change (65 =? 89) with false. cbn iota.
    split.
    + apply (fin_ay key a b1); [rewrite E1, Ea; now rewrite <- app_assoc|].
      intros ->. rewrite Ea in Eb. cbn in Eb. lia.
    + intros _ a' E. apply (f_equal (@rev N)) in E. rewrite !rev_app_distr in E. discriminate.
  - clear Eay. destruct (snoc_cases k1) as [E|(a & x & E)].
    + rewrite E. split; [apply (fin_prefix key [] key); reflexivity|]. intros _ a' E'.
      cbn in E'. destruct a'; discriminate.
    + rewrite E, ends_with1. rewrite E in E1. destruct (65 =? x) eqn:Ex.
      * apply N.eqb_eq in Ex. subst x. rewrite drop_last_snoc. split.
        -- apply (fin_prefix key a ($ "A" ++ b1)). rewrite E1. now rewrite <- app_assoc.
        -- intros Hn a' ->. exfalso. rewrite E1 in Hn. apply nae_prefix in Hn.
           rewrite <- app_assoc in Hn. apply nae_snoc in Hn as [_ Hn]. congruence.
      * split; [now apply (fin_prefix key _ b1)|]. intros Hn a' E'.
        apply (f_equal (@rev N)) in E'. rewrite !rev_app_distr in E'. cbn in E'.
        injection E' as E' _. apply N.eqb_neq in Ex. congruence.
Qed.

(** ** encode *)
Lemma nysiis_key : forall u s, exists key,
  nysiis_encode u false s = Ok (match soundex_clean u s with [] => [] | _ => ny_finish key end)
  /\ nysiis_encode u true s
     = (match soundex_clean u s with [] => Ok []
        | _ => slice_to (Nat.min (blen (ny_finish key)) 6) (ny_finish key) end)
  /\ no_adjacent_equal key /\ (forall c, In c (tl key) -> ny_tail_char c)
  /\ key <> []
  /\ (uppers (soundex_clean u s) -> uppers key).
Proof.
  intros u s. unfold nysiis_encode. pose proof (ny_end_up (ny_start (soundex_clean u s))) as Hu1.
  pose proof (ny_start_up (soundex_clean u s)) as Hu2.
  destruct (soundex_clean u s) as [|f q] eqn:E.
  - exists [ # "A" ]. split; [reflexivity|]. split; [reflexivity|]. split; [exact I|].
    split; [intros c []|]. split; [discriminate|]. intros _. now apply uppersb.
  - assert (Hne : ny_end (ny_start (f :: q)) <> []) by (apply ny_end_ne, ny_start_ne; discriminate).
    destruct (ny_end (ny_start (f :: q))) as [|c rest]; [congruence|].
    destruct (ny_loop_ok rest (length rest) c (le_n _)) as [pushed Hp]. rewrite Hp. cbn [bind].
    destruct (ny_loop_spec _ _ _ _ Hp) as (l & El & _ & Ht & Hup).
    exists (c :: pushed). repeat split; auto.
    + rewrite El. rewrite <- collapse_cons. apply collapse_nae.
    + discriminate.
    + intros HU x Hx. specialize (Hu1 (Hu2 HU)).
      assert (Hl : uppers l) by (apply Hup; [apply Hu1; now left | intros y Hy; apply Hu1; now right]).
      rewrite El, <- collapse_cons in Hx. apply collapse_incl in Hx.
      destruct Hx as [<-|Hx]; [apply Hu1; now left|now apply Hl].
Qed.
Lemma finished_uppers : forall key r, finished key r -> uppers key -> uppers r.
Proof.
  intros key r [|a b ->|a b -> _] H; auto.
  - now apply uppers_app in H.
  - apply uppers_app in H as [H _]. apply uppers_app. split; [assumption|now apply uppersb].
Qed.
Lemma finished_tail : forall key r, finished key r ->
  (forall c, In c (tl key) -> ny_tail_char c) -> forall c, In c (tl r) -> ny_tail_char c.
Proof.
  intros key r [|a b E|a b E Ha] H c Hc; auto.
  - apply H. rewrite E. destruct a as [|x a]; [destruct Hc|]. cbn in *. apply in_or_app. now left.
  - destruct a as [|x a]; [congruence|]. cbn [app tl] in Hc. apply in_app_or in Hc as [Hc|Hc].
    + apply H. rewrite E. cbn. apply in_or_app. now left.
    + apply H. rewrite E. cbn. apply in_or_app. right. right. destruct Hc as [<-|[]]. now left.
Qed.
Lemma uppers_ascii : forall s, uppers s -> ascii_str s.
Proof. intros s H c Hc. apply H, is_ascii_upper_lt in Hc. lia. Qed.
