(** * Proofs about Metaphone. *)
From Verif Require Import Base UnicodeM Lib Helper Metaphone BaseLemmas Spec_common
  Soundex_proofs UnicodeLemmas Cologne_proofs.
Local Open Scope N_scope.

Definition mt_vowels : ustr := $ "AEIOU".
Definition mt_consonants : ustr := $ "BFHJKLMNPRSTWXY0".

(** A goal about the pushed list, given [mt_symbol ... = Ok (l, k)]: walk through
    every branch. *)
Ltac branches H :=
  repeat (match type of H with
  | context[if ?b then _ else _] =>
      lazymatch b with
      | context[if _ then _ else _] => fail
      | _ => let E := fresh "E" in destruct b eqn:E
      end
  | bind ?x _ = Ok _ => let a := fresh "a" in let E := fresh "E" in
      destruct x as [a| |] eqn:E; cbn [bind] in H; try discriminate H
  end).

Lemma mt_symbol_pushed : forall local w index symb l k,
  mt_symbol local w index symb = Ok (l, k) ->
  (forall c, In c l -> In c mt_consonants)
  \/ (index = 0%nat /\ exists c, l = [c] /\ In c mt_vowels).
Proof.
  intros local w index symb l k H.
  assert (Good : forall c, In c l -> isin c mt_consonants = true -> In c mt_consonants)
    by (intros; now apply isin_In).
  assert (K : (forallb (fun c => isin c mt_consonants) l = true)
     \/ (index = 0%nat /\ exists c, l = [c] /\ In c mt_vowels)).
  { assert (Hs : forall set, isin symb set = true -> In symb set) by (intros; now apply isin_In).
    unfold mt_symbol in H. cbv zeta in H.
    destruct (isin symb $ "AEIOU" && Nat.eqb index 0) eqn:E0.
    { apply andb_true_iff in E0 as [E1 E2]. apply Nat.eqb_eq in E2. injection H as <- <-.
      right. split; [assumption|]. exists symb. split; [reflexivity|]. now apply isin_In. }
    left. clear E0.
    destruct ((symb =? 66) && _) eqn:EB.
    { apply andb_true_iff in EB as [EB _]. apply N.eqb_eq in EB. subst. injection H as <- <-. reflexivity. }
    clear EB.
    destruct (symb =? 67); [branches H; injection H as <- <-; reflexivity|].
    destruct (symb =? 68); [branches H; injection H as <- <-; reflexivity|].
    destruct (symb =? 71).
    { apply bind_Ok in H as (a & _ & H). branches H; injection H as <- <-; reflexivity. }
    destruct (symb =? 72); [branches H; injection H as <- <-; reflexivity|].
    destruct (isin symb $ "FJLMNR") eqn:EF.
    { apply Hs in EF. injection H as <- <-. cbn [In] in EF.
      repeat (destruct EF as [<-|EF]; [reflexivity|]). destruct EF. }
    destruct ((symb =? 75) && _) eqn:EK.
    { apply andb_true_iff in EK as [EK _]. apply N.eqb_eq in EK. subst. injection H as <- <-. reflexivity. }
    destruct (symb =? 80) eqn:EP.
    { apply N.eqb_eq in EP. subst. branches H; injection H as <- <-; reflexivity. }
    destruct (symb =? 81); [injection H as <- <-; reflexivity|].
    destruct (symb =? 83).
    { apply bind_Ok in H as (a & _ & H). branches H; injection H as <- <-; reflexivity. }
    destruct (symb =? 84).
    { apply bind_Ok in H as (a & _ & H). destruct a; [injection H as <- <-; reflexivity|].
      apply bind_Ok in H as (a & _ & H). destruct a; [injection H as <- <-; reflexivity|].
      apply bind_Ok in H as (a & _ & H). destruct a; injection H as <- <-; reflexivity. }
    destruct (symb =? 86); [injection H as <- <-; reflexivity|].
    destruct (isin symb $ "WY" && _ && _) eqn:EW.
    { apply andb_true_iff in EW as [EW _]. apply andb_true_iff in EW as [EW _]. apply Hs in EW.
      injection H as <- <-. cbn [In] in EW. destruct EW as [<-|[<-|[]]]; reflexivity. }
    destruct (symb =? 88); [injection H as <- <-; reflexivity|].
    destruct (symb =? 90); injection H as <- <-; reflexivity. }
  destruct K as [K|K]; [|now right]. left. intros c Hc. rewrite forallb_forall in K. auto.
Qed.

Lemma consonants_ascii : ascii_str (mt_vowels ++ mt_consonants).
Proof. apply ascii_strb. reflexivity. Qed.
Lemma mt_symbol_ascii : forall local w index symb l k,
  mt_symbol local w index symb = Ok (l, k) -> ascii_str l.
Proof.
  intros local w index symb l k H. apply mt_symbol_pushed in H as [H|(_ & c & -> & Hc)].
  - intros c Hc. apply consonants_ascii, in_or_app. auto.
  - intros x [<-|[]]. apply consonants_ascii, in_or_app. auto.
Qed.

(** One iteration. *)
Definition mt_iter (local : ustr) (w index : nat) (symb : N) : res (ustr * nat) :=
  if (symb =? # "C") || negb (mt_is_previous_char local index symb)
  then mt_symbol local w index symb else Ok ([], 0%nat).
Lemma mt_iter_ascii : forall local w index symb l k, mt_iter local w index symb = Ok (l, k) -> ascii_str l.
Proof.
  intros local w index symb l k H. unfold mt_iter in H. destruct (_ || _).
  - now apply mt_symbol_ascii in H.
  - injection H as <- <-. apply ascii_str_nil.
Qed.
Lemma mt_truncate_ascii : forall m code, ascii_str code -> mt_truncate (Some m) code = Ok (firstn m code).
Proof.
  intros m code H. unfold mt_truncate. rewrite ascii_blen by assumption.
  destruct (Nat.ltb m (length code)) eqn:E.
  - apply Nat.ltb_lt in E. apply slice_to_ascii; auto; lia.
  - apply Nat.ltb_ge in E. now rewrite firstn_all2.
Qed.

Lemma mt_loop_none_prefix : forall chars local w index skip code c,
  mt_loop None local w index skip chars code = Ok c -> exists t, c = code ++ t.
Proof.
  induction chars as [|symb r IH]; intros local w index skip code c H.
  - injection H as <-. exists []. now rewrite app_nil_r.
  - cbn [mt_loop] in H. destruct skip as [|k]; [|now apply IH in H].
    cbn [mt_full] in H. fold (mt_iter local w index symb) in H.
    apply bind_Ok in H as ([p k] & _ & H). cbn [mt_truncate bind] in H.
    apply IH in H as [t ->]. exists (p ++ t). now rewrite app_assoc.
Qed.
Lemma mt_loop_truncation : forall chars local w index skip code c n, ascii_str code ->
  mt_loop None local w index skip chars code = Ok c ->
  mt_loop (Some n) local w index skip chars (firstn n code) = Ok (firstn n c).
Proof.
  induction chars as [|symb r IH]; intros local w index skip code c n A H.
  - now injection H as <-.
  - pose proof (mt_loop_none_prefix _ _ _ _ _ _ _ H) as [t Ht].
    cbn [mt_loop] in H |- *. destruct skip as [|k]; [|now apply IH].
    cbn [mt_full] in *. fold (mt_iter local w index symb) in H |- *.
    rewrite ascii_blen by (now apply ascii_str_firstn). rewrite firstn_length.
    destruct (Nat.eqb (Nat.min n (length code)) n) eqn:E.
    + apply Nat.eqb_eq in E. subst c. rewrite firstn_app.
      replace (n - length code)%nat with 0%nat by lia. cbn [firstn]. now rewrite app_nil_r.
    + apply Nat.eqb_neq in E. apply bind_Ok in H as ([p k] & Hp & H). rewrite Hp. cbn [bind].
      assert (Ap : ascii_str (code ++ p)) by (apply ascii_str_app; split; [assumption|eapply mt_iter_ascii; eauto]).
      rewrite (firstn_all2 (n := n) code) by lia. rewrite mt_truncate_ascii by assumption. cbn [bind].
      cbn [mt_truncate bind] in H. now apply IH.
Qed.

Lemma mt_loop_some_prefix : forall chars local w index skip code c m, ascii_str code ->
  (length code <= m)%nat ->
  mt_loop (Some m) local w index skip chars code = Ok c -> exists t, c = code ++ t.
Proof.
  induction chars as [|symb r IH]; intros local w index skip code c m A L H.
  - injection H as <-. exists []. now rewrite app_nil_r.
  - cbn [mt_loop] in H. destruct skip as [|k]; [|now apply IH in H].
    cbn [mt_full] in H. fold (mt_iter local w index symb) in H.
    destruct (Nat.eqb (blen code) m) eqn:E.
    + injection H as <-. exists []. now rewrite app_nil_r.
    + apply bind_Ok in H as ([p k] & Hp & H).
      assert (Ap : ascii_str (code ++ p)) by (apply ascii_str_app; split; [assumption|eapply mt_iter_ascii; eauto]).
      rewrite mt_truncate_ascii in H by assumption. cbn [bind] in H.
      apply IH in H as [t ->]; [|now apply ascii_str_firstn|rewrite firstn_length; lia].
      rewrite firstn_app, (firstn_all2 (n := m) code) by lia. rewrite <- app_assoc. eauto.
Qed.
(** The same between two limits, for every text. *)
Lemma mt_loop_truncation2 : forall chars local w index skip code c n m, ascii_str code ->
  (n <= m)%nat -> (length code <= m)%nat ->
  mt_loop (Some m) local w index skip chars code = Ok c ->
  mt_loop (Some n) local w index skip chars (firstn n code) = Ok (firstn n c).
Proof.
  induction chars as [|symb r IH]; intros local w index skip code c n m A L Lc H.
  - now injection H as <-.
  - pose proof (mt_loop_some_prefix _ _ _ _ _ _ _ _ A Lc H) as [t Ht].
    cbn [mt_loop] in H |- *. destruct skip as [|k]; [|now apply (IH _ _ _ _ _ _ _ m)].
    cbn [mt_full] in *. fold (mt_iter local w index symb) in H |- *.
    rewrite ascii_blen by (now apply ascii_str_firstn). rewrite firstn_length.
    destruct (Nat.eqb (Nat.min n (length code)) n) eqn:E.
    + apply Nat.eqb_eq in E. subst c. rewrite firstn_app.
      replace (n - length code)%nat with 0%nat by lia. cbn [firstn]. now rewrite app_nil_r.
    + apply Nat.eqb_neq in E. rewrite ascii_blen in H by assumption.
      replace (Nat.eqb (length code) m) with false in H by (symmetry; apply Nat.eqb_neq; lia).
      apply bind_Ok in H as ([p k] & Hp & H). rewrite Hp. cbn [bind].
      assert (Ap : ascii_str (code ++ p)) by (apply ascii_str_app; split; [assumption|eapply mt_iter_ascii; eauto]).
      rewrite (firstn_all2 (n := n) code) by lia. rewrite mt_truncate_ascii in H |- * by assumption.
      cbn [bind] in H |- *.
      replace (firstn n (code ++ p)) with (firstn n (firstn m (code ++ p)))
        by (rewrite firstn_firstn, Nat.min_l by assumption; reflexivity).
      apply (IH _ _ _ _ _ _ n m); auto; [now apply ascii_str_firstn|rewrite firstn_length; lia].
Qed.

(** The code: consonants, a vowel only in front. *)
Definition mt_code_ok (code : ustr) : Prop :=
  (forall c, In c code -> In c (mt_vowels ++ mt_consonants))
  /\ (forall c, In c (tl code) -> In c mt_consonants).
Lemma mt_code_ok_app : forall code p, mt_code_ok code -> (forall c, In c p -> In c mt_consonants) ->
  mt_code_ok (code ++ p).
Proof.
  intros code p [H1 H2] Hp. split.
  - intros c Hc. apply in_app_or in Hc as [Hc|Hc]; auto. apply in_or_app. auto.
  - intros c Hc. destruct code as [|x code]; cbn in Hc.
    + apply Hp. destruct p; [destruct Hc|now right].
    + apply in_app_or in Hc as [Hc|Hc]; auto.
Qed.
Lemma mt_code_ok_firstn : forall n code, mt_code_ok code -> mt_code_ok (firstn n code).
Proof.
  intros n code [K1 K2]. split.
  - intros x Hx. apply K1. rewrite <- (firstn_skipn n code). apply in_or_app. now left.
  - intros x Hx. apply K2. destruct code as [|y c]; [destruct n; destruct Hx|].
    destruct n; [destruct Hx|]. cbn in *. rewrite <- (firstn_skipn n c). apply in_or_app. now left.
Qed.
Lemma mt_code_ok_ascii : forall code, mt_code_ok code -> ascii_str code.
Proof. intros code [H _] c Hc. apply consonants_ascii. auto. Qed.
Lemma mt_loop_code : forall max chars local w index skip code c,
  (index = 0%nat -> code = []) -> mt_code_ok code ->
  mt_loop max local w index skip chars code = Ok c -> mt_code_ok c.
Proof.
  intros max. induction chars as [|symb r IH]; intros local w index skip code c Hi Hc H.
  - now injection H as <-.
  - cbn [mt_loop] in H. destruct skip as [|k]; [|eapply IH; [..|exact H]; auto; discriminate].
    destruct (mt_full max code); [now injection H as <-|].
    fold (mt_iter local w index symb) in H. apply bind_Ok in H as ([p k] & Hp & H).
    assert (K : mt_code_ok (code ++ p)).
    { unfold mt_iter in Hp. destruct (_ || _).
      + apply mt_symbol_pushed in Hp as [Hp|(E & x & -> & Hx)].
        * now apply mt_code_ok_app.
        * rewrite (Hi E). split; cbn; [|intros y []]. intros y [<-|[]].
          change (In x (mt_vowels ++ mt_consonants)). apply in_or_app. now left.
      + injection Hp as <- <-. now rewrite app_nil_r. }
    apply bind_Ok in H as (code' & Ht & H). eapply IH; [..|exact H]; [discriminate|].
    destruct max as [m|].
    + rewrite mt_truncate_ascii in Ht by (now apply mt_code_ok_ascii). injection Ht as <-.
      now apply mt_code_ok_firstn.
    + now injection Ht as <-.
Qed.
Lemma mt_loop_length : forall chars local w index skip code c,
  mt_loop None local w index skip chars code = Ok c ->
  (length c <= length code + 2 * length chars)%nat.
Proof.
  assert (L : forall local w index symb l k, mt_symbol local w index symb = Ok (l, k) -> (length l <= 2)%nat).
  { intros local w index symb l k H. unfold mt_symbol in H. cbv zeta in H. branches H;
      injection H as <- <-; cbn; lia. }
  induction chars as [|symb r IH]; intros local w index skip code c H.
  - injection H as <-. lia.
  - cbn [mt_loop mt_full] in H. destruct skip as [|k]; [|apply IH in H; cbn [length]; lia].
    fold (mt_iter local w index symb) in H. apply bind_Ok in H as ([p k] & Hp & H).
    cbn [mt_truncate bind] in H. apply IH in H. rewrite app_length in H. cbn [length].
    assert (length p <= 2)%nat; [|lia]. unfold mt_iter in Hp. destruct (_ || _); [eauto|].
    injection Hp as <- <-. cbn. lia.
Qed.

(** ** Totality on ASCII *)
Lemma region_match_ok : forall local index test, ascii_str local -> (index <= length local)%nat ->
  exists b, mt_region_match local index test = Ok b.
Proof.
  intros local index test A L. unfold mt_region_match. destruct (Nat.ltb _ _); [|eauto].
  rewrite slice_from_ascii by assumption. cbn [bind]. eauto.
Qed.
Lemma orelse_ok : forall a b, (exists x, a = Ok x) -> (exists y, b = Ok y) -> exists z, orelse a b = Ok z.
Proof. intros a b [x ->] [y ->]. unfold orelse. cbn [bind]. destruct x; eauto. Qed.
Lemma mt_symbol_ok : forall local w index symb, ascii_str local -> (index <= length local)%nat ->
  exists r, mt_symbol local w index symb = Ok r.
Proof.
  intros local w index symb A L.
  assert (R : forall test, exists b, mt_region_match local index test = Ok b)
    by (intros; now apply region_match_ok).
  unfold mt_symbol. cbv zeta.
  destruct (R $ "CIA") as [b1 ->]. destruct (R $ "GN") as [b2 ->]. destruct (R $ "GNED") as [b3 ->].
  destruct (R $ "SH") as [b4 ->]. destruct (R $ "SIO") as [b5 ->]. destruct (R $ "SIA") as [b6 ->].
  destruct (R $ "TIA") as [b7 ->]. destruct (R $ "TIO") as [b8 ->]. destruct (R $ "TCH") as [b9 ->].
  destruct (R $ "TH") as [b10 ->]. unfold orelse. cbn [bind].
  repeat (match goal with
   | |- exists r, Ok _ = Ok r => eauto
   | |- context[bind (if ?b then _ else _) _] => destruct b; cbn [bind]
   | |- context[if ?b then _ else _] =>
      lazymatch b with context[if _ then _ else _] => fail | _ => destruct b; cbn [bind] end
   end); eauto.
Qed.
Lemma mt_loop_ok : forall chars local w index skip code, ascii_str local ->
  (index + length chars <= length local)%nat ->
  exists c, mt_loop None local w index skip chars code = Ok c.
Proof.
  induction chars as [|symb r IH]; intros local w index skip code A L; [cbn; eauto|].
  cbn [length] in L. cbn [mt_loop mt_full]. destruct skip as [|k]; [|apply IH; auto; lia].
  assert (E : exists p, (if (symb =? 67) || negb (mt_is_previous_char local index symb)
       then mt_symbol local w index symb else Ok ([], 0%nat)) = Ok p).
  { destruct (_ || _); [|eauto]. apply mt_symbol_ok; auto. lia. }
  destruct E as [[p k] ->]. cbn [bind mt_truncate]. apply IH; auto. lia.
Qed.

Lemma mt_local_in : forall inwd c, In c (mt_local inwd) -> In c inwd \/ c = # "W" \/ c = # "S".
Proof.
  intros [|x r] c H; [destruct H|]. unfold mt_local in H. cbn [hd_error] in H.
  repeat (match type of H with context[if ?b then _ else _] => destruct b end);
    try (left; exact H); try (left; right; exact H).
  - destruct H as [<-|H]; auto. left. right. destruct r; [destruct H|now right].
  - destruct H as [<-|H]; auto. left. now right.
Qed.
Lemma mt_local_ascii : forall inwd, ascii_str inwd -> ascii_str (mt_local inwd).
Proof.
  intros inwd A c Hc. apply mt_local_in in Hc as [Hc|[->| ->]]; [now apply A|reflexivity|reflexivity].
Qed.
Lemma mt_local_length : forall inwd, (length (mt_local inwd) <= length inwd)%nat.
Proof.
  intros [|x r]; [auto|]. unfold mt_local.
  repeat (match goal with |- context[if ?b then _ else _] => destruct b end); cbn [length]; try lia.
  destruct r; cbn; lia.
Qed.
