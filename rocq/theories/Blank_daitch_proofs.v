(** * Names with a blank Daitch-Mokotoff code: proofs. *)
From Verif Require Import Base UnicodeM Lib Helper RulesParser DaitchMokotoff DmRules BaseLemmas Spec_common Spec_rules Spec_dm
  Spec_dm_file Spec_dm_any Soundex_proofs UnicodeLemmas Dm_proofs Dm_order_proofs Dm_build_proofs Dm_doubled_proofs Props_dm.
Local Open Scope N_scope.

Definition loudd : ustr := $ "bcdfgklmnpqrstvwxz".
(** A replacement that begins with a digit other than 0. *)
Definition hard (r : ustr) : bool := match r with d :: _ => negb (d =? # "0") | [] => false end.
Definition soft (r : ustr) : bool := match r with [] => true | _ => hard r end.
Definition soft0 (r : ustr) : bool := soft r || seq_eqb r $ "0".
Definition loud_pattern (r : Rule) : bool := existsb (fun c => isin c loudd) (r_pattern r).
Definition rule_check (r : Rule) : bool :=
  forallb soft0 (r_at_start r) && forallb soft (r_before_vowel r) && forallb soft (r_default r)
  && (negb (loud_pattern r) || (forallb hard (r_at_start r) && forallb hard (r_before_vowel r) && forallb hard (r_default r))).
Definition table_check : bool :=
  forallb (fun e => negb (fst e =? 0) && forallb rule_check (snd e)) (dms_rules dms_default)
  && forallb (fun c => match assoc c (dms_rules dms_default) with
                       | Some l => existsb (fun r => seq_eqb (r_pattern r) [c]) l | None => false end) loudd.
Lemma table_checked : table_check = true. Proof. vm_compute. reflexivity. Qed.

(** From a text to its replacements. *)
Section Table.
Variable items : list dm_item.
Hypothesis B : built_from dmrules_text true items dms_default.
Let tbl := table_of items.
Lemma tbl_rules : forall c r, In r (tbl c) -> c <> 0 /\ rule_check r = true.
Proof.
  intros c r I. destruct B as (F & Bd & _). destruct (C41_accepts _ _ _ Bd) as (items' & F' & _ & HT & _).
  destruct (C41_reading dmrules_text) as (i0 & r0 & _ & U). destruct (U _ _ F) as [E1 _]. destruct (U _ _ F') as [E2 _].
  assert (items' = items) as -> by congruence. specialize (HT c). unfold tbl in I.
  destruct (table_of items c) as [|r1 l] eqn:E; [destruct I|]. apply assoc_In in HT.
  pose proof table_checked as K. unfold table_check in K. apply andb_true_iff in K as [K _].
  rewrite forallb_forall in K. specialize (K _ HT). cbn [fst snd] in K. apply andb_true_iff in K as [K1 K2].
  split; [now apply negb_true_iff, N.eqb_neq in K1|]. rewrite forallb_forall in K2. apply K2. now apply sort_In.
Qed.
Lemma tbl_single : forall c, In c loudd -> exists r, In r (tbl c) /\ r_pattern r = [c].
Proof.
  intros c I. destruct B as (F & Bd & _). destruct (C41_accepts _ _ _ Bd) as (items' & F' & _ & HT & _).
  destruct (C41_reading dmrules_text) as (i0 & r0 & _ & U). destruct (U _ _ F) as [E1 _]. destruct (U _ _ F') as [E2 _].
  assert (items' = items) as -> by congruence. specialize (HT c).
  pose proof table_checked as K. unfold table_check in K. apply andb_true_iff in K as [_ K].
  rewrite forallb_forall in K. specialize (K _ I). rewrite HT in K. unfold tbl.
  destruct (table_of items c) as [|r1 l] eqn:E; [discriminate K|].
  apply existsb_exists in K as (r & I' & P). exists r. split; [now apply sort_In|]. now apply seq_eqb_eq.
Qed.

Definition later (ev : list (list ustr * bool)) : Prop := forall e r, In e ev -> In r (fst e) -> soft r = true.
Definition one_hard (ev : list (list ustr * bool)) : Prop := exists e, In e ev /\ forall r, In r (fst e) -> hard r = true.
Lemma choose_check : forall r b rest x, rule_check r = true -> In x (choose_replacements r b rest) ->
  soft0 x = true /\ (b = false -> soft x = true) /\ (loud_pattern r = true -> hard x = true).
Proof.
  intros r b rest x K I. unfold rule_check in K. rewrite !andb_true_iff, orb_true_iff, !forallb_forall in K.
  destruct K as [[[K1 K2] K3] K4]. unfold choose_replacements in I.
  assert (S0 : forall y, soft y = true -> soft0 y = true) by (intros y H; unfold soft0; now rewrite H).
  destruct b; [|destruct (starts_with_vowel rest)].
  - split; [auto|]. split; [discriminate|]. intros L. rewrite L in K4. destruct K4 as [K4|K4]; [discriminate K4|].
    rewrite !andb_true_iff, !forallb_forall in K4. destruct K4 as [[K5 K6] K7]. auto.
  - split; [auto|]. split; [auto|]. intros L. rewrite L in K4. destruct K4 as [K4|K4]; [discriminate K4|].
    rewrite !andb_true_iff, !forallb_forall in K4. destruct K4 as [[K5 K6] K7]. auto.
  - split; [auto|]. split; [auto|]. intros L. rewrite L in K4. destruct K4 as [K4|K4]; [discriminate K4|].
    rewrite !andb_true_iff, !forallb_forall in K4. destruct K4 as [[K5 K6] K7]. auto.
Qed.
Lemma best_In : forall c s r, best_rule (tbl c) s r -> In r (tbl c).
Proof. intros c s r (l1 & l2 & E & _). rewrite E. apply in_or_app. right. now left. Qed.

Lemma scan_later : forall prev s ev, dm_scan tbl prev s ev ->
  (prev <> 0 -> later ev) /\ (match ev with [] => True | e :: ev' => (forall r, In r (fst e) -> soft0 r = true) /\ later ev' end).
Proof.
  intros prev s ev D. induction D as [prev|prev c s ev T D IH|prev c s ev T Nr D IH|prev c s r rest ev Br E D IH].
  - split; [intros _ e r []|exact I].
  - exact IH.
  - assert (c <> 0). { destruct (tbl c) as [|r l] eqn:Et; [congruence|]. apply (tbl_rules c r). rewrite Et. now left. }
    destruct IH as [IH1 IH2]. split; [intros _; now apply IH1|]. destruct ev as [|e ev]; [exact I|]. exact IH2.
  - destruct (tbl_rules c r (best_In _ _ _ Br)) as [Nc K]. destruct IH as [IH1 IH2]. specialize (IH1 Nc). split.
    + intros Np e x [<-|He] Hx; [|now apply (IH1 e)]. cbn [fst] in Hx.
      apply (choose_check r _ _ x K Hx). now apply N.eqb_neq.
    + split; [|exact IH1]. intros x Hx. now apply (choose_check r _ _ x K Hx).
Qed.
Lemma scan_hard : forall prev s ev, dm_scan tbl prev s ev -> (exists c, In c s /\ In c loudd) -> one_hard ev.
Proof.
  intros prev s ev D. induction D as [prev|prev c s ev T D IH|prev c s ev T Nr D IH|prev c s r rest ev Br E D IH]; intros (x & Hx & L).
  - destruct Hx.
  - destruct Hx as [<-|Hx]; [|apply IH; exists x; auto]. exfalso. destruct (tbl_single c L) as (r & I & _). rewrite T in I. destruct I.
  - destruct Hx as [<-|Hx]; [|apply IH; exists x; auto]. exfalso. destruct (tbl_single c L) as (r & I & P).
    apply (Nr r s I). rewrite P. reflexivity.
  - destruct (tbl_rules c r (best_In _ _ _ Br)) as [Nc K]. rewrite E in Hx. apply in_app_or in Hx as [Hx|Hx].
    + eexists. split; [now left|]. intros y Hy. cbn [fst] in Hy. apply (choose_check r _ _ y K Hy).
      unfold loud_pattern. apply existsb_exists. exists x. split; [exact Hx|now apply isin_In].
    + destruct IH as (e & He & Hh); [exists x; auto|]. exists e. split; [now right|exact Hh].
Qed.
End Table.

(** From replacements to a code. *)
Lemma hard_not_end : forall p r, hard r = true -> (p = [] \/ p = $ "0") -> ends_with p r = false.
Proof.
  intros p r H Hp. apply not_true_is_false. intros E. apply ends_with_spec in E as [a E].
  destruct r as [|d r]; [discriminate H|]. cbn in H. apply negb_true_iff, N.eqb_neq in H.
  destruct Hp as [->| ->]; [destruct a; discriminate E|]. destruct a as [|y [|z a]]; [|discriminate E|discriminate E].
  injection E as E _. congruence.
Qed.
Lemma kept_hard : forall sel prev, (match prev with None => True | Some p => p = [] \/ p = $ "0" end) ->
  (forall x, In x sel -> soft (fst x) = true) -> (exists x, In x sel /\ hard (fst x) = true) -> hard (kept prev sel) = true.
Proof.
  intros sel. induction sel as [|[r mn] sel IH]; intros prev P S (x & Ix & Hx); [destruct Ix|].
  cbn [kept]. assert (Sr := S (r, mn) (or_introl eq_refl)). cbn [fst] in Sr.
  destruct r as [|d r].
  - match goal with |- hard ((if ?b then _ else _) ++ _) = _ => destruct b end; cbn [app];
    (apply IH; [now left|intros y Hy; apply S; now right|]; destruct Ix as [<-|Ix]; [discriminate Hx|]; exists x; auto).
  - assert (E : forall p, prev = Some p -> ends_with p (d :: r) = false) by
      (intros p ->; exact (hard_not_end p (d :: r) Sr P)).
    destruct prev as [p|]; [rewrite (E p eq_refl)|]; cbn [negb orb app hard]; exact Sr.
Qed.
Lemma code_not_blank : forall ev sel, selection ev sel ->
  (match ev with [] => True | e :: ev' => (forall r, In r (fst e) -> soft0 r = true) /\ later ev' end) -> one_hard ev ->
  dm_code sel <> $ "000000".
Proof.
  intros ev sel Se L (h & Ih & Hh).
  assert (K : hard (kept None sel) = true \/ exists t, kept None sel = # "0" :: t /\ hard t = true).
  { destruct Se as [|e [r mn] ev sel [I1 I2] Se]; [destruct Ih|]. cbn [fst snd] in I1, I2. destruct L as [L1 L2].
    assert (Ls : forall x, In x sel -> soft (fst x) = true).
    { clear -Se L2. induction Se as [|e x ev sel [I1 _] Se IH]; intros y Hy; [destruct Hy|]. destruct Hy as [<-|Hy].
      - apply (L2 e); [now left|exact I1].
      - apply IH; [|exact Hy]. intros e' r' I'. apply L2. now right. }
    assert (Hs : hard r = true \/ exists x, In x sel /\ hard (fst x) = true).
    { destruct Ih as [<-|Ih]; [left; now apply Hh|right]. clear -Se Ih Hh.
      induction Se as [|e x ev sel [I1 _] Se IH]; [destruct Ih|]. destruct Ih as [<-|Ih].
      - exists x. split; [now left|now apply Hh].
      - destruct (IH Ih) as (y & A & B). exists y. split; [now right|exact B]. }
    cbn [kept orb]. specialize (L1 r I1). unfold soft0 in L1. apply orb_true_iff in L1 as [L1|L1].
    - left. destruct r as [|d r]; [|exact L1]. cbn [app]. destruct Hs as [Hs|Hs]; [discriminate Hs|].
      apply kept_hard; auto.
    - apply seq_eqb_eq in L1. subst r. right. eexists. split; [reflexivity|]. destruct Hs as [Hs|Hs]; [discriminate Hs|].
      apply kept_hard; auto. }
  unfold dm_code, pad_to. intros E. destruct K as [K|(t & Kt & K)].
  - destruct (kept None sel) as [|d k]; [discriminate K|]. cbn in E. injection E as E _. cbn in K.
    apply negb_true_iff, N.eqb_neq in K. congruence.
  - rewrite Kt in E. destruct t as [|d k]; [discriminate K|]. cbn in E. injection E as E _. cbn in K.
    apply negb_true_iff, N.eqb_neq in K. congruence.
Qed.

(** ASCII texts. *)
Lemma folding_ascii : forall items, built_from dmrules_text true items dms_default -> forall c, c < 128 -> folding_of items c = None.
Proof.
  intros items (F & Bd & _) c H. destruct (C41_accepts _ _ _ Bd) as (items' & F' & _ & _ & HF & _).
  destruct (C41_reading dmrules_text) as (i0 & r0 & _ & U). destruct (U _ _ F) as [E1 _]. destruct (U _ _ F') as [E2 _].
  assert (items' = items) as -> by congruence. rewrite <- HF.
  assert (K : forallb (fun c => match assoc c (dms_folding_rules dms_default) with None => true | _ => false end) (map N.of_nat (seq 0 128)) = true)
    by (vm_compute; reflexivity).
  rewrite forallb_forall in K. specialize (K c).
  destruct (assoc c (dms_folding_rules dms_default)); [|reflexivity]. exfalso.
  assert (false = true); [apply K|discriminate]. apply in_map_iff. exists (N.to_nat c). split; [lia|]. apply in_seq. lia.
Qed.
Lemma text_ascii : forall u items, built_from dmrules_text true items dms_default -> forall s, ascii_str s ->
  dm_text u items true s = map ascii_low (filter (fun c => negb (is_whitespace u c)) s).
Proof.
  intros u items B s. unfold dm_text. induction s as [|c s IH]; intros H; [reflexivity|].
  apply ascii_str_cons in H as [H1 H2]. cbn [flat_map filter]. rewrite (IH H2), (to_lower_ascii u c H1).
  destruct (is_whitespace u c); cbn [negb app map]; [reflexivity|]. unfold dm_folded.
  now rewrite (folding_ascii items B) by now apply ascii_low_lt.
Qed.
Lemma daitch_codes : forall u s, ascii_str s -> (exists c, In c (map ascii_low s) /\ In c loudd) ->
  exists codes, dms_soundex u dms_default s = Ok (join $ "|" codes) /\ codes <> [] /\ ~ In $ "000000" codes
    /\ dms_encode u dms_default s = Ok (hd [] codes).
Proof.
  intros u s A (c & Hc & L). destruct C35_default as (items & B & _).
  assert (AT : ascii_str (dm_text u items true s)).
  { rewrite (text_ascii u items B s A). intros x Hx. apply in_map_iff in Hx as (y & <- & Hy). apply filter_In in Hy as [Hy _].
    apply ascii_low_lt. now apply A. }
  destruct (C39_ascii_scan_exists _ _ _ _ _ B AT) as (ev & Sc & Sa).
  assert (Hd : one_hard ev).
  { apply (scan_hard items B _ _ _ Sc). exists c. split; [|exact L]. rewrite (text_ascii u items B s A).
    apply in_map_iff in Hc as (y & E & Hy). apply in_map_iff. exists y. split; [exact E|]. apply filter_In. split; [exact Hy|].
    assert (Ay : y < 128) by now apply A. rewrite is_whitespace_ascii by exact Ay.
    assert (Hlow : 97 <= ascii_low y <= 122). { rewrite E. clear -L. cbn in L. lia. }
    destruct (ascii_low_cases y) as [[Q E']|[Q E']]; rewrite E' in Hlow;
    apply negb_true_iff; apply not_true_is_false; intros W;
    rewrite ?orb_true_iff, ?andb_true_iff, ?N.leb_le, ?N.eqb_eq in W; lia. }
  destruct (scan_later items B _ _ _ Sc) as [_ Ls].
  destruct (C39_codes u _ _ _ _ s ev B Sa) as (sels & Fe & E1 & E2 & _ & E3).
  destruct (C36_encode_soundex u _ _ _ _ s B) as (o & _ & _).
  exists (map dm_code sels). split; [exact E2|].
  assert (Ne : map dm_code sels <> []).
  { intros Q. destruct (C35_codes u _ _ _ _ s B) as (codes & D1 & D2 & D3 & _). rewrite E2 in D1. injection D1 as D1.
    rewrite Q in D1. cbn in D1. destruct codes as [|x [|y codes]]; [congruence| |].
    - cbn in D1. subst x. destruct (C35_codes u _ _ _ _ s B) as (codes & D1 & _ & D3' & D4).
      rewrite E2, Q in D1. cbn in D1. injection D1 as D1. rewrite <- D1 in D3'. cbn in D3'. subst codes.
      destruct (D4 [] (or_introl eq_refl)) as [D4' _]. discriminate D4'.
    - cbn in D1. destruct x; discriminate D1. }
  split; [exact Ne|]. split.
  - intros I. apply in_map_iff in I as (sel & E & I).
    apply (first_of_each_incl _ _ _ _ Fe) in I. apply selections_iff in I. exact (code_not_blank ev sel I Ls Hd E).
  - exact (C36_encode_is_first u dms_default s _ E1).
Qed.
