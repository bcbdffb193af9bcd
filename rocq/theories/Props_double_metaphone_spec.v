(** * C69: Double Metaphone computes its rule table. *)
From Verif Require Import Base UnicodeM Lib Helper DoubleMetaphone BaseLemmas Spec_common Spec_contextual
  Spec_double_metaphone Contextual_proofs Soundex_proofs UnicodeLemmas Cologne_proofs DoubleMetaphone_proofs
  Double_metaphone_spec_proofs Double_metaphone_run_proofs Props_double_metaphone.
Local Open Scope N_scope.

Lemma blank_ws : forall u c, c < 128 -> (is_whitespace u c = true <-> blank c).
Proof.
  intros u c L. rewrite is_whitespace_ascii by exact L. unfold blank.
  rewrite orb_true_iff, andb_true_iff, !N.leb_le, N.eqb_eq. lia.
Qed.
Lemma trim_start_keep : forall u c r, is_whitespace u c = false -> trim_start u (c :: r) = c :: r.
Proof. intros u c r H. cbn [trim_start]. now rewrite H. Qed.
Lemma trim_start_head : forall u s c r, trim_start u s = c :: r -> is_whitespace u c = false.
Proof.
  intros u. induction s as [|x s IH]; intros c r H; [discriminate|]. cbn [trim_start] in H.
  destruct (is_whitespace u x) eqn:E; [now apply (IH c r)|]. injection H as <- <-. exact E.
Qed.
Lemma trimmed_iff : forall u s core, ascii_str s -> (trimmed s core <-> core = trim u s).
Proof.
  intros u s core A. split.
  - intros (w & w' & -> & Hw & Hw' & Hh & Hl).
    apply ascii_str_app in A as [Aw A]. apply ascii_str_app in A as [Ac Aw'].
    rewrite trim_surround.
    2: { intros c Hc. apply blank_ws; [now apply Aw|now apply Hw]. }
    2: { intros c Hc. apply blank_ws; [now apply Aw'|now apply Hw']. }
    assert (NW : forall c, c < 128 -> ~ blank c -> is_whitespace u c = false).
    { intros c L Nb. destruct (is_whitespace u c) eqn:E; [|reflexivity]. now apply blank_ws in E. }
    destruct core as [|c r]; [reflexivity|]. unfold trim.
    rewrite trim_start_keep by (apply NW; [apply Ac; now left|now apply (Hh c r)]).
    destruct (rev (c :: r)) as [|x l] eqn:E.
    { apply (f_equal (@length N)) in E. rewrite rev_length in E. discriminate. }
    assert (Er : c :: r = rev l ++ [x]).
    { rewrite <- (rev_involutive (c :: r)), E. reflexivity. }
    rewrite trim_start_keep; [exact Er|].
    apply NW; [|now apply (Hl (rev l) x)]. apply Ac. rewrite Er. apply in_or_app. right. now left.
  - intros ->. unfold trim.
    destruct (trim_start_split u s) as (w & Es & Hw).
    destruct (trim_start_split u (rev (trim_start u s))) as (v & Ev & Hv).
    set (k := trim_start u (rev (trim_start u s))) in *.
    assert (Et : trim_start u s = rev k ++ rev v).
    { rewrite <- (rev_involutive (trim_start u s)), Ev, rev_app_distr. reflexivity. }
    assert (As : forall c, In c s -> c < 128) by exact A.
    exists w, (rev v). rewrite <- Et. split; [exact Es|]. split; [|split; [|split]].
    + intros c Hc. apply (blank_ws u); [apply As; rewrite Es; apply in_or_app; now left|now apply Hw].
    + intros c Hc. apply (blank_ws u); [|apply Hv; now apply in_rev].
      apply As. rewrite Es, Et. apply in_or_app. right. apply in_or_app. now right.
    + intros c r Ec B. rewrite Ec in Et. cbn [app] in Et.
      pose proof (trim_start_head u s _ _ Et) as F.
      apply (blank_ws u) in B; [congruence|]. apply As. rewrite Es, Et. apply in_or_app. right. now left.
    + intros r c Ec B.
      assert (Ek : k = c :: rev r) by (rewrite <- (rev_involutive k), Ec, rev_app_distr; reflexivity).
      pose proof (trim_start_head u _ _ _ Ek) as F.
      apply (blank_ws u) in B; [congruence|]. apply As. rewrite Es, Et, Ec.
      apply in_or_app. right. apply in_or_app. left. apply in_or_app. right. now left.
Qed.

Lemma dm_start_iff : forall t i,
  dm_start t i <-> i = if existsb (starts_with t) SILENT_START then 1%nat else 0%nat.
Proof.
  intros t i. change SILENT_START with silent_beginnings. unfold dm_start.
  destruct (existsb (starts_with t) silent_beginnings) eqn:E.
  - apply existsb_exists in E as (w & Hw & E). apply starts_with_spec in E as [r E]. split.
    + intros [[-> _]|[-> N]]; [reflexivity|]. now elim (N w r Hw).
    + intros ->. left. split; [reflexivity|]. now exists w, r.
  - split.
    + intros [[-> (w & r & Hw & Et)]|[-> N]]; [|reflexivity].
      assert (K : existsb (starts_with t) silent_beginnings = true).
      { apply existsb_exists. exists w. split; [exact Hw|]. apply starts_with_spec. now exists r. }
      congruence.
    + intros ->. right. split; [reflexivity|]. intros w r Hw Et.
      assert (K : existsb (starts_with t) silent_beginnings = true).
      { apply existsb_exists. exists w. split; [exact Hw|]. apply starts_with_spec. now exists r. }
      congruence.
Qed.
Lemma dm_full_reads : forall u s p a, ascii_str s -> double_metaphone u None s = Ok (dm_of p a) ->
  exists i, dm_start (map ascii_up (trim u s)) i /\ dm_reads (map ascii_up (trim u s)) i p a.
Proof.
  intros u s p a A H.
  assert (At : ascii_str (trim u s)) by (eapply ascii_str_incl; [apply trim_incl|exact A]).
  assert (Au : ascii_str (map ascii_up (trim u s))).
  { intros x Hx. apply in_map_iff in Hx as (y & <- & Hy). apply ascii_up_lt. now apply At. }
  eexists. split; [now apply dm_start_iff|].
  unfold double_metaphone in H. destruct (trim u s) as [|x l] eqn:E.
  - injection H as <- <-. cbn. apply dr_end. cbn. lia.
  - cbv zeta in H. rewrite str_upper_ascii in H by exact At. rewrite <- E in *. clear E x l.
    remember (map ascii_up (trim u s)) as v eqn:Ev.
    unfold char_indices in H. rewrite char_indices_skipn in H by exact Au.
    change {| dm_primary := []; dm_alternate := [] |} with (dm_of [] []) in H.
    assert (U : forall x, In x v -> is_ascii_lower x = false).
    { intros x Hx. rewrite Ev in Hx. apply in_map_iff in Hx as (y & <- & _).
      unfold ascii_up. destruct (is_ascii_lower y) eqn:E; [|exact E].
      unfold is_ascii_lower in *. apply andb_true_iff in E as [E1 E2]. apply N.leb_le in E1. apply N.leb_le in E2.
      apply andb_false_iff. left. apply N.leb_gt. lia. }
    destruct (dm_loop_reads v Au U v 0%nat _ [] [] _ eq_refl H) as (ps & als & R & Er).
    cbn [app] in Er. injection Er as -> ->. exact R.
Qed.

(** For every ASCII text and every limit, the two codes are those the rule table gives to the
    text without surrounding white space, in uppercase - and no others. *)
Theorem C69_double_metaphone_is_its_definition : forall u max s core p a, ascii_str s -> trimmed s core ->
  (double_metaphone u max s = Ok {| dm_primary := p; dm_alternate := a |}
   <-> double_metaphone_codes max (map ascii_up core) p a).
Proof.
  intros u max s core p a A T. apply (trimmed_iff u s core A) in T. subst core.
  destruct (C27_total_ascii u None s A) as [[fp fa] Hf].
  destruct (dm_full_reads u s fp fa A Hf) as (i & Hi & R).
  assert (Hc : double_metaphone u max s = Ok {| dm_primary := dm_cut max fp; dm_alternate := dm_cut max fa |}).
  { destruct max as [n|]; [|exact Hf]. now apply C26_truncation. }
  rewrite Hc. unfold double_metaphone_codes. split.
  - intros K. injection K as <- <-. now exists i, fp, fa.
  - intros (j & ps & als & Hj & Rj & -> & ->).
    apply dm_start_iff in Hi. apply dm_start_iff in Hj. subst i j.
    now destruct (dm_reads_unique _ _ _ _ R _ _ Rj) as [-> ->].
Qed.
(** Every word has exactly one pair of codes: the rule table is complete and unambiguous. *)
Theorem C69_codes_exist_unique : forall max s, ascii_str s ->
  exists core p a, trimmed s core /\ double_metaphone_codes max (map ascii_up core) p a
    /\ forall core' p' a', trimmed s core' -> double_metaphone_codes max (map ascii_up core') p' a' ->
       core' = core /\ p' = p /\ a' = a.
Proof.
  intros max s A. destruct (C27_total_ascii latin1_only max s A) as [[p a] Hc].
  assert (T : trimmed s (trim latin1_only s)) by now apply (trimmed_iff latin1_only).
  exists (trim latin1_only s), p, a. split; [exact T|].
  split; [now apply (C69_double_metaphone_is_its_definition latin1_only max s)|].
  intros core' p' a' T' H'. split; [now apply (trimmed_iff latin1_only) in T'|].
  apply (C69_double_metaphone_is_its_definition latin1_only max s _ _ _ A T') in H'.
  rewrite Hc in H'. injection H' as -> ->. now split.
Qed.
(** Only surrounding white space: no code. *)
Theorem C69_blank_has_no_code : forall u max s, (forall c, In c s -> blank c) ->
  double_metaphone u max s = Ok {| dm_primary := []; dm_alternate := [] |}.
Proof.
  intros u max s B.
  assert (A : ascii_str s) by (intros c Hc; destruct (B c Hc) as [->|L]; lia).
  apply (C69_double_metaphone_is_its_definition u max s []); [exact A| |].
  - exists s, []. rewrite app_nil_r. split; [reflexivity|]. split; [exact B|]. split; [intros c []|].
    split; [discriminate|]. intros r c E. destruct r; discriminate.
  - exists 0%nat, [], []. split; [|split; [apply dr_end; cbn; lia|now destruct max as [[|n]|]]].
    right. split; [reflexivity|]. intros w r Hw E.
    cbn in Hw. repeat destruct Hw as [<-|Hw]; try discriminate E. destruct Hw.
Qed.
Example C69_nonvacuous :
  double_metaphone_codes (Some 4%nat) $ "THUMBLING" $ "0MPL" $ "TMPL"
  /\ double_metaphone_codes None $ "SCHWARZENEGGER" $ "XRSNKR" $ "XFRTSNKR"
  /\ trimmed $ "  Knight " $ "Knight".
Proof.
  assert (T : forall s, ascii_str s -> trim latin1_only s = s -> trimmed s s).
  { intros s A E. apply (trimmed_iff latin1_only); [exact A|now symmetry]. }
  split; [|split].
  - apply (C69_double_metaphone_is_its_definition latin1_only (Some 4%nat) $ "Thumbling" $ "Thumbling").
    + apply ascii_strb; reflexivity.
    + apply T; [apply ascii_strb; reflexivity|vm_compute; reflexivity].
    + vm_compute; reflexivity.
  - apply (C69_double_metaphone_is_its_definition latin1_only None $ "Schwarzenegger" $ "Schwarzenegger").
    + apply ascii_strb; reflexivity.
    + apply T; [apply ascii_strb; reflexivity|vm_compute; reflexivity].
    + vm_compute; reflexivity.
  - apply (trimmed_iff latin1_only); [apply ascii_strb; reflexivity|vm_compute; reflexivity].
Qed.

(** ** C60 at the level of the API: "Van Ch..." is not read as a Germanic name. *)
Lemma ascii_cases : forall (P : N -> Prop), (forall k, (k < 128)%nat -> P (N.of_nat k)) -> forall y, y < 128 -> P y.
Proof. intros P H y L. rewrite <- (N2Nat.id y). apply H. lia. Qed.
(** A variant of [run] that computes on texts with an unknown tail. *)
Definition stands_lazy (text w : ustr) (p : Z) : bool :=
  (0 <=? p)%Z && Nat.leb (Z.to_nat p) (length text) && starts_with (skipn (Z.to_nat p) text) w.
Fixpoint holds_lazy (text : ustr) (i : nat) (c : cond) : bool :=
  match c with
  | At d ws => existsb (fun w => stands_lazy text w (Z.of_nat i + d)) ws
  | Both c d => holds_lazy text i c && holds_lazy text i d
  | Either c d => holds_lazy text i c || holds_lazy text i d
  | Not c => negb (holds_lazy text i c)
  | c => holdsb text i c
  end.
Fixpoint run_lazy {A} (text : ustr) (i : nat) (r : rule A) : A :=
  match r with Out a => a | If c r1 r2 => if holds_lazy text i c then run_lazy text i r1 else run_lazy text i r2 end.
Lemma stands_lazy_eq : forall text w p, stands_lazy text w p = stands_atb text w p.
Proof.
  intros text w p. unfold stands_lazy, stands_atb. destruct (Z.leb_spec 0 p) as [L|L]; [|reflexivity].
  cbn [andb]. f_equal. apply eq_true_iff_eq. rewrite Nat.leb_le, Z.leb_le. lia.
Qed.
Lemma holds_lazy_eq : forall text i c, holds_lazy text i c = holdsb text i c.
Proof.
  intros text i c. induction c as [d ws|n|n|n|ws|ws|ws|c1 IH1 c2 IH2|c1 IH1 c2 IH2|c IH];
    cbn [holds_lazy holdsb]; try reflexivity.
  - induction ws as [|w ws IH]; [reflexivity|]. cbn [existsb]. now rewrite stands_lazy_eq, IH.
  - now rewrite IH1, IH2.
  - now rewrite IH1, IH2.
  - now rewrite IH.
Qed.
Lemma run_lazy_eq : forall A text i (r : rule A), run_lazy text i r = run text i r.
Proof.
  intros A text i r. induction r as [a|c r1 IH1 r2 IH2]; [reflexivity|]. cbn [run_lazy run].
  now rewrite holds_lazy_eq, IH1, IH2.
Qed.
Definition van_run (v : ustr) : (ustr * ustr * nat) :=
  run_lazy v 4 (lookup double_metaphone_table (nothing 0) (# "C")).
Lemma van_ch : forall a y r, (a = # "A" \/ a = # "O") -> y < 128 -> isin y $ "AITS" = false ->
  van_run (# "V" :: a :: $ "N CH" ++ y :: r) = ($ "X", $ "K", 1%nat).
Proof.
  intros a y r Ha L. revert Ha.
  refine (ascii_cases (fun y => (a = # "A" \/ a = # "O") -> isin y $ "AITS" = false ->
              van_run (# "V" :: a :: $ "N CH" ++ y :: r) = ($ "X", $ "K", 1%nat)) _ y L). clear y L. intros k Hk.
  do 128 (destruct k as [|k]; [intros [->| ->] E; vm_compute in E; first [discriminate E|vm_compute; reflexivity]|]).
  lia.
Qed.
Lemma reads_step : forall t i c p a, dm_reads t i p a -> nth_error t i = Some c ->
  forall p1 a1 k, run_lazy t i (lookup double_metaphone_table (nothing 0) c) = (p1, a1, k) ->
  exists p2 a2, dm_reads t (i + 1 + k) p2 a2 /\ p = p1 ++ p2 /\ a = a1 ++ a2.
Proof.
  intros t i c p a R E p1 a1 k Hr. rewrite run_lazy_eq in Hr. inversion R as [i0 L|i0 c0 r p0 a0 k0 ps als E0 Ho Hg Hd]; subst.
  - apply nth_error_None in L. congruence.
  - assert (c0 = c) by congruence. subst c0.
    apply (rule_of_iff _ _ _ _ _ dm_table_disjoint) in Ho. subst r.
    apply gives_iff in Hg. rewrite Hr in Hg. injection Hg as -> -> ->. now exists ps, als.
Qed.
Theorem C60_van_von_ch : forall u y r, ascii_str (y :: r) -> ~ In (ascii_up y) $ "AITS" ->
  forall van, In van [$ "Van Ch"; $ "Von Ch"; $ "VAN CH"; $ "VON CH"; $ "van ch"; $ "von ch"] ->
  exists p a, double_metaphone u None (van ++ y :: r)
              = Ok {| dm_primary := $ "FNX" ++ p; dm_alternate := $ "FNK" ++ a |}.
Proof.
  intros u y r A Hy van Hv.
  assert (Av : ascii_str van) by (apply ascii_strb; repeat destruct Hv as [<-|Hv]; try reflexivity; destruct Hv).
  assert (As : ascii_str (van ++ y :: r)) by (apply ascii_str_app; now split).
  destruct (C27_total_ascii u None _ As) as [[p a] H].
  assert (T : exists t, trim u (van ++ y :: r) = van ++ t /\ (t = [] \/ exists t', t = y :: t')).
  { destruct (proj2 (trimmed_iff u _ _ As) eq_refl) as (w & w' & E & Hw & Hw' & Hh & Hl).
    assert (w = []) as ->.
    { destruct w as [|c w]; [reflexivity|]. exfalso. specialize (Hw c (or_introl eq_refl)).
      assert (c = # "V" \/ c = # "v") as [-> | ->].
      { repeat (destruct Hv as [<-|Hv]; [injection E as <- _; auto|]). destruct Hv. }
      - destruct Hw as [K|K]; [discriminate K|revert K; vm_compute; tauto || (intros [K1 K2]; now apply K2)].
      - destruct Hw as [K|K]; [discriminate K|revert K; vm_compute; tauto || (intros [K1 K2]; now apply K2)]. }
    cbn [app] in E. set (core := trim u (van ++ y :: r)) in *.
    assert (Lc : (length van <= length core)%nat).
    { destruct (Nat.le_gt_cases (length van) (length core)) as [K|K]; [exact K|exfalso].
      assert (Hin : exists m, van = core ++ m /\ m <> [] /\ exists q, w' = m ++ q).
      { exists (skipn (length core) van). split; [|split].
        - rewrite <- (firstn_skipn (length core) van) at 1. f_equal.
          apply (f_equal (firstn (length core))) in E.
          rewrite !firstn_app, firstn_all, Nat.sub_diag in E. cbn [firstn] in E. rewrite app_nil_r in E.
          replace (length core - length van)%nat with 0%nat in E by lia. cbn [firstn] in E. now rewrite app_nil_r in E.
        - intros K2. apply (f_equal (@length N)) in K2. rewrite skipn_length in K2. cbn in K2. lia.
        - exists (y :: r). apply (f_equal (skipn (length core))) in E.
          rewrite !skipn_app, skipn_all, Nat.sub_diag in E. cbn [skipn app] in E.
          replace (length core - length van)%nat with 0%nat in E by lia. cbn [skipn] in E. now symmetry. }
      destruct Hin as (m & Em & Nm & q & Eq).
      destruct (exists_last Nm) as (m0 & z & Em0). rewrite Em0 in *.
      assert (Bz : blank z) by (apply Hw'; rewrite Eq, <- app_assoc; apply in_or_app; right; now left).
      assert (Z : last van 0 = z) by (rewrite Em, app_assoc; apply last_last).
      repeat (destruct Hv as [<-|Hv]; [cbn [last] in Z; subst z; destruct Bz as [B|B]; [discriminate B|revert B; vm_compute; intros [K1 K2]; now apply K2]|]).
      destruct Hv. }
    assert (Ev : van = firstn (length van) core).
    { apply (f_equal (firstn (length van))) in E. rewrite !firstn_app, firstn_all, Nat.sub_diag in E.
      cbn [firstn] in E. rewrite app_nil_r in E. replace (length van - length core)%nat with 0%nat in E by lia.
      cbn [firstn] in E. now rewrite app_nil_r in E. }
    exists (skipn (length van) core). split; [rewrite Ev at 1; symmetry; apply firstn_skipn|].
    apply (f_equal (skipn (length van))) in E. rewrite !skipn_app, skipn_all, Nat.sub_diag in E.
    cbn [skipn app] in E. replace (length van - length core)%nat with 0%nat in E by lia. cbn [skipn] in E.
    destruct (skipn (length van) core) as [|c t']; [now left|right].
    cbn [app] in E. injection E as <- _. now exists t'. }
  destruct T as (t & Et & Ht).
  pose proof H as H0. apply (dm_full_reads u _ p a As) in H. rewrite Et, map_app in H. destruct H as (i & Hi & R).
  apply dm_start_iff in Hi.
  assert (Up : exists o, (o = # "A" \/ o = # "O") /\ map ascii_up van = # "V" :: o :: $ "N CH").
  { repeat (destruct Hv as [<-|Hv]; [vm_compute; eexists; (split; [|reflexivity]); auto|]). destruct Hv. }
  destruct Up as (o & Ho & Eo). rewrite Eo in *.
  assert (Hi0 : i = 0%nat) by (rewrite Hi; destruct Ho as [-> | ->]; reflexivity). rewrite Hi0 in R. clear Hi0 Hi i.
  assert (S0 : exists p2 a2, dm_reads ((# "V" :: o :: $ "N CH") ++ map ascii_up t) 1 p2 a2 /\ p = $ "F" ++ p2 /\ a = $ "F" ++ a2).
  { apply (reads_step _ 0%nat (# "V") p a R eq_refl). destruct Ho as [-> | ->]; vm_compute; reflexivity. }
  destruct S0 as (p1 & a1 & R1 & -> & ->).
  assert (S1 : exists p2 a2, dm_reads ((# "V" :: o :: $ "N CH") ++ map ascii_up t) 2 p2 a2 /\ p1 = [] ++ p2 /\ a1 = [] ++ a2).
  { apply (reads_step _ 1%nat o p1 a1 R1 eq_refl). destruct Ho as [-> | ->]; vm_compute; reflexivity. }
  destruct S1 as (p2 & a2 & R2 & -> & ->).
  assert (S2 : exists p3 a3, dm_reads ((# "V" :: o :: $ "N CH") ++ map ascii_up t) 3 p3 a3 /\ p2 = $ "N" ++ p3 /\ a2 = $ "N" ++ a3).
  { apply (reads_step _ 2%nat (# "N") p2 a2 R2 eq_refl). destruct Ho as [-> | ->]; vm_compute; reflexivity. }
  destruct S2 as (p3 & a3 & R3 & -> & ->).
  assert (S3 : exists p4 a4, dm_reads ((# "V" :: o :: $ "N CH") ++ map ascii_up t) 4 p4 a4 /\ p3 = [] ++ p4 /\ a3 = [] ++ a4).
  { apply (reads_step _ 3%nat 32 p3 a3 R3 eq_refl). destruct Ho as [-> | ->]; vm_compute; reflexivity. }
  destruct S3 as (p4 & a4 & R4 & -> & ->).
  assert (S4 : exists p5 a5, dm_reads ((# "V" :: o :: $ "N CH") ++ map ascii_up t) 6 p5 a5 /\ p4 = $ "X" ++ p5 /\ a4 = $ "K" ++ a5).
  { apply (reads_step _ 4%nat (# "C") p4 a4 R4 eq_refl).
    destruct Ht as [->|(t' & ->)].
    - destruct Ho as [-> | ->]; vm_compute; reflexivity.
    - apply van_ch; [exact Ho|apply ascii_up_lt; apply A; now left|]. now apply isin_false. }
  destruct S4 as (p5 & a5 & R5 & -> & ->). exists p5, a5. exact H0.
Qed.
Example C60_nonvacuous : exists u y r, ascii_str (y :: r) /\ ~ In (ascii_up y) $ "AITS"
  /\ double_metaphone u None ($ "Van Ch" ++ y :: r) = Ok {| dm_primary := $ "FNXPL"; dm_alternate := $ "FNKPL" |}.
Proof.
  exists latin1_only, (# "e"), $ "ppel". split; [apply ascii_strb; reflexivity|]. split; [|vm_compute; reflexivity].
  vm_compute. intros K. repeat destruct K as [K|K]; try discriminate K. exact K.
Qed.
