(** * C99: what counts in a mapping is which letters have the same code. *)
From Verif Require Import Base UnicodeM Lib Soundex BaseLemmas Lib_proofs Spec_common Spec_renaming Soundex_proofs Exchange_proofs.
Local Open Scope N_scope.

Definition rename (f : N -> N) (r : res ustr) : res ustr := match r with Ok code => Ok (renamed f code) | Panic => Panic | NoFuel => NoFuel end.

Lemma get_map : forall f m c, get_mapping_code (map f m) c = match get_mapping_code m c with Ok d => Ok (f d) | Panic => Panic | NoFuel => NoFuel end.
Proof.
  intros f m c. unfold get_mapping_code. destruct (c <? 65); [reflexivity|]. rewrite map_length. destruct (c - 65 <? _); [|reflexivity].
  rewrite nth_error_map. destruct (nth_error m _); reflexivity.
Qed.
Lemma get_in : forall m c d, get_mapping_code m c = Ok d -> In d m.
Proof.
  intros m c d H. unfold get_mapping_code in H. destruct (c <? 65); [discriminate|]. destruct (c - 65 <? _); [|discriminate].
  destruct (nth_error m _) eqn:E; [|discriminate]. injection H as <-. now apply nth_error_In in E.
Qed.
Lemma faithful_eqb : forall f l a b, faithful f l -> In a l -> In b l -> (f a =? f b) = (a =? b).
Proof.
  intros f l a b F A B. destruct (N.eqb_spec a b) as [->|NE]; [apply N.eqb_refl|]. apply N.eqb_neq. intros E. apply NE. now apply F.
Qed.

(** ** Refined Soundex *)
Lemma refined_loop_rename : forall f m, faithful f m -> forall q p, (forall d, p = Some d -> In d m) ->
  refined_loop (map f m) (option_map f p) q = match refined_loop m p q with Ok l => Ok (map f l) | Panic => Panic | NoFuel => NoFuel end.
Proof.
  intros f m F. induction q as [|c q IH]; intros p P; [reflexivity|]. cbn [refined_loop]. rewrite get_map.
  destruct (get_mapping_code m c) as [d| |] eqn:G; [|reflexivity..]. cbn [bind]. apply get_in in G.
  specialize (IH (Some d)). cbn [option_map] in IH. rewrite IH by (intros ? [= <-]; exact G).
  destruct (refined_loop m (Some d) q) as [l| |]; [|reflexivity..]. cbn [bind].
  replace (opt_is (option_map f p) (f d)) with (opt_is p d); [now destruct (opt_is p d)|].
  destruct p as [e|]; [|reflexivity]. cbn. symmetry. apply (faithful_eqb f m); [exact F|now apply P|exact G].
Qed.
Theorem C99_refined_renamed : forall u f m s, faithful f m -> refined_encode u (map f m) s = rename f (refined_encode u m s).
Proof.
  intros u f m s F. unfold refined_encode. destruct (soundex_clean u s) as [|c r]; [reflexivity|].
  change (@None N) with (option_map f None) at 1. rewrite refined_loop_rename by (assumption || discriminate).
  destruct (refined_loop m None (c :: r)); reflexivity.
Qed.

(** ** Soundex *)
Lemma soundex_loop_rename : forall f m hw, faithful f (# "0" :: # "-" :: m) -> f (# "0") = # "0" -> f (# "-") = # "-" ->
  forall q count code p, In p (# "0" :: # "-" :: m) ->
  soundex_loop {| sx_mapping := map f m; sx_special_case_h_w := hw |} count (map f code) (f p) q =
  match soundex_loop {| sx_mapping := m; sx_special_case_h_w := hw |} count code p q with
  | Ok (n, l) => Ok (n, map f l) | Panic => Panic | NoFuel => NoFuel end.
Proof.
  intros f m hw F F0 F1. induction q as [|c q IH]; intros count code p P; cbn [soundex_loop sx_mapping sx_special_case_h_w];
    (destruct (Nat.ltb count 4); [|reflexivity]); [reflexivity|].
  destruct (hw && _); [now apply IH|]. rewrite get_map. destruct (get_mapping_code m c) as [d| |] eqn:G; [|reflexivity..]. cbn [bind].
  assert (D : In d (# "0" :: # "-" :: m)) by (right; right; now apply get_in in G).
  assert (E : forall b, In b (# "0" :: # "-" :: m) -> (f d =? f b) = (d =? b)) by (intros b B; now apply (faithful_eqb f _ d b F)).
  unfold SILENT. rewrite <- F1 at 1. rewrite E by (right; now left). destruct (d =? # "-"); [now apply IH|].
  rewrite <- F0 at 1. rewrite E by now left. rewrite E by exact P.
  destruct (negb (d =? # "0") && negb (d =? p)); [|now apply IH]. now apply (IH _ (d :: code)).
Qed.
Theorem C99_soundex_renamed : forall u f m hw s, faithful f (# "0" :: # "-" :: m) -> f (# "0") = # "0" -> f (# "-") = # "-" ->
  soundex_encode u (soundex_new (map f m) hw) s = rename f (soundex_encode u (soundex_new m hw) s).
Proof.
  intros u f m hw s F F0 F1. unfold soundex_encode, soundex_new. destruct (soundex_clean u s) as [|c r]; [reflexivity|]. cbn [sx_mapping].
  rewrite get_map. destruct (get_mapping_code m c) as [d| |] eqn:G; [|reflexivity..]. cbn [bind].
  change (@nil N) with (map f []) at 1. rewrite soundex_loop_rename; [|assumption..|right; right; now apply get_in in G].
  destruct (soundex_loop _ 1 [] d r) as [[n l]| |]; [|reflexivity..]. cbn [bind rename renamed].
  rewrite map_app, map_rev. do 3 f_equal. clear -F0. induction (4 - n)%nat as [|k IH]; cbn [repeat map]; [reflexivity|]. now rewrite F0, <- IH.
Qed.

(** ** Verdicts *)
Section Verdicts.
Variables (f : N -> N) (L : ustr) (e e' : encoder).
Hypothesis F : faithful f L.
Hypothesis R : forall s, e' s = rename f (e s).
Hypothesis D : forall s code, e s = Ok code -> forall d, In d (tl code) -> In d L.
Lemma map_eqb : forall a b, (forall d, In d a -> In d L) -> (forall d, In d b -> In d L) -> seq_eqb (map f a) (map f b) = seq_eqb a b.
Proof.
  induction a as [|x a IH]; intros [|y b] A B; cbn [map seq_eqb]; try reflexivity.
  rewrite (faithful_eqb f L x y F) by (first [apply A; now left|apply B; now left]). f_equal. apply IH; intros d I; [apply A|apply B]; now right.
Qed.
Lemma count_map : forall a b, (forall d, In d a -> In d L) -> (forall d, In d b -> In d L) -> count_same (map f a) (map f b) = count_same a b.
Proof.
  induction a as [|x a IH]; intros [|y b] A B; cbn [map count_same]; try reflexivity.
  rewrite (faithful_eqb f L x y F) by (first [apply A; now left|apply B; now left]). rewrite IH; [reflexivity|intros d I; apply A; now right|intros d I; apply B; now right].
Qed.
Lemma same_verdict : forall s t, is_encoded_equals e' s t = is_encoded_equals e s t /\ difference e' s t = difference e s t.
Proof.
  intros s t. unfold is_encoded_equals, difference. rewrite !R. pose proof (D s) as Ds. pose proof (D t) as Dt.
  destruct (e s) as [a| |]; [|split; reflexivity..]. destruct (e t) as [b| |]; [|split; reflexivity..]. specialize (Ds a eq_refl). specialize (Dt b eq_refl).
  cbn [rename bind]. destruct a as [|x a], b as [|y b]; cbn [renamed tl seq_eqb count_same] in *; try (split; reflexivity).
  rewrite map_eqb, count_map by assumption. split; reflexivity.
Qed.
End Verdicts.

Lemma refined_digits : forall u m s code, refined_encode u m s = Ok code -> forall d, In d (tl code) -> In d m.
Proof.
  intros u m s code. unfold refined_encode. destruct (soundex_clean u s) as [|c r]; [intros [= <-] d []|].
  assert (K : forall q p l, refined_loop m p q = Ok l -> forall d, In d l -> In d m).
  { induction q as [|x q IH]; intros p l; cbn [refined_loop]; [intros [= <-] d []|].
    destruct (get_mapping_code m x) as [e| |] eqn:G; [|discriminate..]. cbn [bind]. apply get_in in G.
    destruct (refined_loop m (Some e) q) as [l'| |] eqn:E; [|discriminate..]. cbn [bind]. intros [= <-] d I.
    destruct (opt_is p e); [|destruct I as [<-|I]; [exact G|]]; eapply IH; eauto. }
  destruct (refined_loop m None (c :: r)) as [l| |] eqn:E; [|discriminate..]. intros [= <-]. cbn [tl]. eapply K, E.
Qed.
Lemma soundex_digits : forall u m hw s code, soundex_encode u (soundex_new m hw) s = Ok code -> forall d, In d (tl code) -> In d (# "0" :: # "-" :: m).
Proof.
  intros u m hw s code. unfold soundex_encode, soundex_new. destruct (soundex_clean u s) as [|c r]; [intros [= <-] d []|]. cbn [sx_mapping].
  destruct (get_mapping_code m c) as [e| |] eqn:G; [|discriminate..]. cbn [bind].
  assert (K : forall q n acc p x, soundex_loop {| sx_mapping := m; sx_special_case_h_w := hw |} n acc p q = Ok x ->
    (forall d, In d acc -> In d (# "0" :: # "-" :: m)) -> forall d, In d (snd x) -> In d (# "0" :: # "-" :: m)).
  { induction q as [|y q IH]; intros n acc p x; cbn [soundex_loop sx_mapping sx_special_case_h_w];
      (destruct (Nat.ltb n 4); [|intros [= <-] A d I; now apply A]); [intros [= <-] A d I; now apply A|].
    destruct (hw && _); [apply IH|]. destruct (get_mapping_code m y) as [v| |] eqn:Gy; [|discriminate..]. cbn [bind]. apply get_in in Gy.
    destruct (v =? SILENT); [apply IH|]. destruct (negb (v =? # "0") && negb (v =? p)); [|apply IH].
    intros H A. apply (IH _ _ _ _ H). intros d [<-|I]; [right; now right|now apply A]. }
  destruct (soundex_loop _ 1 [] e r) as [[n l]| |] eqn:E; [|discriminate..]. intros [= <-] d I. cbn [tl] in I.
  apply in_app_or in I as [I|I]; [|left; symmetry; now apply repeat_spec in I].
  apply in_rev in I. apply (K _ _ _ _ _ E); [intros ? []|exact I].
Qed.

(** From tables with the same groups to a renaming. *)
Fixpoint from_to (m m' : ustr) (c : N) : N :=
  match m, m' with a :: r, b :: r' => if c =? a then b else from_to r r' c | _, _ => c end.
Lemma from_to_in : forall m m' c, length m = length m' -> In c m -> exists i, (i < length m)%nat /\ nth i m 0 = c /\ from_to m m' c = nth i m' 0.
Proof.
  induction m as [|a m IH]; intros [|b m'] c L I; cbn in L; try discriminate L; [destruct I|]. cbn [from_to]. destruct (N.eqb_spec c a) as [->|NE].
  - exists 0%nat. cbn. split; [lia|auto].
  - destruct I as [E|I]; [now destruct NE|]. destruct (IH m' c ltac:(lia) I) as (i & Hi & E & F). exists (S i). cbn [length nth]. split; [lia|auto].
Qed.
Lemma from_to_out : forall m m' c, ~ In c m -> from_to m m' c = c.
Proof.
  induction m as [|a m IH]; intros m' c H; [reflexivity|]. destruct m' as [|b m']; [reflexivity|]. cbn [from_to].
  destruct (N.eqb_spec c a) as [->|NE]; [destruct H; now left|]. apply IH. intros I. apply H. now right.
Qed.
Lemma groups_map : forall m m', same_groups m m' -> map (from_to m m') m = m' /\ faithful (from_to m m') m.
Proof.
  intros m m' (L & L' & G). split.
  - apply (nth_ext _ _ 0 0); [rewrite map_length; lia|]. intros i Hi. rewrite map_length, L in Hi.
    rewrite (nth_indep _ 0 (from_to m m' 0)) by (rewrite map_length; lia). rewrite map_nth.
    destruct (from_to_in m m' (nth i m 0) ltac:(lia) ltac:(apply nth_In; lia)) as (j & Hj & E & ->). apply G; [lia|exact Hi|exact E].
  - intros a b A B E. destruct (from_to_in m m' a ltac:(lia) A) as (i & Hi & <- & Ei). destruct (from_to_in m m' b ltac:(lia) B) as (j & Hj & <- & Ej).
    rewrite Ei, Ej in E. apply G; [lia|lia|exact E].
Qed.
Lemma places_fixed : forall c m m', same_groups m m' -> same_places c m m' -> from_to m m' c = c.
Proof.
  intros c m m' (L & L' & G) P. destruct (in_dec N.eq_dec c m) as [I|NI]; [|now apply from_to_out].
  destruct (from_to_in m m' c ltac:(lia) I) as (i & Hi & E & ->). apply P; [lia|exact E].
Qed.
Lemma fixed_faithful : forall c l m m', same_groups m m' -> same_places c m m' -> faithful (from_to m m') l ->
  (forall a, In a l -> In a m \/ from_to m m' a = a) -> faithful (from_to m m') (c :: l).
Proof.
  intros c l m m' SG P F K.
  assert (C : forall b, In b l -> from_to m m' b = from_to m m' c -> b = c).
  { intros b Ib E. rewrite (places_fixed c m m' SG P) in E. destruct (K b Ib) as [I|Eb]; [|congruence].
    destruct SG as (L & L' & G). destruct (from_to_in m m' b ltac:(lia) I) as (i & Hi & <- & Ei). apply P; [lia|congruence]. }
  intros a b [<-|A] [<-|B] E; [reflexivity|symmetry; now apply C|now apply C|now apply F].
Qed.
Theorem C99_soundex : forall u m m' hw s t, same_groups m m' -> same_places (# "0") m m' -> same_places (# "-") m m' ->
  is_encoded_equals (soundex_encode u (soundex_new m' hw)) s t = is_encoded_equals (soundex_encode u (soundex_new m hw)) s t
  /\ difference (soundex_encode u (soundex_new m' hw)) s t = difference (soundex_encode u (soundex_new m hw)) s t.
Proof.
  intros u m m' hw s t SG P0 P1. destruct (groups_map m m' SG) as [M F].
  assert (F2 : faithful (from_to m m') (# "0" :: # "-" :: m)).
  { apply fixed_faithful; [exact SG|exact P0| |].
    - apply fixed_faithful; [exact SG|exact P1|exact F|now left].
    - intros a [<-|I]; [right; now apply places_fixed|now left]. }
  apply (same_verdict (from_to m m') (# "0" :: # "-" :: m)); [exact F2| |apply soundex_digits].
  intros x. rewrite <- M at 1. apply C99_soundex_renamed; [exact F2|now apply places_fixed..].
Qed.
Lemma refined_tell : forall u m i j, length m = 26%nat -> (i < 26)%nat -> (j < 26)%nat ->
  let a := # "A" in let x := 65 + N.of_nat i in let y := 65 + N.of_nat j in
  is_encoded_equals (refined_encode u m) [a; x] [a; y] = Ok (nth i m 0 =? nth j m 0).
Proof.
  intros u m i j L Hi Hj. cbv zeta.
  assert (E : forall k, (k < 26)%nat -> refined_encode u m [ # "A"; 65 + N.of_nat k ] =
    Ok (# "A" :: nth 0 m 0 :: if nth 0 m 0 =? nth k m 0 then [] else [nth k m 0])).
  { intros k Hk. unfold refined_encode. change [ # "A"; 65 + N.of_nat k ] with ([ # "A" ] ++ [65 + N.of_nat k]).
    assert (R : # "A" <= 65 + N.of_nat k <= # "Z") by (change (65 <= 65 + N.of_nat k <= 90); lia).
    assert (R0 : # "A" <= # "A" <= # "Z") by (vm_compute; split; discriminate).
    rewrite clean_app, (letter_clean u (# "A") R0), (letter_clean u _ R). cbn [app]. cbn [refined_loop].
    rewrite (mapping_digit m (# "A") L R0), (mapping_digit m _ L R). cbn [bind opt_is]. replace (N.to_nat (65 + N.of_nat k - 65)) with k by lia.
    change (N.to_nat (# "A" - 65)) with 0%nat. destruct (_ =? _); reflexivity. }
  unfold is_encoded_equals. rewrite !E by assumption. cbn [bind seq_eqb]. rewrite !N.eqb_refl. cbn [andb]. f_equal.
  destruct (N.eqb_spec (nth 0 m 0) (nth i m 0)) as [E1|E1], (N.eqb_spec (nth 0 m 0) (nth j m 0)) as [E2|E2]; cbn [seq_eqb]; rewrite ?andb_true_r; try reflexivity.
  - symmetry. apply N.eqb_eq. congruence.
  - symmetry. apply N.eqb_neq. congruence.
  - symmetry. apply N.eqb_neq. congruence.
Qed.
Theorem C99_refined : forall u m m', length m = 26%nat -> length m' = 26%nat ->
  ((forall s t, is_encoded_equals (refined_encode u m') s t = is_encoded_equals (refined_encode u m) s t) <-> same_groups m m').
Proof.
  intros u m m' L L'. split.
  - intros H. split; [exact L|split; [exact L'|]]. intros i j Hi Hj.
    specialize (H [ # "A"; 65 + N.of_nat i ] [ # "A"; 65 + N.of_nat j ]). rewrite !refined_tell in H by assumption. injection H as H.
    rewrite <- !N.eqb_eq. now rewrite H.
  - intros SG s t. destruct (groups_map m m' SG) as [M F].
    apply (same_verdict (from_to m m') m); [exact F| |apply refined_digits]. intros x. rewrite <- M at 1. now apply C99_refined_renamed.
Qed.
Theorem C99_refined_difference : forall u m m' s t, same_groups m m' ->
  difference (refined_encode u m') s t = difference (refined_encode u m) s t.
Proof.
  intros u m m' s t SG. destruct (groups_map m m' SG) as [M F].
  apply (same_verdict (from_to m m') m); [exact F| |apply refined_digits]. intros x. rewrite <- M at 1. now apply C99_refined_renamed.
Qed.

(** ** The hypotheses are met, and the places of 0 matter *)
Definition groupsb (m m' : ustr) : bool := Nat.eqb (length m) 26 && Nat.eqb (length m') 26
  && forallb (fun i => forallb (fun j => Bool.eqb (nth i m 0 =? nth j m 0) (nth i m' 0 =? nth j m' 0)) (seq 0 26)) (seq 0 26).
Lemma groupsb_ok : forall m m', groupsb m m' = true -> same_groups m m'.
Proof.
  intros m m' H. unfold groupsb in H. apply andb_true_iff in H as [H C]. apply andb_true_iff in H as [L L'].
  split; [now apply Nat.eqb_eq|split; [now apply Nat.eqb_eq|]]. intros i j Hi Hj. rewrite forallb_forall in C.
  specialize (C i ltac:(apply in_seq; lia)). rewrite forallb_forall in C. specialize (C j ltac:(apply in_seq; lia)).
  apply eqb_prop in C. rewrite <- !N.eqb_eq, C. reflexivity.
Qed.
Definition placesb (c : N) (m m' : ustr) : bool := forallb (fun i => Bool.eqb (nth i m 0 =? c) (nth i m' 0 =? c)) (seq 0 26).
Lemma placesb_ok : forall c m m', placesb c m m' = true -> same_places c m m'.
Proof.
  intros c m m' H i Hi. unfold placesb in H. rewrite forallb_forall in H. specialize (H i ltac:(apply in_seq; lia)).
  apply eqb_prop in H. rewrite <- !N.eqb_eq, H. reflexivity.
Qed.
Definition faithfulb (f : N -> N) (l : ustr) : bool := forallb (fun a => forallb (fun b => negb (f a =? f b) || (a =? b)) l) l.
Lemma faithfulb_ok : forall f l, faithfulb f l = true -> faithful f l.
Proof.
  intros f l H a b A B E. unfold faithfulb in H. rewrite forallb_forall in H. specialize (H a A). rewrite forallb_forall in H. specialize (H b B).
  cbn in H. rewrite E, N.eqb_refl in H. now apply N.eqb_eq.
Qed.
Theorem C99_nonvacuous : forall u,
  let m := DEFAULT_US_ENGLISH_MAPPING_SOUNDEX in let lettered := $ "0abc0ab00bbdee0abfbc0a0b0b" in let apart := $ "01230120022455012623010203" in let swapped := $ "10231021122455102623101212" in
  let f := fun c => if c =? # "1" then # "a" else c in
  same_groups m (map f m) /\ same_places (# "0") m (map f m) /\ same_places (# "-") m (map f m) /\ faithful f (# "0" :: # "-" :: m)
  /\ map f m = $ "0a230a200224550a26230a0202"
  /\ soundex_encode u (soundex_new m true) $ "Robert" = Ok $ "R163" /\ soundex_encode u (soundex_new (map f m) true) $ "Robert" = Ok $ "Ra63"
  /\ same_groups m lettered /\ ~ same_groups m apart
  (* the same groups, but 0 in other places *)
  /\ same_groups m swapped /\ ~ same_places (# "0") m swapped
  /\ is_encoded_equals (soundex_encode u (soundex_new m true)) $ "A" $ "AB" = Ok false
  /\ is_encoded_equals (soundex_encode u (soundex_new swapped true)) $ "A" $ "AB" = Ok true.
Proof.
  intros u. cbv zeta. repeat match goal with |- _ /\ _ => split end; try (vm_compute; reflexivity).
  - apply groupsb_ok. vm_compute. reflexivity.
  - apply placesb_ok. vm_compute. reflexivity.
  - apply placesb_ok. vm_compute. reflexivity.
  - apply faithfulb_ok. vm_compute. reflexivity.
  - apply groupsb_ok. vm_compute. reflexivity.
  - intros (_ & _ & G). specialize (G 23%nat 25%nat ltac:(lia) ltac:(lia)). vm_compute in G. destruct G as [G _]. specialize (G eq_refl). discriminate G.
  - apply groupsb_ok. vm_compute. reflexivity.
  - intros P. specialize (P 0%nat ltac:(lia)). vm_compute in P. destruct P as [P _]. specialize (P eq_refl). discriminate P.
Qed.
