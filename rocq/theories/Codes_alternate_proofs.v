(** * Which codes exist: alternate codes of Double Metaphone. *)
From Verif Require Import Base UnicodeM Lib Helper DoubleMetaphone BaseLemmas Spec_common Spec_rewrite Spec_contextual
  Spec_double_metaphone Spec_codes Rewrite_proofs Contextual_proofs Window_proofs Soundex_proofs
  UnicodeLemmas DoubleMetaphone_proofs Props_double_metaphone Double_metaphone_run_proofs Props_double_metaphone_spec
  Codes_proofs Codes_reading_proofs.
Local Open Scope N_scope.

(** ** Forward *)
Definition alt12 : ustr := $ "FHJKLMNPRSTX".
Definition one_alt (l : list app_op) : bool :=
  match l with [AppChar c a] => isin (opt_or a c) (# "A" :: alt12) | _ => false end.
Definition space_alt (l : list app_op) : bool :=
  match l with [AppChar _ (Some c)] => c =? # " " | _ => false end.
Definition alt_good (z e : bool) (x : list app_op * nat) : bool :=
  forallb (fun op => sub (op_alternate op) alt12) (fst x) || (z && one_alt (fst x)) || (e && space_alt (fst x)).
Lemma alt_then_skip : forall z e ops b, alt_good z e (ops, 3%nat) = true -> sat (alt_good z e) (then_skip_if ops b).
Proof. intros z e ops b H. apply sat_bind. intros []; (apply sat_Ok; exact H). Qed.
Definition ops_alt (z e : bool) (l : list app_op) : bool := alt_good z e (l, 3%nat).
Ltac alts :=
  repeat (first
    [ apply sat_Ok; reflexivity
    | apply alt_then_skip; (reflexivity || assumption)
    | apply sat_bind; intros []
    | match goal with |- sat _ (if ?b then _ else _) => destruct b end ]).
Lemma dm_char_alt : forall v slavo i c, sat (alt_good (Z.eqb i 0) (Z.eqb i (len v - 1))) (dm_char v slavo i c).
Proof.
  intros v sg i c. unfold dm_char.
  destruct (isin c _); [destruct (Z.eqb i 0); apply sat_Ok; reflexivity|].
  repeat (match goal with |- sat _ (if N.eqb c ?k then _ else _) =>
     destruct (N.eqb c k); [try (now alts)|] end); try (apply sat_Ok; reflexivity).
  - unfold handle_j. apply sat_bind. intros []; [now alts|].
    apply (sat_bind2 _ _ (ops_alt (Z.eqb i 0) (Z.eqb i (len v - 1)))); [|intros a Ha; now apply alt_then_skip].
    destruct (Z.eqb i 0) eqn:E; [|cbn [pure andr bind]];
      (apply sat_bind; intros []; [now alts|]; try (apply sat_bind; intros []; [now alts|]); destruct (Z.eqb i (len v - 1)); now alts).
  - unfold handle_r. apply (sat_bind2 _ _ (ops_alt (Z.eqb i 0) (Z.eqb i (len v - 1)))); [|intros a Ha; now apply alt_then_skip].
    now alts.
  - unfold handle_s. unfold handle_sc. apply sat_bind; intros []; [now alts|]. apply sat_bind; intros []; [now alts|].
    apply sat_bind; intros []; [now alts|]. apply sat_bind; intros []; [now alts|].
    apply sat_bind; intros []; [now alts|]. apply sat_bind; intros []; [now alts|].
    apply (sat_bind2 _ _ (ops_alt (Z.eqb i 0) (Z.eqb i (len v - 1)))); [|intros a Ha; now apply alt_then_skip]. now alts.
  - unfold handle_w. apply sat_bind; intros []; [now alts|].
    destruct (Z.eqb i 0) eqn:E; [|cbn [pure andr bind]]; now alts.
  - unfold handle_x. destruct (Z.eqb i 0) eqn:E; [now alts|].
    apply (sat_bind2 _ _ (ops_alt false (Z.eqb i (len v - 1)))); [|intros a Ha; now apply alt_then_skip]. now alts.
  - unfold handle_z. apply sat_bind; intros []; [now alts|].
    apply (sat_bind2 _ _ (ops_alt (Z.eqb i 0) (Z.eqb i (len v - 1)))); [|intros a Ha; now apply alt_then_skip]. now alts.
Qed.
Definition plain_alt (a : ustr) : Prop := made_of (# "A" :: alt12) a /\ made_of alt12 (tl a).
Lemma made_firstn : forall set n a, made_of set a -> made_of set (firstn n a).
Proof. intros set n a H c Hc. apply H. now apply In_firstn in Hc. Qed.
Lemma plain_firstn : forall n a, plain_alt a -> plain_alt (firstn n a).
Proof.
  intros n a [H1 H2]. split; [now apply made_firstn|]. destruct (tl_firstn _ n a) as [m ->]. now apply made_firstn.
Qed.
Definition with_space (a : ustr) : Prop := exists b, plain_alt b /\ (a = b \/ a = b ++ $ " ").
Lemma with_space_firstn : forall n a, with_space a -> with_space (firstn n a).
Proof.
  intros n a (b & P & [->| ->]); [exists (firstn n b); split; [now apply plain_firstn|now left]|].
  rewrite firstn_app. destruct (n - length b)%nat as [|k] eqn:E.
  - exists (firstn n b). split; [now apply plain_firstn|left]. apply app_nil_r.
  - exists b. split; [exact P|right]. rewrite firstn_all2 by lia. now destruct k.
Qed.
Lemma apply_alternate : forall max v sg o c ops sk p a r, dm_char v sg (Z.of_nat o) c = Ok (ops, sk) -> dm_inv max p a ->
  dm_apply max (dm_of p a) ops = Ok r ->
  dm_alternate r = a ++ flat_map op_alternate ops \/ exists n, dm_alternate r = firstn n (a ++ flat_map op_alternate ops).
Proof.
  intros max v sg o c ops sk p a r E I H.
  pose proof (dm_char_good v sg (Z.of_nat o) c _ E) as G. pose proof (step_good_ascii _ _ _ G) as GA.
  destruct max as [n|].
  - destruct (inv_len _ _ _ I n eq_refl) as [L1 L2].
    rewrite <- (firstn_all2 p L1), <- (firstn_all2 a L2) in H.
    rewrite dm_apply_cut in H; [|..|assumption].
    + injection H as <-. right. exists n. reflexivity.
    + eapply sub_ascii; [apply dm_sets_ascii|]. pose proof (inv_p _ _ _ I) as X.
      unfold sub in *. rewrite forallb_forall in *. intros y Hy. apply X in Hy. apply isin_In in Hy.
      apply isin_In. destruct Hy as [<-|Hy]; [now left|right].
      change (In y (dm_cons ++ $ " ")). apply (in_or_app dm_cons). now left.
    + eapply sub_ascii; [apply dm_sets_ascii|]. apply (inv_a _ _ _ I).
  - rewrite dm_apply_none in H. injection H as <-. now left.
Qed.
Lemma flat_made : forall ops, forallb (fun op => sub (op_alternate op) alt12) ops = true -> made_of alt12 (flat_map op_alternate ops).
Proof.
  intros ops H c Hc. apply in_flat_map in Hc as (op & Ho & Hc). rewrite forallb_forall in H. apply H in Ho.
  unfold sub in Ho. rewrite forallb_forall in Ho. now apply isin_In, Ho.
Qed.
Lemma alt_loop : forall max v sg items k p a r,
  (forall o c, In (o, c) (tl items) -> o <> 0%nat) ->
  (forall o c, hd_error items = Some (o, c) -> o = 0%nat -> p = [] /\ a = []) ->
  (forall o c rest before, items = before ++ (o, c) :: rest -> Z.of_nat o = (len v - 1)%Z -> rest = []) ->
  dm_inv max p a -> plain_alt a ->
  dm_loop v max sg k items (dm_of p a) = Ok r -> with_space (dm_alternate r).
Proof.
  intros max v sg. induction items as [|[o c] items IH]; intros k p a r T Z LA I P H; cbn [dm_loop] in H.
  - injection H as <-. exists a. split; [exact P|now left].
  - assert (T' : forall o c, In (o, c) (tl items) -> o <> 0%nat).
    { intros o' c' Hc. apply (T o' c'). cbn [tl]. destruct items; [destruct Hc|now right]. }
    assert (Z' : forall p a : ustr, forall o c, hd_error items = Some (o, c) -> o = 0%nat -> p = [] /\ a = []).
    { intros p' a' o' c' Hc ->. exfalso. apply (T 0%nat c'); [|reflexivity]. cbn [tl].
      destruct items; [discriminate|]. injection Hc as ->. now left. }
    assert (LA' : forall o c rest before, items = before ++ (o, c) :: rest -> Z.of_nat o = (len v - 1)%Z -> rest = []).
    { intros o' c' rest before E. apply (LA o' c' rest ((o, c) :: before)). cbn. now rewrite E. }
    destruct k as [|k].
    + destruct (dm_is_complete max _); [injection H as <-; exists a; split; [exact P|now left]|].
      apply bind_Ok in H as ([ops sk] & E & H). apply bind_Ok in H as (r' & E' & H).
      pose proof (apply_alternate max v sg o c ops sk p a r' E I E') as AA.
      destruct (dm_step_inv max v sg o c ops sk p a r' E (Z o c eq_refl) I E') as (p' & a' & -> & I' & _ & _).
      cbn [dm_of dm_alternate] in AA.
      pose proof (dm_char_alt v sg (Z.of_nat o) c _ E) as G. unfold alt_good in G. cbn [fst] in G.
      apply orb_true_iff in G as [G|G]; [apply orb_true_iff in G as [G|G]|].
      * (* sounds *)
        assert (P2 : plain_alt (a ++ flat_map op_alternate ops)).
        { apply flat_made in G. destruct P as [P1 P2]. split.
          - intros x Hx. apply in_app_or in Hx as [Hx|Hx]; [now apply P1|right; now apply G].
          - destruct a as [|y a]; cbn [app tl] in *.
            + intros x Hx. apply G. destruct (flat_map op_alternate ops); [destruct Hx|now right].
            + intros x Hx. apply in_app_or in Hx as [Hx|Hx]; [now apply P2|now apply G]. }
        apply (IH sk p' a' r T' (Z' p' a') LA' I'); [|exact H].
        destruct AA as [->|[n ->]]; [exact P2|now apply plain_firstn].
      * (* first *)
        apply andb_true_iff in G as [G0 G]. apply Z.eqb_eq in G0. assert (O0 : o = 0%nat) by lia.
        destruct (Z o c eq_refl O0) as [-> ->].
        destruct ops as [|[x y|x|x|x y] [|]]; try discriminate G. cbn [one_alt] in G. cbn [flat_map op_alternate app] in AA.
        assert (P2 : plain_alt [opt_or y x]).
        { split; [intros z [<-|[]]; now apply isin_In|intros z []]. }
        apply (IH sk p' a' r T' (Z' p' a') LA' I'); [|exact H].
        destruct AA as [->|[n ->]]; [exact P2|now apply plain_firstn].
      * (* last *)
        apply andb_true_iff in G as [G0 G]. apply Z.eqb_eq in G0.
        rewrite (LA o c items [] eq_refl G0) in H. cbn [dm_loop] in H. injection H as <-. cbn [dm_of dm_alternate].
        destruct ops as [|[x [y|]|x|x|x y] [|]]; try discriminate G. cbn [space_alt] in G. apply N.eqb_eq in G as ->.
        cbn [flat_map op_alternate app opt_or] in AA.
        assert (W : with_space (a ++ $ " ")) by (exists a; split; [exact P|now right]).
        destruct AA as [->|[n ->]]; [exact W|now apply with_space_firstn].
    + apply (IH k p a r T' (Z' p a) LA' I P H).
Qed.
Lemma indices_last : forall v i before o c rest, char_indices_from i v = before ++ (o, c) :: rest ->
  Z.of_nat o = (Z.of_nat (i + blen v) - 1)%Z -> rest = [].
Proof.
  induction v as [|x v IH]; intros i before o c rest E H; [destruct before; discriminate|]. cbn [char_indices_from] in E.
  pose proof (utf8_len_pos x) as Px. destruct before as [|y before].
  - injection E as <- <- <-. cbn [blen] in H. destruct v as [|z v]; [reflexivity|]. exfalso. cbn [blen] in H.
    pose proof (utf8_len_pos z). lia.
  - injection E as _ E. apply (IH _ _ _ _ _ E). cbn [blen] in H. lia.
Qed.
Lemma alternate_with_space : forall u max s r, double_metaphone u max s = Ok r -> with_space (dm_alternate r).
Proof.
  intros u max s r H. unfold double_metaphone in H.
  assert (P0 : plain_alt []) by (split; intros c []).
  assert (I0 : dm_inv max [] []) by (split; try reflexivity; intros; cbn; lia).
  destruct (trim u s) as [|x l] eqn:E.
  - injection H as <-. exists []. split; [exact P0|now left].
  - set (v := str_upper u (x :: l)) in *. cbv zeta in H.
    apply alt_loop in H; auto.
    + unfold char_indices. intros o c. destruct v as [|y v]; [intros []|]. cbn [char_indices_from tl].
      apply char_indices_pos. pose proof (utf8_len_pos y). lia.
    + intros o c rest before Ei Ho. unfold char_indices in Ei. apply (indices_last v 0 before o c rest Ei). exact Ho.
Qed.
Lemma with_space_form : forall a, with_space a -> alternate_form a.
Proof.
  intros a (b & [P1 P2] & Ha).
  assert (F : exists front sounds, In front [[]; $ "A"] /\ made_of alt12 sounds /\ b = front ++ sounds).
  { destruct b as [|c r]; [exists [], []; split; [now left|]; split; [intros c []|reflexivity]|]. cbn [tl] in P2.
    destruct (P1 c (or_introl eq_refl)) as [<-|Hc].
    - exists $ "A", r. split; [cbn; tauto|]. now split.
    - exists [], (c :: r). split; [now left|]. split; [|reflexivity]. intros x [<-|Hx]; [exact Hc|now apply P2]. }
  destruct F as (front & sounds & F1 & F2 & ->). destruct Ha as [->| ->].
  - exists front, sounds, []. rewrite app_nil_r. split; [exact F1|]. split; [exact F2|]. split; [now left|reflexivity].
  - exists front, sounds, $ " ". split; [exact F1|]. split; [exact F2|]. split; [right; now left|]. now rewrite app_assoc.
Qed.
(** ** Backward *)
Definition al_starts : ustr := $ "DFHJLMNPQRST".
Definition al_alpha : ustr := $ "ADEFGHJLMNPQRST".
Definition al_syllable (d : N) : ustr :=
  if d =? # "X" then $ "SHA" else if d =? # "J" then $ "DGE" else if d =? # "K" then $ "QA" else [d; # "A"].
Definition al_passed (d : N) : nat := if d =? # "J" then 2 else if isin d $ "HX" then 1 else 0.
Definition alternate_sound (x : sound) : ustr * nat := (snd (fst x), snd x).
Definition al_read (w : window) (c : N) (out : ustr) (k : nat) : bool :=
  match rule3 pair_eqb alternate_sound w (lookup double_metaphone_table (nothing 0) c) with
  | Some x => pair_eqb x (out, k) | None => false end.
Definition al_check (y : ustr) (j : nat) (out : ustr) (k : nat) : bool :=
  forallb (fun w => al_read w (nth j y 0) out k) (windows al_alpha $ "AE" al_starts y j).
Lemma al_read_step : forall text i w c out k ps als, nth_error text i = Some c -> fits w text i -> al_read w c out k = true ->
  dm_reads text (i + 1 + k) ps als -> exists ps', dm_reads text i ps' (out ++ als).
Proof.
  intros text i w c out k ps als Hn F C R. unfold al_read in C.
  destruct (rule3 _ _ w (lookup double_metaphone_table (nothing 0) c)) as [x|] eqn:E; [|discriminate].
  apply pair_eqb_eq in C. subst x.
  apply (rule3_means _ _ pair_eqb alternate_sound w _ _ pair_eqb_eq F) in E.
  destruct (run text i (lookup double_metaphone_table (nothing 0) c)) as [[o a] k'] eqn:G.
  unfold alternate_sound in E. cbn [fst snd] in E. injection E as -> ->.
  exists (o ++ ps). eapply dr_letter.
  - exact Hn.
  - apply (rule_of_iff _ _ _ _ _ dm_table_disjoint). reflexivity.
  - apply gives_iff. symmetry. exact G.
  - exact R.
Qed.
Lemma al_step : forall p y r j out k ps als, al_check y j out k = true -> (j < length y)%nat ->
  made_of al_alpha (p ++ y ++ r) -> after_vowel $ "AE" p -> before_start al_starts r ->
  dm_reads (p ++ y ++ r) (length p + (j + 1 + k)) ps als ->
  exists ps', dm_reads (p ++ y ++ r) (length p + j) ps' (out ++ als).
Proof.
  intros p y r j out k ps als C Hj U Hp Hr R.
  destruct (fits_syllable al_alpha $ "AE" al_starts p y r j Hp Hr) as (w & Hw & F); [lia|exact U|].
  unfold al_check in C. rewrite forallb_forall in C. specialize (C w Hw).
  apply (al_read_step _ _ w (nth j y 0) out k ps als); [now apply nth_syllable|exact F|exact C|].
  replace (length p + j + 1 + k)%nat with (length p + (j + 1 + k))%nat by lia. exact R.
Qed.
Lemma al_syllable_reads : forall d p r ps als, In d alt12 ->
  made_of al_alpha (p ++ al_syllable d ++ r) -> after_vowel $ "AE" p -> before_start al_starts r ->
  dm_reads (p ++ al_syllable d ++ r) (length (p ++ al_syllable d)) ps als ->
  exists ps', dm_reads (p ++ al_syllable d ++ r) (length p) ps' (d :: als).
Proof.
  intros d p r ps als Hd U Hp Hr R.
  assert (C : al_check (al_syllable d) 0 [d] (al_passed d) = true
     /\ (1 + al_passed d <= length (al_syllable d))%nat
     /\ forall j, (1 + al_passed d <= j)%nat -> (j < length (al_syllable d))%nat -> al_check (al_syllable d) j [] 0 = true).
  { cbn [In alt12] in Hd.
    repeat (destruct Hd as [<-|Hd]; [split; [vm_compute; reflexivity|split; [vm_compute; lia|
      intros [|[|[|j]]] J1 J2; try (exfalso; vm_compute in J1, J2; lia); vm_compute; reflexivity]]|]). destruct Hd. }
  destruct C as (C0 & L & C). rewrite app_length in R.
  assert (K : forall n j, (1 + al_passed d <= j)%nat -> (j + n = length (al_syllable d))%nat ->
              exists ps', dm_reads (p ++ al_syllable d ++ r) (length p + j) ps' als).
  { induction n as [|n IH]; intros j J1 J2.
    - exists ps. now replace j with (length (al_syllable d)) by lia.
    - destruct (IH (j + 1)%nat) as [al Q]; [lia|lia|].
      change als with ([] ++ als). apply (al_step p _ r j [] 0 al als); auto; try lia.
      + apply C; lia.
      + now rewrite Nat.add_0_r. }
  destruct (K (length (al_syllable d) - (1 + al_passed d))%nat (1 + al_passed d)%nat) as [al Q]; [lia|lia|].
  replace (length p) with (length p + 0)%nat by lia. change (d :: als) with ([d] ++ als).
  apply (al_step p _ r 0 [d] (al_passed d) al als); auto; lia.
Qed.
Definition al_syllables (ds : ustr) : ustr := flat_map al_syllable ds.
Lemma al_syllables_start : forall ds tail, made_of alt12 ds -> before_start al_starts tail -> before_start al_starts (al_syllables ds ++ tail).
Proof.
  intros [|d ds] tail H Ht; [exact Ht|]. right. unfold al_syllables. cbn [flat_map].
  assert (Hd : In d alt12) by (apply H; now left).
  exists (hd 0 (al_syllable d)), (tl (al_syllable d) ++ flat_map al_syllable ds ++ tail).
  pose proof (on_set (fun d => isin (hd 0 (al_syllable d)) al_starts) _ d Hd eq_refl) as K. split; [|now apply isin_In].
  unfold al_syllable. destruct (d =? # "X"), (d =? # "J"), (d =? # "K"); cbn; now rewrite <- ?app_assoc.
Qed.
(** The ending J after a vowel. *)
Lemma ending_reads : forall q v, In v $ "AE" -> made_of al_alpha (q ++ [v]) ->
  exists ps, dm_reads ((q ++ [v]) ++ $ "J") (length (q ++ [v])) ps $ " ".
Proof.
  intros q v Hv U.
  assert (F : fits {| walpha := al_alpha; wleft := [[v]]; wfirst := false; wright := [$ "J"]; wlast := true |}
                ((q ++ [v]) ++ $ "J") (length (q ++ [v]))).
  { pose proof (fits_intro {| walpha := al_alpha; wleft := [[v]]; wfirst := false; wright := [$ "J"]; wlast := true |}
       [v] (rev q) $ "J" []) as G. cbn [wleft wright wfirst wlast walpha app] in G.
    assert (E : rev (v :: rev q) = q ++ [v]) by (cbn [rev]; now rewrite rev_involutive).
    rewrite E in G. assert (L : length (v :: rev q) = length (q ++ [v])) by (cbn [length]; rewrite rev_length, app_length; cbn; lia).
    rewrite L in G. apply G; try discriminate; try reflexivity.
    - constructor; [now left|constructor].
    - constructor; [now left|constructor].
    - intros c Hc. apply in_app_or in Hc as [Hc|[<-|[]]]; [now apply U|]. cbn. tauto. }
  change $ " " with ($ " " ++ ([] : ustr)).
  apply (al_read_step _ _ {| walpha := al_alpha; wleft := [[v]]; wfirst := false; wright := [$ "J"]; wlast := true |} (# "J") $ " " 0 [] []).
  - rewrite nth_error_app2 by lia. now rewrite Nat.sub_diag.
  - exact F.
  - cbn in Hv. destruct Hv as [<-|[<-|[]]]; vm_compute; reflexivity.
  - apply dr_end. rewrite app_length. cbn [length]. lia.
Qed.
Lemma al_after : forall d p, after_vowel $ "AE" (p ++ al_syllable d).
Proof.
  intros d p. right. unfold al_syllable. destruct (d =? # "X"); [|destruct (d =? # "J"); [|destruct (d =? # "K")]].
  - exists (p ++ $ "SH"), (# "A"). rewrite <- app_assoc. split; [reflexivity|now left].
  - exists (p ++ $ "DG"), (# "E"). rewrite <- app_assoc. split; [reflexivity|right; now left].
  - exists (p ++ $ "Q"), (# "A"). rewrite <- app_assoc. split; [reflexivity|now left].
  - exists (p ++ [d]), (# "A"). rewrite <- app_assoc. split; [reflexivity|now left].
Qed.
(** [tail] is the ending for [back]; there is a vowel before it. *)
Lemma al_syllables_read : forall ds p tail back, made_of alt12 ds -> made_of al_alpha (p ++ al_syllables ds ++ tail) -> after_vowel $ "AE" p ->
  (tail = [] /\ back = [] \/ tail = $ "J" /\ back = $ " " /\ (ds = [] -> p <> [])) ->
  exists ps, dm_reads (p ++ al_syllables ds ++ tail) (length p) ps (ds ++ back).
Proof.
  induction ds as [|d ds IH]; intros p tail back H U Hp Ht.
  - unfold al_syllables in *. cbn [flat_map app] in *. destruct Ht as [[-> ->]|(-> & -> & Hne)].
    + exists []. rewrite app_nil_r. apply dr_end. lia.
    + destruct Hp as [->|(q & v & -> & Hv)]; [exfalso; now apply Hne|]. apply ending_reads; [exact Hv|].
      intros c Hc. apply U. apply in_or_app. now left.
  - unfold al_syllables in *. cbn [flat_map] in *. rewrite <- app_assoc in *.
    assert (H' : made_of alt12 ds) by (intros x Hx; apply H; now right).
    assert (Hd : In d alt12) by (apply H; now left).
    destruct (IH (p ++ al_syllable d) tail back H') as [ps R]; [rewrite <- app_assoc; exact U|apply al_after| |].
    { destruct Ht as [Ht|(-> & -> & _)]; [now left|right]. split; [reflexivity|]. split; [reflexivity|]. intros _ E.
      apply app_eq_nil in E as [_ E]. unfold al_syllable in E. destruct (d =? # "X"), (d =? # "J"), (d =? # "K"); discriminate. }
    rewrite <- app_assoc in R. cbn [app].
    apply (al_syllable_reads d p _ ps (ds ++ back)); [exact Hd|exact U|exact Hp| |exact R].
    apply al_syllables_start; [exact H'|]. destruct Ht as [[-> _]|(-> & _)]; [now left|]. right. exists (# "J"), []. split; [reflexivity|cbn; tauto].
Qed.
Lemma al_uppers : forall ds, made_of alt12 ds -> made_of al_alpha (al_syllables ds).
Proof.
  intros ds H x Hx. apply in_flat_map in Hx as (d & Hd & Hx). apply H in Hd.
  pose proof (on_set (fun d => forallb (fun c => isin c al_alpha) (al_syllable d)) _ d Hd eq_refl) as K.
  cbv beta in K. rewrite forallb_forall in K. now apply isin_In, K.
Qed.
Lemma alternate_reached : forall u code, alternate_form code ->
  exists s primary, double_metaphone u None s = Ok {| dm_primary := primary; dm_alternate := code |}.
Proof.
  intros u code (front & ds & back & Hf & Hd & Hb & ->).
  assert (Hc : (front = [] /\ ds = [] /\ back = $ " ") \/ ~ (front = [] /\ ds = [] /\ back = $ " ")).
  { destruct front; [|right; intros [? _]; discriminate]. destruct ds; [|right; intros (_ & ? & _); discriminate].
    destruct Hb as [<-|[<-|[]]]; [right; intros (_ & _ & ?); discriminate|now left]. }
  destruct Hc as [(-> & -> & ->)|Hc]; [exists $ "HJ", $ "J"; vm_compute; reflexivity|].
  set (tail := match back with [] => [] | _ => $ "J" end).
  assert (Ht : tail = [] /\ back = [] \/ tail = $ "J" /\ back = $ " " /\ (ds = [] -> front <> [])).
  { destruct Hb as [<-|[<-|[]]]; [left; now split|right]. split; [reflexivity|]. split; [reflexivity|]. intros -> ->. now apply Hc. }
  set (text := front ++ al_syllables ds ++ tail).
  assert (U0 : made_of al_alpha text).
  { intros x Hx. unfold text in Hx. apply in_app_or in Hx as [Hx|Hx]; [|apply in_app_or in Hx as [Hx|Hx]].
    - destruct Hf as [<-|[<-|[]]]; [destruct Hx|]. destruct Hx as [<-|[]]. now left.
    - now apply (al_uppers ds Hd).
    - destruct Ht as [[-> _]|(-> & _)]; [destruct Hx|]. destruct Hx as [<-|[]]. cbn. tauto. }
  assert (U : uppers text) by now apply (uppers_set al_alpha).
  destruct (letters_AZ _ U) as [_ A].
  assert (R : exists ps, dm_reads text 0 ps (front ++ ds ++ back)).
  { unfold text in *. destruct Hf as [<-|[<-|[]]].
    - apply (al_syllables_read ds [] tail back); [exact Hd|exact U0|now left|exact Ht].
    - destruct (al_syllables_read ds $ "A" tail back) as [ps R]; [exact Hd|exact U0|right; exists [], (# "A"); split; [reflexivity|now left]|exact Ht|].
      exists ($ "A" ++ ps). eapply dr_letter.
      + reflexivity.
      + apply (ro_listed double_metaphone_table (nothing 0) (# "A") $ "AEIOUY" (fun _ => If First (same $ "A" 0) (nothing 0)));
          [now left|now left].
      + apply g_yes; [cbn; lia|constructor].
      + exact R. }
  destruct R as [ps R]. exists text, ps.
  assert (B : forall c, In c text -> ~ blank c).
  { intros c Hx [E|E]; apply U, is_ascii_upper_lt in Hx; lia. }
  apply (C69_double_metaphone_is_its_definition u None _ text _ _ A).
  - exists [], []. rewrite app_nil_r. split; [reflexivity|]. split; [intros c []|]. split; [intros c []|]. split.
    + intros c r E. apply B. rewrite E. now left.
    + intros r c E. apply B. rewrite E. apply in_or_app. right. now left.
  - rewrite up_uppers by exact U. exists 0%nat, ps, (front ++ ds ++ back). split; [|split; [exact R|split; reflexivity]].
    apply dm_start_iff. unfold text. destruct Hf as [<-|[<-|[]]].
    + destruct ds as [|d ds]; [destruct Ht as [[-> _]|(-> & _)]; reflexivity|]. unfold al_syllables. cbn [flat_map app].
      assert (Hx : In d alt12) by (apply Hd; now left).
      cbn [In alt12] in Hx. repeat (destruct Hx as [<-|Hx]; [reflexivity|]). destruct Hx.
    + destruct (al_syllables ds); [|reflexivity]. destruct Ht as [[-> _]|(-> & _)]; reflexivity.
Qed.
Lemma alternate_codes : forall u code,
  (exists s primary, double_metaphone u None s = Ok {| dm_primary := primary; dm_alternate := code |}) <-> alternate_form code.
Proof.
  intros u code. split; [|apply alternate_reached]. intros (s & p & H). apply with_space_form. exact (alternate_with_space u None s _ H).
Qed.
Lemma alternate_codes_limit : forall u n code,
  (exists s primary, double_metaphone u (Some n) s = Ok {| dm_primary := primary; dm_alternate := code |})
  <-> alternate_form code /\ (length code <= n)%nat.
Proof.
  intros u n code. split.
  - intros (s & p & H). split; [|now apply C26_max_length in H as [_ H]]. apply with_space_form. exact (alternate_with_space u (Some n) s _ H).
  - intros [F L]. apply (alternate_reached u) in F as (s & p & H). exists s, (firstn n p).
    apply (C26_truncation u n) in H. rewrite (firstn_all2 code) in H by exact L. exact H.
Qed.
