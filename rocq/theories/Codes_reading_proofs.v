(** * Which codes exist: Metaphone and Double Metaphone.  Every sound has a syllable (consonants and a
    vowel) that is read as this sound whatever syllables stand around it. *)
From Verif Require Import Base UnicodeM Lib Metaphone DoubleMetaphone BaseLemmas Spec_common Spec_rewrite Spec_contextual
  Spec_metaphone Spec_double_metaphone Spec_codes Rewrite_proofs Contextual_proofs Window_proofs Soundex_proofs
  UnicodeLemmas Cologne_proofs Metaphone_proofs Metaphone_spec_proofs Props_metaphone Props_metaphone_spec
  Props_double_metaphone Double_metaphone_run_proofs Props_double_metaphone_spec Codes_proofs.
Local Open Scope N_scope.

Definition one (c : N) : ustr := [c].
(** The possible surroundings of place [j] of the syllable [y]: at the beginning or after one of
    the vowels, at the end or before one of [starts]. *)
Definition windows (alpha vowels starts : ustr) (y : ustr) (j : nat) : list window :=
  let l := rev (map one (firstn j y)) in let r := map one (skipn j y) in
  [ {| walpha := alpha; wleft := l; wfirst := true; wright := r; wlast := true |};
    {| walpha := alpha; wleft := l; wfirst := true; wright := r ++ [starts]; wlast := false |} ]
  ++ flat_map (fun v =>
       [ {| walpha := alpha; wleft := l ++ [[v]]; wfirst := false; wright := r; wlast := true |};
         {| walpha := alpha; wleft := l ++ [[v]]; wfirst := false; wright := r ++ [starts]; wlast := false |} ]) vowels.
Definition after_vowel (vowels p : ustr) : Prop := p = [] \/ exists q v, p = q ++ [v] /\ In v vowels.
Definition before_start (starts r : ustr) : Prop := r = [] \/ exists c q, r = c :: q /\ In c starts.

Lemma among_one : forall l, Forall2 among l (map one l).
Proof. induction l as [|c l IH]; constructor; [now left|exact IH]. Qed.
Lemma fits_syllable : forall alpha vowels starts p y r j, after_vowel vowels p -> before_start starts r -> (j <= length y)%nat ->
  (forall c, In c (p ++ y ++ r) -> In c alpha) ->
  exists w, In w (windows alpha vowels starts y j) /\ fits w (p ++ y ++ r) (length p + j).
Proof.
  intros alpha vowels starts p y r j Hp Hr Hj Al.
  set (l := rev (map one (firstn j y))). set (r0 := map one (skipn j y)).
  assert (Y : y = firstn j y ++ skipn j y) by (symmetry; apply firstn_skipn).
  assert (G : forall (ls : list ustr) rs fst lst l1 l2 r1 r2, p = rev (l1 ++ l2) -> r = r1 ++ r2 ->
     Forall2 among l1 ls -> Forall2 among r1 rs -> (fst = true -> l2 = []) -> (lst = true -> r2 = []) ->
     fits {| walpha := alpha; wleft := l ++ ls; wfirst := fst; wright := r0 ++ rs; wlast := lst |} (p ++ y ++ r) (length p + j)).
  { intros ls rs fst lst l1 l2 r1 r2 -> -> F1 F2 B E.
    assert (Te : rev ((rev (firstn j y) ++ l1) ++ l2) ++ (skipn j y ++ r1) ++ r2 = rev (l1 ++ l2) ++ y ++ r1 ++ r2).
    { rewrite <- !app_assoc, rev_app_distr, rev_involutive, <- app_assoc. f_equal. now rewrite app_assoc, <- Y. }
    assert (Le : length ((rev (firstn j y) ++ l1) ++ l2) = (length (rev (l1 ++ l2)) + j)%nat).
    { rewrite !app_length, !rev_length, app_length, firstn_length. lia. }
    rewrite <- Te, <- Le. apply fits_intro; cbn [wleft wfirst wright wlast walpha]; auto.
    - apply Forall2_app; [unfold l; rewrite <- map_rev; apply among_one|exact F1].
    - apply Forall2_app; [apply among_one|exact F2].
    - rewrite Te. exact Al. }
  assert (S1 : forall (c : N) set, In c set -> Forall2 among [c] [set]) by (intros c set Hc; constructor; [exact Hc|constructor]).
  destruct Hp as [Ep|(q & v & Ep & Hv)]; destruct Hr as [Er|(c & r' & Er & Hc)].
  - exists {| walpha := alpha; wleft := l; wfirst := true; wright := r0; wlast := true |}.
    split; [apply in_or_app; left; now left|].
    specialize (G [] [] true true [] [] [] [] Ep Er). rewrite !app_nil_r in G. apply G; auto; constructor.
  - exists {| walpha := alpha; wleft := l; wfirst := true; wright := r0 ++ [starts]; wlast := false |}.
    split; [apply in_or_app; left; right; now left|].
    specialize (G [] [starts] true false [] [] [c] r' Ep Er). rewrite app_nil_r in G. apply G; auto; try discriminate; constructor.
  - exists {| walpha := alpha; wleft := l ++ [[v]]; wfirst := false; wright := r0; wlast := true |}.
    split; [apply in_or_app; right; apply in_flat_map; exists v; split; [exact Hv|now left]|].
    specialize (G [[v]] [] false true [v] (rev q) [] []). rewrite !app_nil_r in G. apply G; auto; try discriminate; try (now constructor).
    + cbn [app rev]. now rewrite rev_involutive.
    + apply S1. now left.
  - exists {| walpha := alpha; wleft := l ++ [[v]]; wfirst := false; wright := r0 ++ [starts]; wlast := false |}.
    split; [apply in_or_app; right; apply in_flat_map; exists v; split; [exact Hv|right; now left]|].
    apply (G [[v]] [starts] false false [v] (rev q) [c] r'); auto; try discriminate.
    + cbn [app rev]. now rewrite rev_involutive.
    + apply S1. now left.
Qed.

Definition pair_eqb (x y : ustr * nat) : bool := seq_eqb (fst x) (fst y) && Nat.eqb (snd x) (snd y).
Lemma pair_eqb_eq : forall x y, pair_eqb x y = true -> x = y.
Proof.
  intros [a i] [b j] H. unfold pair_eqb in H. cbn [fst snd] in H. apply andb_true_iff in H as [H1 H2].
  apply seq_eqb_eq in H1. apply Nat.eqb_eq in H2. now subst.
Qed.

(** ** Metaphone *)
Definition mt_starts : ustr := $ "BFHJKLMNPRSTWY".
Definition mt_check (y : ustr) (j : nat) (out : ustr) (k : nat) : bool :=
  let c := nth j y 0 in
  forallb (fun w =>
    match rule3 pair_eqb (fun x => x) w (lookup metaphone_table silent c) with
    | Some x => pair_eqb x (out, k) | None => false end
    && match cond3 w (After [c]) with Some false => true | _ => false end) (windows AZ $ "AEIOU" mt_starts y j).
Lemma nth_syllable : forall (p y r : ustr) j, (j < length y)%nat ->
  nth_error (p ++ y ++ r) (length p + j) = Some (nth j y 0).
Proof.
  intros p y r j Hj. rewrite nth_error_app2 by lia. replace (length p + j - length p)%nat with j by lia.
  rewrite nth_error_app1 by exact Hj. now apply nth_error_nth'.
Qed.
Lemma mt_step : forall p y r j out k code, mt_check y j out k = true -> (j < length y)%nat ->
  uppers (p ++ y ++ r) -> after_vowel $ "AEIOU" p -> before_start mt_starts r ->
  reads (p ++ y ++ r) (length p + (j + 1 + k)) code -> reads (p ++ y ++ r) (length p + j) (out ++ code).
Proof.
  intros p y r j out k code C Hj U Hp Hr R.
  destruct (fits_syllable AZ $ "AEIOU" mt_starts p y r j Hp Hr) as (w & Hw & F);
    [lia|intros c Hc; apply AZ_upper; now apply U|].
  unfold mt_check in C. cbv zeta in C. rewrite forallb_forall in C. specialize (C w Hw).
  apply andb_true_iff in C as [C1 C2]. set (c := nth j y 0) in *.
  eapply rd_letter.
  - now apply nth_syllable.
  - right. fold c. apply holds_not_iff. pose proof (cond3_means w _ _ F (After [c])) as M.
    destruct (cond3 w (After [c])) as [[|]|]; try discriminate. now apply M.
  - apply (rule_of_iff _ _ _ _ _ metaphone_disjoint). reflexivity.
  - apply gives_iff. symmetry. fold c.
    destruct (rule3 _ _ w (lookup metaphone_table silent c)) as [x|] eqn:E; [|discriminate].
    apply pair_eqb_eq in C1. subst x.
    apply (rule3_means _ _ pair_eqb (fun x => x) w _ _ pair_eqb_eq F _ _ E).
  - replace (length p + j + 1 + k)%nat with (length p + (j + 1 + k))%nat by lia. exact R.
Qed.
Definition mt_syllable (d : N) : ustr :=
  if d =? # "X" then $ "SHA" else if d =? # "0" then $ "THA" else [d; # "A"].
Lemma mt_syllable_reads : forall d p r code, In d $ "BFHJKLMNPRSTWXY0" ->
  uppers (p ++ mt_syllable d ++ r) -> after_vowel $ "AEIOU" p -> before_start mt_starts r ->
  reads (p ++ mt_syllable d ++ r) (length (p ++ mt_syllable d)) code ->
  reads (p ++ mt_syllable d ++ r) (length p) (d :: code).
Proof.
  intros d p r code Hd U Hp Hr R.
  assert (C : mt_check (mt_syllable d) 0 [d] 0 = true
     /\ forall j, (1 <= j)%nat -> (j < length (mt_syllable d))%nat -> mt_check (mt_syllable d) j [] 0 = true).
  { cbn [In] in Hd.
    repeat (destruct Hd as [<-|Hd]; [split; [vm_compute; reflexivity|
      intros [|[|[|j]]] J1 J2; try (exfalso; vm_compute in J2; lia); vm_compute; reflexivity]|]). destruct Hd. }
  destruct C as [C0 C]. rewrite app_length in R.
  assert (K : forall n j, (1 <= j)%nat -> (j + n = length (mt_syllable d))%nat ->
              reads (p ++ mt_syllable d ++ r) (length p + j) code).
  { induction n as [|n IH]; intros j J1 J2.
    - now replace j with (length (mt_syllable d)) by lia.
    - change code with ([] ++ code). apply (mt_step p _ r j [] 0 code); auto; try lia.
      + apply C; lia.
      + apply IH; lia. }
  assert (L : (2 <= length (mt_syllable d))%nat).
  { unfold mt_syllable. destruct (d =? # "X"), (d =? # "0"); cbn; lia. }
  replace (length p) with (length p + 0)%nat by lia. change (d :: code) with ([d] ++ code).
  apply (mt_step p _ r 0 [d] 0 code); auto; [lia|]. apply (K (length (mt_syllable d) - 1)%nat); lia.
Qed.
Definition mt_syllables (ds : ustr) : ustr := flat_map mt_syllable ds.
Lemma mt_syllables_start : forall ds, made_of $ "BFHJKLMNPRSTWXY0" ds -> before_start mt_starts (mt_syllables ds).
Proof.
  intros [|d ds] H; [now left|]. right. unfold mt_syllables. cbn [flat_map].
  assert (Hd : In d $ "BFHJKLMNPRSTWXY0") by (apply H; now left).
  exists (hd 0 (mt_syllable d)), (tl (mt_syllable d) ++ flat_map mt_syllable ds).
  pose proof (on_set (fun d => isin (hd 0 (mt_syllable d)) mt_starts) _ d Hd eq_refl) as K. split; [|now apply isin_In].
  unfold mt_syllable. destruct (d =? # "X"), (d =? # "0"); reflexivity.
Qed.
Lemma mt_syllables_read : forall ds p, made_of $ "BFHJKLMNPRSTWXY0" ds -> uppers (p ++ mt_syllables ds) -> after_vowel $ "AEIOU" p ->
  reads (p ++ mt_syllables ds) (length p) ds.
Proof.
  induction ds as [|d ds IH]; intros p H U Hp.
  - unfold mt_syllables. cbn [flat_map]. rewrite app_nil_r. apply rd_end. lia.
  - unfold mt_syllables. cbn [flat_map]. assert (H' : made_of $ "BFHJKLMNPRSTWXY0" ds) by (intros x Hx; apply H; now right).
    apply mt_syllable_reads; [apply H; now left|exact U|exact Hp|now apply mt_syllables_start|].
    rewrite app_assoc. apply IH; [exact H'|rewrite <- app_assoc; exact U|]. right. unfold mt_syllable.
    destruct (d =? # "X"); [|destruct (d =? # "0")].
    + exists (p ++ $ "SH"), (# "A"). rewrite <- app_assoc. split; [reflexivity|now left].
    + exists (p ++ $ "TH"), (# "A"). rewrite <- app_assoc. split; [reflexivity|now left].
    + exists (p ++ [d]), (# "A"). rewrite <- app_assoc. split; [reflexivity|now left].
Qed.
Lemma mt_uppers : forall ds, made_of $ "BFHJKLMNPRSTWXY0" ds -> uppers (mt_syllables ds).
Proof.
  intros ds H x Hx. apply in_flat_map in Hx as (d & Hd & Hx). apply H in Hd.
  pose proof (on_set (fun d => forallb is_ascii_upper (mt_syllable d)) _ d Hd eq_refl) as K.
  cbv beta in K. rewrite forallb_forall in K. now apply K.
Qed.
Lemma up_uppers : forall s, uppers s -> map ascii_up s = s.
Proof.
  intros s H. rewrite <- (map_id s) at 2. apply map_ext_in. intros x Hx. now apply AZ_alpha, H.
Qed.
Lemma metaphone_codes : forall u code,
  (exists s, ascii_str s /\ metaphone_encode u None s = Ok code) <-> metaphone_form code.
Proof.
  intros u code. split.
  - intros (s & A & H). destruct (Nat.eq_dec (length s) 1) as [L|L].
    + left. destruct s as [|c [|]]; try discriminate. apply ascii_str_cons in A as [A _].
      rewrite C23_single_character_ignores_limit in H by assumption. injection H as <-.
      exists (ascii_up c). split; [now apply ascii_up_lt|]. split; [|reflexivity].
      pose proof (ascii_up_not_lower c) as K. unfold is_ascii_lower in K.
      apply andb_false_iff in K. rewrite !N.leb_gt in K. lia.
    + right. apply C24_alphabet_ascii in H as [H1 H2]; [|assumption|assumption].
      destruct code as [|c r]; [exists []; split; [intros x []|now left]|].
      cbn [tl] in H2. assert (Hc : In c $ "AEIOUBFHJKLMNPRSTWXY0") by (apply H1; now left).
      destruct (isin c $ "AEIOU") eqn:E.
      * exists r. split; [exact H2|]. right. exists c. split; [now apply isin_In|reflexivity].
      * exists (c :: r). split; [|now left]. intros x [<-|Hx]; [|now apply H2]. apply isin_false in E.
        change $ "AEIOUBFHJKLMNPRSTWXY0" with ($ "AEIOU" ++ $ "BFHJKLMNPRSTWXY0") in Hc.
        apply in_app_or in Hc as [Hc|Hc]; [contradiction|exact Hc].
  - intros [(c & Hc & Hl & ->)|(ds & Hd & HC)].
    + exists [c]. split; [apply ascii_str_cons; split; [assumption|apply ascii_str_nil]|].
      rewrite C23_single_character_ignores_limit by assumption. do 2 f_equal. unfold ascii_up, is_ascii_lower.
      destruct ((97 <=? c) && (c <=? 122)) eqn:E; [|reflexivity]. apply andb_true_iff in E. rewrite !N.leb_le in E. contradiction.
    + assert (W : forall p, (p = [] \/ exists v, In v $ "AEIOU" /\ p = [v]) -> (p = [] \/ ds <> []) ->
        ascii_str (p ++ mt_syllables ds) /\ metaphone_encode u None (p ++ mt_syllables ds) = Ok (p ++ ds)).
      { intros p Hp Hne.
        assert (U : uppers (p ++ mt_syllables ds)).
        { intros x Hx. apply in_app_or in Hx as [Hx|Hx]; [|now apply (mt_uppers ds Hd)].
          destruct Hp as [->|(v & Hv & ->)]; [destruct Hx|]. destruct Hx as [<-|[]]. now apply (on_set is_ascii_upper _ v Hv). }
        destruct (letters_AZ _ U) as [_ A]. split; [exact A|]. apply C68_metaphone_is_its_definition; [exact A|].
        rewrite up_uppers by exact U. right. split.
        - destruct ds as [|d ds].
          + destruct Hne as [->|K]; [discriminate|now destruct K].
          + rewrite app_length. unfold mt_syllables, mt_syllable. cbn [flat_map]. rewrite app_length.
            destruct (d =? # "X"), (d =? # "0"); cbn [length]; lia.
        - exists (p ++ mt_syllables ds), (p ++ ds). split; [|split; [|reflexivity]].
          + destruct Hp as [->|(v & Hv & ->)].
            * apply start_rewritten_iff. destruct ds as [|d ds]; [reflexivity|]. cbn [app]. unfold mt_syllables. cbn [flat_map].
              assert (Hx : In d $ "BFHJKLMNPRSTWXY0") by (apply Hd; now left).
              cbn [In] in Hx. repeat (destruct Hx as [<-|Hx]; [reflexivity|]). destruct Hx.
            * destruct ds as [|d ds]; [destruct Hne as [K|K]; [discriminate|now destruct K]|].
              assert (Hx : In d $ "BFHJKLMNPRSTWXY0") by (apply Hd; now left). unfold mt_syllables. cbn [flat_map].
              assert (Hs : exists c q, mt_syllable d ++ flat_map mt_syllable ds = c :: q /\ c <> # "E").
              { clear - Hx. cbn [In] in Hx. repeat (destruct Hx as [<-|Hx]; [eexists; eexists; split; [reflexivity|discriminate]|]). destruct Hx. }
              destruct Hs as (c & q & -> & Nc). right. split; [|reflexivity].
              intros p0 q0 r0 Hin E. pose proof (on_set (fun v => isin v $ "AEIOU") _ v Hv eq_refl) as Kv.
              cbn [In metaphone_beginnings] in Hin.
              repeat (destruct Hin as [K|Hin]; [injection K as <- <-; inversion E; subst;
                try discriminate Kv; congruence|]). destruct Hin.
          + destruct Hp as [->|(v & Hv & ->)].
            * cbn [app]. apply (mt_syllables_read ds []); [exact Hd|exact U|now left].
            * apply (rd_letter _ 0%nat v (If First (says [v]) silent) [v] 0%nat ds).
              -- reflexivity.
              -- right. intros (w & Hw & (a & b & _ & La)). lia.
              -- apply (ro_listed metaphone_table silent v Vowel (fun c => If First (says [c]) silent)); [now left|exact Hv].
              -- apply g_yes; [cbn; lia|constructor].
              -- apply (mt_syllables_read ds [v]); [exact Hd|exact U|]. right. exists [], v. split; [reflexivity|exact Hv]. }
      destruct HC as [->|(v & Hv & ->)].
      * exists (mt_syllables ds). apply (W []); now left.
      * destruct ds as [|d ds].
        -- exists [v]. assert (v < 128) by (now apply N.ltb_lt, (on_set (fun c => c <? 128) _ v Hv)).
           split; [apply ascii_str_cons; split; [assumption|apply ascii_str_nil]|].
           rewrite C23_single_character_ignores_limit by assumption. do 2 f_equal.
           now apply N.eqb_eq, (on_set (fun c => ascii_up c =? c) _ v Hv).
        -- exists ([v] ++ mt_syllables (d :: ds)). apply (W [v]); [right; now exists v|right; discriminate].
Qed.

(** ** Double Metaphone *)
Definition dms_sounds : ustr := $ "FHJKLMNPRSTX0".
Definition dms_starts : ustr := $ "FHJQLMNPRST".
Definition dms_alpha : ustr := $ "AEFHJLMNPQRST".
Definition dm_syllable (d : N) : ustr :=
  if d =? # "X" then $ "SHA" else if d =? # "0" then $ "THE" else if d =? # "K" then $ "QA" else [d; # "A"].
(** The letters passed over after the first letter of the syllable. *)
Definition dm_passed (d : N) : nat := if isin d $ "HX0" then 1 else 0.
Definition primary_sound (x : sound) : ustr * nat := (fst (fst x), snd x).
Definition dm_check (y : ustr) (j : nat) (out : ustr) (k : nat) : bool :=
  forallb (fun w =>
    match rule3 pair_eqb primary_sound w (lookup double_metaphone_table (nothing 0) (nth j y 0)) with
    | Some x => pair_eqb x (out, k) | None => false end) (windows dms_alpha $ "AE" dms_starts y j).
Lemma dm_step : forall p y r j out k ps als, dm_check y j out k = true -> (j < length y)%nat ->
  made_of dms_alpha (p ++ y ++ r) -> after_vowel $ "AE" p -> before_start dms_starts r ->
  dm_reads (p ++ y ++ r) (length p + (j + 1 + k)) ps als ->
  exists als', dm_reads (p ++ y ++ r) (length p + j) (out ++ ps) als'.
Proof.
  intros p y r j out k ps als C Hj U Hp Hr R.
  destruct (fits_syllable dms_alpha $ "AE" dms_starts p y r j Hp Hr) as (w & Hw & F); [lia|exact U|].
  unfold dm_check in C. rewrite forallb_forall in C. specialize (C w Hw). set (c := nth j y 0) in *.
  destruct (rule3 _ _ w (lookup double_metaphone_table (nothing 0) c)) as [x|] eqn:E; [|discriminate].
  apply pair_eqb_eq in C. subst x.
  apply (rule3_means _ _ pair_eqb primary_sound w _ _ pair_eqb_eq F) in E.
  destruct (run (p ++ y ++ r) (length p + j) (lookup double_metaphone_table (nothing 0) c)) as [[o a] k'] eqn:G.
  unfold primary_sound in E. cbn [fst snd] in E. injection E as -> ->.
  exists (a ++ als). eapply dr_letter.
  - now apply nth_syllable.
  - apply (rule_of_iff _ _ _ _ _ dm_table_disjoint). reflexivity.
  - apply gives_iff. symmetry. exact G.
  - replace (length p + j + 1 + k)%nat with (length p + (j + 1 + k))%nat by lia. exact R.
Qed.
Lemma dm_syllable_reads : forall d p r ps als, In d dms_sounds ->
  made_of dms_alpha (p ++ dm_syllable d ++ r) -> after_vowel $ "AE" p -> before_start dms_starts r ->
  dm_reads (p ++ dm_syllable d ++ r) (length (p ++ dm_syllable d)) ps als ->
  exists als', dm_reads (p ++ dm_syllable d ++ r) (length p) (d :: ps) als'.
Proof.
  intros d p r ps als Hd U Hp Hr R.
  assert (C : dm_check (dm_syllable d) 0 [d] (dm_passed d) = true
     /\ (1 + dm_passed d <= length (dm_syllable d))%nat
     /\ forall j, (1 + dm_passed d <= j)%nat -> (j < length (dm_syllable d))%nat -> dm_check (dm_syllable d) j [] 0 = true).
  { cbn [In dms_sounds] in Hd.
    repeat (destruct Hd as [<-|Hd]; [split; [vm_compute; reflexivity|split; [vm_compute; lia|
      intros [|[|[|j]]] J1 J2; try (exfalso; vm_compute in J1, J2; lia); vm_compute; reflexivity]]|]). destruct Hd. }
  destruct C as (C0 & L & C). rewrite app_length in R.
  assert (K : forall n j, (1 + dm_passed d <= j)%nat -> (j + n = length (dm_syllable d))%nat ->
              exists als', dm_reads (p ++ dm_syllable d ++ r) (length p + j) ps als').
  { induction n as [|n IH]; intros j J1 J2.
    - exists als. now replace j with (length (dm_syllable d)) by lia.
    - destruct (IH (j + 1)%nat) as [al Q]; [lia|lia|].
      change ps with ([] ++ ps). apply (dm_step p _ r j [] 0 ps al); auto; try lia.
      + apply C; lia.
      + now rewrite Nat.add_0_r. }
  destruct (K (length (dm_syllable d) - (1 + dm_passed d))%nat (1 + dm_passed d)%nat) as [al Q]; [lia|lia|].
  replace (length p) with (length p + 0)%nat by lia. change (d :: ps) with ([d] ++ ps).
  apply (dm_step p _ r 0 [d] (dm_passed d) ps al); auto; lia.
Qed.
Definition dm_syllables (ds : ustr) : ustr := flat_map dm_syllable ds.
Lemma dm_syllables_start : forall ds, made_of dms_sounds ds -> before_start dms_starts (dm_syllables ds).
Proof.
  intros [|d ds] H; [now left|]. right. unfold dm_syllables. cbn [flat_map].
  assert (Hd : In d dms_sounds) by (apply H; now left).
  exists (hd 0 (dm_syllable d)), (tl (dm_syllable d) ++ flat_map dm_syllable ds).
  pose proof (on_set (fun d => isin (hd 0 (dm_syllable d)) dms_starts) _ d Hd eq_refl) as K. split; [|now apply isin_In].
  unfold dm_syllable. destruct (d =? # "X"), (d =? # "0"), (d =? # "K"); reflexivity.
Qed.
Lemma dm_syllables_read : forall ds p, made_of dms_sounds ds -> made_of dms_alpha (p ++ dm_syllables ds) -> after_vowel $ "AE" p ->
  exists als, dm_reads (p ++ dm_syllables ds) (length p) ds als.
Proof.
  induction ds as [|d ds IH]; intros p H U Hp.
  - exists []. unfold dm_syllables. cbn [flat_map]. rewrite app_nil_r. apply dr_end. lia.
  - unfold dm_syllables. cbn [flat_map]. assert (H' : made_of dms_sounds ds) by (intros x Hx; apply H; now right).
    assert (V : after_vowel $ "AE" (p ++ dm_syllable d)).
    { right. unfold dm_syllable. destruct (d =? # "X"); [|destruct (d =? # "0"); [|destruct (d =? # "K")]].
      + exists (p ++ $ "SH"), (# "A"). rewrite <- app_assoc. split; [reflexivity|now left].
      + exists (p ++ $ "TH"), (# "E"). rewrite <- app_assoc. split; [reflexivity|right; now left].
      + exists (p ++ $ "Q"), (# "A"). rewrite <- app_assoc. split; [reflexivity|now left].
      + exists (p ++ [d]), (# "A"). rewrite <- app_assoc. split; [reflexivity|now left]. }
    destruct (IH (p ++ dm_syllable d) H') as [als R]; [rewrite <- app_assoc; exact U|exact V|]. rewrite <- app_assoc in R.
    apply (dm_syllable_reads d p _ ds als); [apply H; now left|exact U|exact Hp|now apply dm_syllables_start|exact R].
Qed.
Lemma dm_uppers : forall ds, made_of dms_sounds ds -> made_of dms_alpha (dm_syllables ds).
Proof.
  intros ds H x Hx. apply in_flat_map in Hx as (d & Hd & Hx). apply H in Hd.
  pose proof (on_set (fun d => forallb (fun c => isin c dms_alpha) (dm_syllable d)) _ d Hd eq_refl) as K.
  cbv beta in K. rewrite forallb_forall in K. now apply isin_In, K.
Qed.
Lemma double_metaphone_primaries : forall u code,
  (exists s alternate, double_metaphone u None s = Ok {| dm_primary := code; dm_alternate := alternate |})
  <-> double_metaphone_form code.
Proof.
  intros u code. split.
  - intros (s & a & H). apply C27_alphabet in H as (H1 & H2 & _). cbn [dm_primary] in H1, H2.
    destruct code as [|c r]; [exists []; split; [intros x []|now left]|]. cbn [tl] in H2.
    assert (Hc : In c $ "AFHJKLMNPRSTX0") by (apply H1; now left). destruct Hc as [<-|Hc].
    + exists r. split; [exact H2|now right].
    + exists (c :: r). split; [|now left]. intros x [<-|Hx]; [exact Hc|now apply H2].
  - intros (ds & Hd & HC).
    assert (W : forall p, (p = [] \/ p = $ "A") ->
        exists s alternate, double_metaphone u None s = Ok {| dm_primary := p ++ ds; dm_alternate := alternate |}).
    { intros p Hp.
      assert (U0 : made_of dms_alpha (p ++ dm_syllables ds)).
      { intros x Hx. apply in_app_or in Hx as [Hx|Hx]; [|now apply (dm_uppers ds Hd)].
        destruct Hp as [->| ->]; [destruct Hx|]. destruct Hx as [<-|[]]. now left. }
      assert (U : uppers (p ++ dm_syllables ds)) by now apply (uppers_set dms_alpha).
      destruct (letters_AZ _ U) as [_ A].
      assert (R : exists als, dm_reads (p ++ dm_syllables ds) 0 (p ++ ds) als).
      { destruct Hp as [->| ->].
        - apply (dm_syllables_read ds []); [exact Hd|exact U0|now left].
        - destruct (dm_syllables_read ds $ "A") as [als R]; [exact Hd|exact U0|right; exists [], (# "A"); split; [reflexivity|now left]|].
          exists ($ "A" ++ als). eapply dr_letter.
          + reflexivity.
          + apply (ro_listed double_metaphone_table (nothing 0) (# "A") $ "AEIOUY" (fun _ => If First (same $ "A" 0) (nothing 0)));
              [now left|now left].
          + apply g_yes; [cbn; lia|constructor].
          + exact R. }
      destruct R as [als R]. exists (p ++ dm_syllables ds), als.
      assert (B : forall c, In c (p ++ dm_syllables ds) -> ~ blank c).
      { intros c Hc [E|E]; apply U, is_ascii_upper_lt in Hc; lia. }
      apply (C69_double_metaphone_is_its_definition u None _ (p ++ dm_syllables ds) _ _ A).
      - exists [], []. rewrite app_nil_r. split; [reflexivity|]. split; [intros c []|]. split; [intros c []|]. split.
        + intros c r E. apply B. rewrite E. now left.
        + intros r c E. apply B. rewrite E. apply in_or_app. right. now left.
      - rewrite up_uppers by exact U. exists 0%nat, (p ++ ds), als. split; [|split; [exact R|split; reflexivity]].
        apply dm_start_iff. destruct Hp as [->| ->].
        + destruct ds as [|d ds]; [reflexivity|]. unfold dm_syllables. cbn [flat_map app].
          assert (Hx : In d dms_sounds) by (apply Hd; now left).
          cbn [In dms_sounds] in Hx. repeat (destruct Hx as [<-|Hx]; [reflexivity|]). destruct Hx.
        + destruct (dm_syllables ds); reflexivity. }
    destruct HC as [->| ->]; [apply (W []); now left|apply (W $ "A"); now right].
Qed.
