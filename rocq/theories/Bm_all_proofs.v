(** * Beider-Morse from the files to the code: lemmas. *)
From Verif Require Import Base UnicodeM Lib RulesParser DaitchMokotoff BmLanguages BmRegex BmRule BmEngine BmDefault BaseLemmas
  Dm_proofs Spec_bm Bm_set_proofs Props_bm_languages Spec_bm_engine Bm_engine_proofs Bm_recursion_proofs Spec_bm_file Bm_file_proofs Bm_config_proofs
  Spec_bm_name Bm_name_proofs Props_bm_engine Props_bm_config Spec_bm_all.
Local Open Scope N_scope.

(** ** Files *)
Lemma file_content_read : forall d name c, file_content d name c <-> dir_file d name = ROk c.
Proof. reflexivity. Qed.

(** ** The order of the entries of a table is irrelevant *)
Definition same_rules (m m' : RuleMap) : Prop := forall c, assoc c m = assoc c m'.
Lemma same_sym : forall m m', same_rules m m' -> same_rules m' m.
Proof. intros m m' H c. symmetry. apply H. Qed.
Lemma same_empty : forall m m', same_rules m m' -> m = [] -> m' = [].
Proof.
  intros m [|[k v] m'] H ->; [reflexivity|]. specialize (H k). cbn in H. rewrite N.eqb_refl in H. discriminate.
Qed.
Section Same.
Variable rx : RegexEngine.
Variables m m' : RuleMap.
Hypothesis S : same_rules m m'.
Lemma same_candidates : forall t i, candidates m t i = candidates m' t i.
Proof. intros t i. unfold candidates. destruct (nth_error t i); [|reflexivity]. now rewrite S. Qed.
Lemma same_chosen : forall t i o, chosen rx m t i o -> chosen rx m' t i o.
Proof.
  intros t i o H. destruct H as [pre r post E N A|N]; rewrite same_candidates in *.
  - econstructor; eassumption.
  - now constructor.
Qed.
Lemma same_main : forall max t i b b', main_scan rx m max t i b b' -> main_scan rx m' max t i b b'.
Proof.
  intros max t i b b' H. induction H.
  - now constructor.
  - eapply ms_rule; [assumption|apply same_chosen; eassumption|eassumption|assumption].
  - apply ms_skip; [assumption|now apply same_chosen|assumption].
Qed.
Lemma same_final : forall max t i b b', final_scan rx m max t i b b' -> final_scan rx m' max t i b b'.
Proof.
  intros max t i b b' H. induction H.
  - now constructor.
  - eapply fs_rule; [assumption|apply same_chosen; eassumption|eassumption|assumption].
  - eapply fs_keep; [eassumption|now apply same_chosen|eassumption|assumption].
Qed.
Lemma same_contributions : forall max ps cs, contributions rx m max ps cs -> contributions rx m' max ps cs.
Proof. intros max ps cs H. induction H; [constructor|]. constructor; [now apply same_final|assumption]. Qed.
Lemma same_step : forall max b b', final_step rx m max b b' -> final_step rx m' max b b'.
Proof.
  intros max b b' [[H1 H2]|(H1 & H2 & cs & H3 & H4)].
  - left. split; [now apply (same_empty m)|assumption].
  - right. split; [intros K; apply H1; apply (same_empty m'); [now apply same_sym|assumption]|]. split; [assumption|].
    exists cs. split; [now apply same_contributions|assumption].
Qed.
End Same.
Lemma same_word : forall rx a b c a' b' c' max LS t w, same_rules a a' -> same_rules b b' -> same_rules c c' ->
  word_phonemes rx a b c max LS t w -> word_phonemes rx a' b' c' max LS t w.
Proof.
  intros rx a b c a' b' c' max LS t w A B C (b1 & b2 & H1 & H2 & H3). exists b1, b2. split; [now apply (same_main rx a)|].
  split; [now apply (same_step rx b)|now apply (same_step rx c)].
Qed.

Lemma declares_unique : forall text a b, declares text a -> declares text b -> a = b.
Proof.
  intros text a b A B. apply parse_liste_declares in A. apply parse_liste_declares in B. rewrite A in B. apply Ok_inj in B. now injection B.
Qed.
Lemma language_rules_unique : forall rx f text a b, language_rules rx f text a -> language_rules rx f text b -> a = b.
Proof.
  intros rx f text a b A B.
  pose (la := {| lang_languages := []; lang_rules := a |}). pose (lb := {| lang_languages := []; lang_rules := b |}).
  assert (PA : parse_lang rx f [] (length text) [] 0 text = Ok (ROk la)) by (apply parse_lang_rules; now split).
  assert (PB : parse_lang rx f [] (length text) [] 0 text = Ok (ROk lb)) by (apply parse_lang_rules; now split).
  rewrite PA in PB. apply Ok_inj in PB. now injection PB.
Qed.

(** ** The engine of given settings *)
Definition told (c : ConfigFiles) (s : settings) : BeiderMorseBuilder :=
  {| bb_config := c; bb_name_type := s_name_type s; bb_rule_type := s_rule_type s; bb_concat := s_concat s; bb_max_phonemes := s_max_phonemes s |}.
Section All.
Variable u : Unicode.
Variable rx : RegexEngine.
Variable src : sources.
Variable s : settings.
Variable R : Rules.
Variable lang : Lang.
Variable set : list ustr.
Variable e : PhoneticEngine.
Hypothesis HE : e = {| pe_rules := R; pe_lang := lang; pe_name_type := s_name_type s; pe_rule_type := rt_private (s_rule_type s);
            pe_concat := s_concat s; pe_max_phonemes := s_max_phonemes s |}.
Hypothesis HD : forall l, src_declared src (s_name_type s) l <-> In l set.
Hypothesis HI : increasing (lang_languages lang).
Hypothesis HG : forall l, src_guessable src (s_name_type s) l <-> In l (lang_languages lang).
Hypothesis HR : forall rules, src_guessing src (s_name_type s) rules <-> rules = lang_rules lang.
Hypothesis HT : forall t l, ((In l set \/ (t <> Rules_ /\ l = $ "common")) ->
          exists m, rules_get R (s_name_type s, t, l) = Some m
            /\ rules_in u rx src (rule_filename (s_name_type s) t l) m)
       /\ (~ (In l set \/ (t <> Rules_ /\ l = $ "common")) -> rules_get R (s_name_type s, t, l) = None).

Lemma rules_in_same : forall name m m', rules_in u rx src name m -> rules_in u rx src name m' -> same_rules m m'.
Proof.
  intros name m m' (t & T & H) (t' & T' & H') x. rewrite H, H'. now rewrite (C54_unique u rx _ _ _ _ T T' x).
Qed.
Lemma told_guessed : forall text LS, guessed u rx src (s_name_type s) text LS <-> LS = guess_languages u rx lang text.
Proof.
  intros x LS.
  assert (W : ls_ok (guess_languages u rx lang x)) by now apply C45_well_formed.
  split.
  - intros (rules & K1 & K3). apply HR in K1. subst rules.
    destruct (C45_guess u rx lang x) as [[G1 G2]|(st & G1 & G2 & G3)].
    + rewrite G1. destruct K3 as [[K _]|(st & K & N & I & M)]; [assumption|]. exfalso. destruct st as [|y st]; [congruence|].
      destruct (proj1 (M y) (or_introl eq_refl)) as [M1 M2]. apply HG in M1. now apply (G2 y).
    + rewrite G1 in *. destruct K3 as [[K M]|(st' & K & N & I & M)].
      * exfalso. destruct st as [|y st]; [congruence|]. destruct (proj1 (G3 y) (or_introl eq_refl)) as [M1 M2]. apply HG in M1. now apply (M y).
      * rewrite K. f_equal. apply increasing_ext; [assumption|exact W|].
        intros l. now rewrite M, G3, HG.
  - intros ->. exists (lang_rules lang). split; [now apply HR|].
    destruct (C45_guess u rx lang x) as [[G1 G2]|(st & G1 & G2 & G3)].
    + left. split; [assumption|]. intros l I. apply G2. now apply HG.
    + right. exists st. split; [assumption|]. split; [assumption|]. rewrite G1 in W. split; [exact W|].
      intros l. now rewrite G3, HG.
Qed.

Lemma final_filename : forall l, rule_filename (s_name_type s) (rt_private (s_rule_type s)) l = final_file (s_name_type s) (s_rule_type s) l.
Proof. intros l. unfold rule_filename, final_file, nt_display, family, rt_private, rt_display. destruct (s_name_type s), (s_rule_type s); reflexivity. Qed.
Lemma main_filename : forall l, rule_filename (s_name_type s) Rules_ l = main_file (s_name_type s) l.
Proof. intros l. unfold rule_filename, main_file, nt_display, family, rt_display. destruct (s_name_type s); reflexivity. Qed.
Lemma not_main : rt_private (s_rule_type s) <> Rules_.
Proof. destruct (s_rule_type s); discriminate. Qed.

Lemma told_tables : forall LS a b x, tables e LS a b x -> rules_for u rx src s LS a b x.
Proof.
  intros LS a b x (l & LU & T1 & T2 & T3). pose proof HT as H7. rewrite HE in T1, T2, T3.
  cbn [pe_rules pe_name_type pe_rule_type pe_lang] in T1, T2, T3. exists l.
  assert (I : In l set).
  { destruct (in_dec (list_eq_dec N.eq_dec) l set) as [I|I]; [assumption|]. rewrite (proj2 (H7 Rules_ l)) in T1; [discriminate|].
    intros [K|[K _]]; [contradiction|now apply K]. }
  split; [assumption|]. split; [now apply HD|].
  destruct (proj1 (H7 Rules_ l) (or_introl I)) as (m1 & G1 & R1). rewrite T1 in G1. injection G1 as <-.
  destruct (proj1 (H7 (rt_private (s_rule_type s)) $ "common") (or_intror (conj not_main eq_refl))) as (m2 & G2 & R2). pose proof (eq_trans (eq_sym T2) G2) as Z2; injection Z2 as <-.
  destruct (proj1 (H7 (rt_private (s_rule_type s)) l) (or_introl I)) as (m3 & G3 & R3). rewrite T3 in G3. injection G3 as <-.
  rewrite main_filename in R1. rewrite final_filename in R2, R3. now repeat split.
Qed.
Lemma told_rules_for : forall LS a b x, rules_for u rx src s LS a b x ->
  exists a' b' x', tables e LS a' b' x' /\ same_rules a a' /\ same_rules b b' /\ same_rules x x'.
Proof.
  intros LS a b x (l & LU & I & R1 & R2 & R3). apply HD in I. pose proof HT as H7.
  destruct (proj1 (H7 Rules_ l) (or_introl I)) as (m1 & G1 & Q1).
  destruct (proj1 (H7 (rt_private (s_rule_type s)) $ "common") (or_intror (conj not_main eq_refl))) as (m2 & G2 & Q2).
  destruct (proj1 (H7 (rt_private (s_rule_type s)) l) (or_introl I)) as (m3 & G3 & Q3).
  rewrite main_filename in Q1. rewrite final_filename in Q2, Q3. exists m1, m2, m3. split; [exists l; rewrite HE; now repeat split|].
  split; [eapply rules_in_same; eassumption|]. split; eapply rules_in_same; eassumption.
Qed.
Lemma told_have : forall LS, (exists a b x, tables e LS a b x) <-> exists a b x, rules_for u rx src s LS a b x.
Proof.
  intros LS. split.
  - intros (a & b & x & T). exists a, b, x. now apply told_tables.
  - intros (a & b & x & T). apply told_rules_for in T as (a' & b' & x' & T & _). now exists a', b', x'.
Qed.
Lemma told_options : pe_name_type e = s_name_type s /\ pe_concat e = s_concat s /\ pe_max_phonemes e = s_max_phonemes s.
Proof. rewrite HE. now repeat split. Qed.
Lemma told_word : forall LS t w, text_code rx e LS t w <-> word_code u rx src s LS t w.
Proof.
  intros LS t w. destruct told_options as (_ & _ & M). split.
  - intros (a & b & x & p & T & W & ->). exists a, b, x, p. split; [now apply told_tables|]. rewrite M in W. now split.
  - intros (a & b & x & p & T & W & ->). apply told_rules_for in T as (a' & b' & x' & T & S1 & S2 & S3). exists a', b', x', p.
    split; [assumption|]. rewrite M. split; [|reflexivity]. eapply same_word; eassumption.
Qed.

Lemma told_guessed' : forall text LS, guessed u rx src (s_name_type s) text LS <-> LS = guess_languages u rx (pe_lang e) text.
Proof. intros text LS. rewrite HE. apply told_guessed. Qed.

Lemma told_sound : forall LS v code, name_code u rx e LS v code -> value_code u rx src s LS v code.
Proof.
  destruct told_options as (N & K & M).
  fix IH 4. intros LS v code H. destruct H as [LS v cc r ccode rcode T P H1 H2|LS v ws codes T P CC W LN F|LS v w code P CC W X|LS v ws ks code P CC W KP X].
  - eapply vc_prefixed.
    + now apply told_have.
    + rewrite <- N. eassumption.
    + apply told_guessed'; reflexivity.
    + apply IH. exact H1.
    + apply told_guessed'; reflexivity.
    + apply IH. exact H2.
  - eapply vc_words.
    + now apply told_have.
    + rewrite <- N. exact P.
    + congruence.
    + exact W.
    + exact LN.
    + clear T P CC W LN. induction F as [|w x ws codes Hw F IHF]; constructor; [|exact IHF].
      eexists. split; [apply told_guessed'; reflexivity|]. apply IH. exact Hw.
  - eapply vc_one_word; [rewrite <- N; exact P|congruence|exact W|now apply told_word].
  - eapply vc_concat; [rewrite <- N; exact P|congruence|exact W|rewrite <- N; exact KP|now apply told_word].
Qed.
Lemma told_complete : forall LS v code, value_code u rx src s LS v code -> name_code u rx e LS v code.
Proof.
  destruct told_options as (N & K & M).
  fix IH 4. intros LS v code H. destruct H as [LS v cc r lc lr ccode rcode T P G1 H1 G2 H2|LS v ws codes T P CC W LN F|LS v w code P CC W X|LS v ws ks code P CC W KP X].
  - apply told_guessed' in G1. apply told_guessed' in G2. eapply nc_prefixed.
    + now apply told_have.
    + rewrite N. eassumption.
    + rewrite <- G1. apply IH. exact H1.
    + rewrite <- G2. apply IH. exact H2.
  - eapply nc_words.
    + now apply told_have.
    + rewrite N. exact P.
    + congruence.
    + exact W.
    + exact LN.
    + clear T P CC W LN. induction F as [|w x ws codes Hw F IHF]; constructor; [|exact IHF].
      destruct Hw as (lw & G & Hw). apply told_guessed' in G. rewrite <- G. apply IH. exact Hw.
  - eapply nc_one_word; [rewrite N; exact P|congruence|exact W|now apply told_word].
  - eapply nc_concat; [rewrite N; exact P|congruence|exact W|rewrite N; exact KP|now apply told_word].
Qed.
End All.

(** ** The two configurations *)
Lemma parsed_rules_in : forall u rx src depth name m, parse_rule u rx (src_files src) depth name = Ok (ROk m) -> rules_in u rx src name m.
Proof.
  intros u rx src depth name m P. destruct (C54_sound u rx (src_files src) depth name) as (o & O & H); [congruence|]. rewrite P in H.
  destruct o as [t|x|]; cbn in H; [|discriminate|discriminate]. destruct H as (m' & K & H). apply Ok_inj in K. injection K as <-.
  exists t. split; [assumption|]. apply H.
Qed.
Theorem directory_engine : forall u rx d depth c s e, config_new u rx d depth = Ok (ROk c) -> builder_build (told c s) = Ok e ->
  (forall text LS, guessed u rx (directory_sources rx d) (s_name_type s) text LS <-> LS = guess_languages u rx (pe_lang e) text)
  /\ forall LS v code, name_code u rx e LS v code <-> value_code u rx (directory_sources rx d) s LS v code.
Proof.
  intros u rx d depth c s e C E.
  destruct (proj2 (config_new_ok u rx d depth c C) (s_name_type s)) as (text & set & ltext & lang & H1 & H2 & H3 & H4 & H5 & H6 & H7).
  assert (F1 : language_filename (s_name_type s) = list_file (s_name_type s)) by reflexivity.
  assert (F2 : nt_display (s_name_type s) ++ $ "_lang.txt" = lang_file (s_name_type s)) by reflexivity.
  rewrite F1 in *. rewrite F2 in *.
  assert (HE : e = {| pe_rules := cf_rules c; pe_lang := lang; pe_name_type := s_name_type s; pe_rule_type := rt_private (s_rule_type s);
            pe_concat := s_concat s; pe_max_phonemes := s_max_phonemes s |}).
  { unfold builder_build, told in E. cbn [bb_name_type bb_config bb_rule_type bb_concat bb_max_phonemes] in E. rewrite H4 in E. cbn [unwrap bind] in E.
    apply Ok_inj in E. symmetry. exact E. }
  assert (HD : forall l, listed d (s_name_type s) l <-> In l set).
  { intros l. split.
    - intros (text' & set' & K1 & K2 & K3). unfold file_content in K1. rewrite H1 in K1. injection K1 as <-.
      now rewrite (declares_unique _ _ _ H2 K2).
    - intros I. exists text, set. split; [now apply file_content_read|]. now split. }
  assert (HI : increasing (lang_languages lang)).
  { rewrite H5. destruct H2 as (items & _ & I' & _). exact I'. }
  assert (HG : forall l, listed d (s_name_type s) l <-> In l (lang_languages lang)) by (rewrite H5; exact HD).
  assert (HR : forall rules, src_guessing (directory_sources rx d) (s_name_type s) rules <-> rules = lang_rules lang).
  { intros rules. cbn [src_guessing directory_sources]. split.
    - intros (content & K1 & K2). unfold file_content in K1. rewrite H3 in K1. injection K1 as <-. eapply language_rules_unique; eassumption.
    - intros ->. exists ltext. split; [now apply file_content_read|assumption]. }
  assert (HT : forall t l, ((In l set \/ (t <> Rules_ /\ l = $ "common")) ->
          exists m, rules_get (cf_rules c) (s_name_type s, t, l) = Some m
            /\ rules_in u rx (directory_sources rx d) (rule_filename (s_name_type s) t l) m)
       /\ (~ (In l set \/ (t <> Rules_ /\ l = $ "common")) -> rules_get (cf_rules c) (s_name_type s, t, l) = None)).
  { intros t l. destruct (H7 t l) as [K1 K2]. split; [|assumption]. intros I. destruct (K1 I) as (m & G & P). exists m. split; [assumption|].
    now apply (parsed_rules_in u rx (directory_sources rx d) depth). }
  split.
  - intros x LS. rewrite HE. cbn [pe_lang]. now apply told_guessed.
  - intros LS v code. split; [apply (told_sound u rx (directory_sources rx d) s (cf_rules c) lang set e HE HD HI HG HR HT)|apply (told_complete u rx (directory_sources rx d) s (cf_rules c) lang set e HE HD HI HG HR HT)].
Qed.
Theorem embedded_engine : forall u rx depth c s e, config_default u rx depth = Ok c -> builder_build (told c s) = Ok e ->
  (forall text LS, guessed u rx embedded_sources (s_name_type s) text LS <-> LS = guess_languages u rx (pe_lang e) text)
  /\ forall LS v code, name_code u rx e LS v code <-> value_code u rx embedded_sources s LS v code.
Proof.
  intros u rx depth c s e C E. unfold config_default, rules_default in C.
  destruct (build_rules u rx embedded_resolver depth languages_default) as [[R|x]| |] eqn:ER; try discriminate. cbn [bind] in C. apply Ok_inj in C. subst c.
  pose (lang := {| lang_languages := []; lang_rules := [] |}).
  assert (A : nt_assoc (s_name_type s) langs_default = Some lang) by (destruct (s_name_type s); reflexivity).
  assert (HE : e = {| pe_rules := R; pe_lang := lang; pe_name_type := s_name_type s; pe_rule_type := rt_private (s_rule_type s);
            pe_concat := s_concat s; pe_max_phonemes := s_max_phonemes s |}).
  { unfold builder_build, told in E. cbn [bb_name_type bb_config bb_rule_type bb_concat bb_max_phonemes cf_langs cf_rules] in E. rewrite A in E. cbn [unwrap bind] in E.
    apply Ok_inj in E. symmetry. exact E. }
  destruct (build_rules_ok _ _ _ _ _ _ _ _ all_name_types_NoDup ER (s_name_type s)) as [B _].
  destruct (B (all_name_types_In _)) as (set & S & K). assert (S' : set = [$ "any"]) by (destruct (s_name_type s); cbn in S; congruence). subst set.
  assert (HD : forall l, src_declared embedded_sources (s_name_type s) l <-> In l [$ "any"]).
  { intros l. cbn [src_declared embedded_sources In]. split; [intros ->; now left|intros [K'|[]]; now symmetry]. }
  assert (HI : increasing (lang_languages lang)) by exact I.
  assert (HG : forall l, src_guessable embedded_sources (s_name_type s) l <-> In l (lang_languages lang)) by (intros l; reflexivity).
  assert (HR : forall rules, src_guessing embedded_sources (s_name_type s) rules <-> rules = lang_rules lang) by (intros l; reflexivity).
  assert (HT : forall t l, ((In l [$ "any"] \/ (t <> Rules_ /\ l = $ "common")) ->
          exists m, rules_get R (s_name_type s, t, l) = Some m
            /\ rules_in u rx embedded_sources (rule_filename (s_name_type s) t l) m)
       /\ (~ (In l [$ "any"] \/ (t <> Rules_ /\ l = $ "common")) -> rules_get R (s_name_type s, t, l) = None)).
  { intros t l. destruct (K t l) as [K1 K2]. split; [|intros Q; exact (K2 Q)]. intros Q. destruct (K1 Q) as (m & G & P). exists m. split; [assumption|].
    now apply (parsed_rules_in u rx embedded_sources depth). }
  split.
  - intros x LS. rewrite HE. cbn [pe_lang]. now apply told_guessed.
  - intros LS v code. split; [apply (told_sound u rx embedded_sources s R lang [$ "any"] e HE HD HI HG HR HT)|apply (told_complete u rx embedded_sources s R lang [$ "any"] e HE HD HI HG HR HT)].
Qed.
