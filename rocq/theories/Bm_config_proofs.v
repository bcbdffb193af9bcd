(** * Proofs about building a Beider-Morse configuration. *)
From Verif Require Import Base UnicodeM Lib Helper RulesParser DaitchMokotoff BmLanguages BmRegex BmRule BmEngine
  BaseLemmas Spec_common Spec_rules Spec_dm_file Spec_bm Spec_bm_file Spec_bm_engine
  Rules_proofs Dm_proofs Dm_build_proofs Bm_set_proofs Bm_file_proofs Bm_engine_proofs Bm_recursion_proofs.
Local Open Scope N_scope.

Lemma nt_eqb_eq : forall a b, nt_eqb a b = true <-> a = b.
Proof. intros [] []; cbn; split; congruence. Qed.
Lemma rt_eqb_eq : forall a b, rt_eqb a b = true <-> a = b.
Proof. intros [] []; cbn; split; congruence. Qed.
Lemma rk_eqb_eq : forall a b, rk_eqb a b = true <-> a = b.
Proof.
  intros [[n1 t1] l1] [[n2 t2] l2]. unfold rk_eqb. rewrite !andb_true_iff, nt_eqb_eq, rt_eqb_eq, seq_eqb_eq.
  split; [intros [[-> ->] ->]; reflexivity|intros H; injection H as -> -> ->; auto].
Qed.
Lemma nt_assoc_insert : forall A k (v : A) l c, nt_assoc c (nt_insert k v l) = if nt_eqb k c then Some v else nt_assoc c l.
Proof.
  intros A k v. induction l as [|[k' v'] l IH]; intros c; cbn [nt_insert nt_assoc].
  - reflexivity.
  - destruct (nt_eqb k' k) eqn:E; cbn [nt_assoc].
    + apply nt_eqb_eq in E. subst k'. destruct (nt_eqb k c); reflexivity.
    + rewrite IH. destruct (nt_eqb k' c) eqn:E2; [|reflexivity]. apply nt_eqb_eq in E2. subst k'.
      destruct (nt_eqb k c) eqn:E3; [|reflexivity]. apply nt_eqb_eq in E3. subst k. now destruct c.
Qed.
Lemma language_filename_inj : forall a b, language_filename a = language_filename b -> a = b.
Proof. intros [] []; cbn; congruence. Qed.
Lemma nt_from_filename : forall s n, nt_try_from_filename s = ROk n <-> s = language_filename n.
Proof.
  intros s n. unfold nt_try_from_filename.
  destruct (seq_eqb s (language_filename Ashkenazi)) eqn:E1.
  { apply seq_eqb_eq in E1. subst s. split; [intros H; now injection H as <-|intros H; apply language_filename_inj in H; now subst]. }
  destruct (seq_eqb s (language_filename Generic)) eqn:E2.
  { apply seq_eqb_eq in E2. subst s. split; [intros H; now injection H as <-|intros H; apply language_filename_inj in H; now subst]. }
  destruct (seq_eqb s (language_filename Sephardic)) eqn:E3.
  { apply seq_eqb_eq in E3. subst s. split; [intros H; now injection H as <-|intros H; apply language_filename_inj in H; now subst]. }
  split; [discriminate|]. intros ->. destruct n; rewrite (proj2 (seq_eqb_eq _ _) eq_refl) in *; discriminate.
Qed.

(** ** Declared languages *)
Lemma parse_liste_declares : forall text set, parse_liste (length text) [] 0 text = Ok (ROk set) <-> declares text set.
Proof.
  intros text set. destruct (list_reading_exists text) as (items & rem & R).
  destruct (parse_liste_spec _ _ _ R (length text) [] 0 (le_n _) I) as [(-> & set' & E & S & M)|(N & E)]; rewrite E; split.
  - intros H. apply Ok_inj in H. injection H as <-. exists items. split; [assumption|]. split; [assumption|]. intros l. rewrite M. cbn. tauto.
  - intros (items' & R' & S' & M'). destruct (list_reading_unique _ _ _ R _ _ R') as [<- _]. do 2 f_equal.
    apply increasing_ext; try assumption. intros l. rewrite M, M'. cbn. tauto.
  - discriminate.
  - intros (items' & R' & _). destruct (list_reading_unique _ _ _ R _ _ R') as [_ K]. congruence.
Qed.
Lemma parse_liste_total : forall text, exists r, parse_liste (length text) [] 0 text = Ok r.
Proof.
  intros text. destruct (list_reading_exists text) as (items & rem & R).
  destruct (parse_liste_spec _ _ _ R (length text) [] 0 (le_n _) I) as [(-> & set' & E & S & M)|(N & E)]; rewrite E; eauto.
Qed.
Lemma languages_from_entries_ok : forall d entries acc L, languages_from_entries d entries acc = Ok (ROk L) ->
  (forall text, ~ In (RErr text) entries) /\
  forall n, (In (ROk (language_filename n)) entries
              /\ exists text set, dir_file d (language_filename n) = ROk text /\ declares text set /\ nt_assoc n L = Some set)
         \/ (~ In (ROk (language_filename n)) entries /\ nt_assoc n L = nt_assoc n acc).
Proof.
  intros d. induction entries as [|[name|text] entries IH]; intros acc L H; cbn [languages_from_entries] in H.
  - apply Ok_inj in H. injection H as <-. split; [auto|]. intros n. right. auto.
  - destruct (nt_try_from_filename name) as [nt|e] eqn:T.
    + apply nt_from_filename in T. subst name. destruct (dir_file d (language_filename nt)) as [text|text] eqn:D; [|discriminate].
      destruct (parse_liste (length text) [] 0 text) as [[set|e]| |] eqn:P; try discriminate. cbn [bind] in H.
      apply parse_liste_declares in P. destruct (IH _ _ H) as [NE K]. split.
      { intros t [Q|Q]; [discriminate|]. now apply (NE t). }
      intros n. cbn [In]. destruct (K n) as [(I & t & s & K1 & K2 & K3)|(K1 & K2)].
      * left. split; [now right|]. exists t, s. auto.
      * rewrite nt_assoc_insert in K2. destruct (nt_eqb nt n) eqn:E.
        -- apply nt_eqb_eq in E. subst nt. left. split; [now left|]. exists text, set. auto.
        -- right. split; [|assumption]. intros [Q|Q]; [|contradiction]. injection Q as Q. apply language_filename_inj in Q. subst nt.
           rewrite (proj2 (nt_eqb_eq _ _) eq_refl) in E. discriminate.
    + destruct (IH _ _ H) as [NE K]. split.
      { intros t [Q|Q]; [discriminate|]. now apply (NE t). }
      intros n. cbn [In]. destruct (K n) as [(I & K1)|(K1 & K2)].
      * left. split; [now right|assumption].
      * right. split; [|assumption]. intros [Q|Q]; [|contradiction]. injection Q as Q. apply nt_from_filename in Q. congruence.
  - discriminate.
Qed.
Lemma languages_from_entries_outcome : forall d entries acc, exists r, languages_from_entries d entries acc = Ok r.
Proof.
  intros d. induction entries as [|[name|text] entries IH]; intros acc; cbn [languages_from_entries]; [eauto| |eauto].
  destruct (nt_try_from_filename name); [|apply IH]. destruct (dir_file d name) as [text|]; [|eauto].
  destruct (parse_liste_total text) as ([set|e] & ->); cbn [bind]; [apply IH|eauto].
Qed.

Section Rx.
Variable u : Unicode.
Variable rx : RegexEngine.

(** ** Language rules *)
Local Notation language_rules := (language_rules rx).
Lemma parse_lang_rules : forall filename languages text l,
  parse_lang rx filename languages (length text) [] 0 text = Ok (ROk l) <->
  lang_languages l = languages /\ language_rules filename text (lang_rules l).
Proof.
  intros filename languages text l. destruct (lang_reading_exists text) as (items & rem & R).
  destruct (parse_lang_spec rx _ _ _ R filename languages (length text) [] 0 (le_n _)) as (o & O & E). rewrite E. split.
  - intros H. apply Ok_inj in H. destruct o as [rs|e]; [|discriminate]. injection H as <-. split; [reflexivity|]. exists items, rem. auto.
  - intros (K & items' & rem' & R' & O'). destruct (lang_reading_unique _ _ _ R _ _ R') as [<- <-].
    pose proof (lang_outcome_unique rx _ _ _ _ _ O _ O') as ->. destruct l as [ls rs]. cbn in *. now subst.
Qed.
Lemma build_langs_ok : forall d languages nts acc L, NoDup nts -> build_langs_for rx d languages nts acc = Ok (ROk L) ->
  forall n, (In n nts -> exists set text l, nt_assoc n languages = Some set /\ nt_assoc n L = Some l
                 /\ dir_file d (nt_display n ++ $ "_lang.txt") = ROk text
                 /\ lang_languages l = set /\ language_rules (dir_path d (nt_display n ++ $ "_lang.txt")) text (lang_rules l))
         /\ (~ In n nts -> nt_assoc n L = nt_assoc n acc).
Proof.
  intros d languages. induction nts as [|k nts IH]; intros acc L ND H n; cbn [build_langs_for] in H.
  - apply Ok_inj in H. injection H as <-. split; [intros []|auto].
  - inversion ND as [|? ? N1 N2]; subst. destruct (nt_assoc k languages) as [set|] eqn:A; [|discriminate]. cbn [unwrap bind] in H.
    destruct (dir_file d _) as [text|] eqn:D; [|discriminate].
    destruct (parse_lang rx _ set (length text) [] 0 text) as [[l|e]| |] eqn:P; try discriminate. cbn [bind] in H.
    apply parse_lang_rules in P as [P1 P2]. destruct (IH _ _ N2 H n) as [K1 K2]. split.
    + intros [->|I]; [|now apply K1]. exists set, text, l. rewrite (K2 N1), nt_assoc_insert, (proj2 (nt_eqb_eq _ _) eq_refl). auto.
    + intros I. rewrite K2 by (intros C; apply I; now right). rewrite nt_assoc_insert. destruct (nt_eqb k n) eqn:E; [|reflexivity].
      apply nt_eqb_eq in E. elim I. now left.
Qed.

(** ** Rule files *)
Lemma load_files_ok : forall rs depth keys acc R, load_files u rx rs depth keys acc = Ok (ROk R) ->
  forall n t l, (In (n, t, l) keys -> exists m, rules_get R (n, t, l) = Some m /\ parse_rule u rx rs depth (rule_filename n t l) = Ok (ROk m))
           /\ (~ In (n, t, l) keys -> rules_get R (n, t, l) = rules_get acc (n, t, l)).
Proof.
  intros rs depth. induction keys as [|[[n0 t0] l0] keys IH]; intros acc R H n t l; cbn [load_files] in H.
  - apply Ok_inj in H. injection H as <-. split; [intros []|auto].
  - destruct (parse_rule u rx rs depth (rule_filename n0 t0 l0)) as [[m|e]| |] eqn:P; try discriminate. cbn [bind] in H.
    destruct (IH _ _ H n t l) as [K1 K2].
    assert (D : In (n, t, l) keys \/ ~ In (n, t, l) keys).
    { destruct (existsb (rk_eqb (n, t, l)) keys) eqn:E.
      - apply existsb_exists in E as (k & K & E). apply rk_eqb_eq in E. subst k. now left.
      - right. intros C. assert (existsb (rk_eqb (n, t, l)) keys = true); [|congruence]. apply existsb_exists. exists (n, t, l). split; [assumption|]. now apply rk_eqb_eq. }
    split.
    + intros [E|I]; [|now apply K1]. destruct D as [D|D]; [now apply K1|]. injection E as -> -> ->. exists m. split; [|assumption].
      rewrite K2 by assumption. unfold rules_insert. cbn [rules_get]. now rewrite (proj2 (rk_eqb_eq _ _) eq_refl).
    + intros I. rewrite K2 by (intros C; apply I; now right). unfold rules_insert. cbn [rules_get].
      destruct (rk_eqb (n0, t0, l0) (n, t, l)) eqn:E; [|reflexivity]. apply rk_eqb_eq in E. elim I. now left.
Qed.
Lemma files_for_In : forall n ls n' t l, In (n', t, l) (files_for n ls) <-> n' = n /\ (In l ls \/ (t <> Rules_ /\ l = $ "common")).
Proof.
  intros n ls n' t l. unfold files_for. rewrite in_flat_map. split.
  - intros (t' & _ & H). apply in_app_iff in H as [H|H].
    + apply in_map_iff in H as (x & E & H). injection E as <- <- <-. auto.
    + destruct (rt_eqb t' Rules_) eqn:E; [destruct H|]. destruct H as [H|[]]. injection H as <- <- <-. split; [reflexivity|]. right.
      split; [|reflexivity]. intros ->. discriminate.
  - intros (-> & H). exists t. split; [destruct t; cbn; auto|]. apply in_app_iff. destruct H as [H|[H ->]].
    + left. apply in_map_iff. eauto.
    + right. destruct (rt_eqb t Rules_) eqn:E; [apply rt_eqb_eq in E; contradiction|]. now left.
Qed.
Lemma build_rules_ok : forall rs depth languages nts acc R, NoDup nts -> build_rules_for u rx rs depth languages nts acc = Ok (ROk R) ->
  forall n, (In n nts -> exists set, nt_assoc n languages = Some set
      /\ forall t l, ((In l set \/ (t <> Rules_ /\ l = $ "common")) ->
                       exists m, rules_get R (n, t, l) = Some m /\ parse_rule u rx rs depth (rule_filename n t l) = Ok (ROk m))
                  /\ (~ (In l set \/ (t <> Rules_ /\ l = $ "common")) -> rules_get R (n, t, l) = rules_get acc (n, t, l)))
         /\ (~ In n nts -> forall t l, rules_get R (n, t, l) = rules_get acc (n, t, l)).
Proof.
  intros rs depth languages. induction nts as [|k nts IH]; intros acc R ND H n; cbn [build_rules_for] in H.
  - apply Ok_inj in H. injection H as <-. split; [intros []|auto].
  - inversion ND as [|? ? N1 N2]; subst. destruct (nt_assoc k languages) as [set|] eqn:A; [|discriminate].
    destruct (load_files u rx rs depth (files_for k set) acc) as [[acc'|e]| |] eqn:P; try discriminate. cbn [bind] in H.
    destruct (IH _ _ N2 H n) as [K1 K2]. split.
    + intros [->|I].
      * exists set. split; [assumption|]. intros t l. rewrite (K2 N1 t l). destruct (load_files_ok _ _ _ _ _ P n t l) as [L1 L2]. split.
        -- intros Q. apply L1. apply files_for_In. auto.
        -- intros Q. apply L2. rewrite files_for_In. tauto.
      * destruct (K1 I) as (s & S1 & S2). exists s. split; [assumption|]. intros t l. destruct (S2 t l) as [S3 S4]. split; [exact S3|].
        intros Q. rewrite (S4 Q). destruct (load_files_ok _ _ _ _ _ P n t l) as [L1 L2]. apply L2. rewrite files_for_In.
        intros [-> _]. contradiction.
    + intros I t l. rewrite K2 by (intros C; apply I; now right). destruct (load_files_ok _ _ _ _ _ P n t l) as [L1 L2]. apply L2.
      rewrite files_for_In. intros [-> _]. apply I. now left.
Qed.

(** ** Loaded tables are well-formed *)
Definition bt_ok (t : bm_table) : Prop := forall k r, In r (t k) -> rule_ok k r.
Lemma override_ok : forall a b, bt_ok a -> bt_ok b -> bt_ok (override a b).
Proof. intros a b A B k r H. unfold override in H. destruct (b k) as [|x l] eqn:E; [now apply A|]. apply B. now rewrite E. Qed.
Lemma add_rule_ok : forall r t, bm_pattern_length_char r = length (bm_pattern r) -> bt_ok t -> bt_ok (add_rule r t).
Proof.
  intros r t L A k x H. unfold add_rule in H. destruct (bm_pattern r) as [|c p] eqn:P; [now apply A|].
  destruct (c =? k) eqn:E; [|now apply A]. apply in_app_iff in H as [H|[<-|[]]]; [now apply A|]. apply N.eqb_eq in E. subst c.
  split; [now rewrite P|]. now rewrite P in *.
Qed.
Lemma outcome_ok : forall rs name o, file_outcome u rx rs name o -> forall t, o = Loaded t -> bt_ok t.
Proof.
  intros rs. apply (file_outcome_mind u rx rs (fun _ o _ => forall t, o = Loaded t -> bt_ok t)
    (fun _ _ _ _ t o _ => bt_ok t -> forall t', o = Loaded t' -> bt_ok t')); try (intros; discriminate).
  - intros name content items rem o E R _ IH t Q. apply (IH ltac:(intros k r []) t Q).
  - intros f n t A t' E. injection E as <-. assumption.
  - intros f n r items rem t o _ IH. exact IH.
  - intros f n k r items rem t o _ IH. exact IH.
  - intros f n a b c d rule r items rem t o RL A _ IH K. apply IH. apply add_rule_ok; [|assumption].
    destruct RL as (ps & _ & _ & _ & E1 & E2 & _). now rewrite E1, E2.
  - intros f n name t' r items rem t o _ IH1 _ IH2 K. apply IH2. apply override_ok; [assumption|]. now apply IH1.
Qed.
Lemma parse_rule_table_ok : forall rs depth name m, parse_rule u rx rs depth name = Ok (ROk m) -> table_ok m.
Proof.
  intros rs depth name m H. destruct (parse_rule_sound u rx rs depth name) as (o & O & R); [congruence|].
  destruct o as [t|e|]; cbn [realizes] in R; try congruence. destruct R as (m' & E & N & M). rewrite H in E. apply Ok_inj in E. injection E as <-.
  pose proof (outcome_ok _ _ _ O _ eq_refl) as B. intros k l r I J.
  assert (A : assoc k m = Some l).
  { clear - N I. induction m as [|[k' l'] m IH]; [destruct I|]. cbn [map fst] in N. inversion N as [|? ? N1 N2]; subst. cbn [assoc].
    destruct I as [I|I]; [injection I as -> ->; now rewrite N.eqb_refl|]. destruct (k' =? k) eqn:E; [|auto].
    apply N.eqb_eq in E. subst k'. elim N1. apply in_map_iff. exists (k, l). auto. }
  rewrite M in A. apply B. destruct (t k); [discriminate|]. now injection A as <-.
Qed.

(** ** The configuration *)
Lemma all_name_types_NoDup : NoDup all_name_types.
Proof. repeat constructor; cbn; intuition discriminate. Qed.
Lemma all_name_types_In : forall n, In n all_name_types.
Proof. intros []; cbn; auto. Qed.

Theorem config_new_ok : forall d depth c, config_new u rx d depth = Ok (ROk c) ->
  (exists names, dir_listing d = ROk (map (fun x => ROk x) names) /\ forall n, In (language_filename n) names) /\
  forall n, exists text set ltext lang,
    dir_file d (language_filename n) = ROk text /\ declares text set
    /\ dir_file d (nt_display n ++ $ "_lang.txt") = ROk ltext
    /\ nt_assoc n (cf_langs c) = Some lang /\ lang_languages lang = set
    /\ language_rules (dir_path d (nt_display n ++ $ "_lang.txt")) ltext (lang_rules lang)
    /\ forall t l, ((In l set \/ (t <> Rules_ /\ l = $ "common")) ->
          exists m, rules_get (cf_rules c) (n, t, l) = Some m
            /\ parse_rule u rx (dir_resolver d) depth (rule_filename n t l) = Ok (ROk m))
       /\ (~ (In l set \/ (t <> Rules_ /\ l = $ "common")) -> rules_get (cf_rules c) (n, t, l) = None).
Proof.
  intros d depth c H. unfold config_new, languages_try_from in H.
  destruct (dir_listing d) as [entries|text]; [|discriminate].
  destruct (languages_from_entries d entries []) as [[L|e]| |] eqn:EL; try discriminate. cbn [bind] in H.
  destruct (build_langs rx d L) as [[G|e]| |] eqn:EG; try discriminate. cbn [bind] in H.
  destruct (build_rules u rx (dir_resolver d) depth L) as [[R|e]| |] eqn:ER; try discriminate. cbn [bind] in H.
  apply Ok_inj in H. injection H as <-. cbn [cf_langs cf_rules].
  apply languages_from_entries_ok in EL as [NE EL]. split.
  { exists (flat_map (fun x => match x with ROk n => [n] | RErr _ => [] end) entries). split.
    - f_equal. clear - NE. induction entries as [|[n|t] q IH]; [reflexivity| |].
      + cbn [flat_map app map]. f_equal. apply IH. intros t I. apply (NE t). now right.
      + elim (NE t). now left.
    - intros n. destruct (build_langs_ok _ _ _ _ _ all_name_types_NoDup EG n) as [B _].
      destruct (B (all_name_types_In n)) as (set & ltext & lang & B1 & _).
      destruct (EL n) as [(I & _)|(_ & K)]; [|rewrite B1 in K; discriminate].
      apply in_flat_map. exists (ROk (language_filename n)). split; [assumption|now left]. }
  intros n. destruct (build_langs_ok _ _ _ _ _ all_name_types_NoDup EG n) as [B _].
  destruct (B (all_name_types_In n)) as (set & ltext & lang & B1 & B2 & B3 & B4 & B5).
  destruct (EL n) as [(_ & text & set' & K1 & K2 & K3)|(_ & K)].
  2:{ rewrite B1 in K. discriminate. }
  rewrite B1 in K3. injection K3 as <-.
  destruct (build_rules_ok _ _ _ _ _ _ all_name_types_NoDup ER n) as [C _].
  destruct (C (all_name_types_In n)) as (set'' & C1 & C2). rewrite B1 in C1. injection C1 as <-.
  exists text, set, ltext, lang. repeat (split; [assumption|]). intros t l. destruct (C2 t l) as [C3 C4]. split; [exact C3|].
  intros Q. now rewrite (C4 Q).
Qed.

Definition declared_in (c : ConfigFiles) (n : NameType) (l : ustr) : Prop :=
  exists lang, nt_assoc n (cf_langs c) = Some lang /\ In l (lang_languages lang).
Theorem built_engine_ok : forall d depth b, config_new u rx d depth = Ok (ROk (bb_config b)) ->
  exists e, builder_build b = Ok e
    /\ (declared_in (bb_config b) (bb_name_type b) $ "any" -> engine_ok e)
    /\ (forall l, declared_in (bb_config b) (bb_name_type b) l <-> In l (lang_languages (pe_lang e)))
    /\ (forall l, In l (lang_languages (pe_lang e)) -> tables_for e l)
    /\ (forall l, ~ In l (lang_languages (pe_lang e)) ->
          rules_get (pe_rules e) (pe_name_type e, Rules_, l) = None).
Proof.
  intros d depth b H. destruct (config_new_ok _ _ _ H) as [_ CN]. destruct (CN (bb_name_type b)) as (text & set & ltext & lang & _ & _ & _ & B & S & _ & C).
  unfold builder_build. rewrite B. cbn [unwrap bind]. eexists. split; [reflexivity|].
  assert (D : forall l, declared_in (bb_config b) (bb_name_type b) l <-> In l (lang_languages lang)).
  { intros l. unfold declared_in. rewrite B. split; [intros (x & E & I); injection E as <-; assumption|eauto]. }
  assert (T : forall l, In l set -> tables_for {| pe_rules := cf_rules (bb_config b); pe_lang := lang; pe_name_type := bb_name_type b;
        pe_rule_type := rt_private (bb_rule_type b); pe_concat := bb_concat b; pe_max_phonemes := bb_max_phonemes b |} l).
  { intros l I. unfold tables_for. cbn [pe_rules pe_name_type pe_rule_type].
    destruct (proj1 (C Rules_ l) (or_introl I)) as (r & R1 & R2).
    assert (NR : rt_private (bb_rule_type b) <> Rules_) by (destruct (bb_rule_type b); discriminate).
    destruct (proj1 (C (rt_private (bb_rule_type b)) $ "common") (or_intror (conj NR eq_refl))) as (f1 & F1 & F2).
    destruct (proj1 (C (rt_private (bb_rule_type b)) l) (or_introl I)) as (f2 & G1 & G2).
    exists r, f1, f2. repeat (split; [assumption|]). split; [|split]; eapply parse_rule_table_ok; eassumption. }
  cbn [pe_lang pe_rules pe_name_type]. split; [|split; [exact D|split]].
  - intros A. apply D in A. rewrite S in A. split; [now apply T|]. intros l I. cbn [pe_lang] in I. rewrite S in I. now apply T.
  - intros l I. rewrite S in I. now apply T.
  - intros l I. rewrite S in I. apply C. intros [K|[K _]]; [contradiction|]. now apply K.
Qed.
End Rx.
