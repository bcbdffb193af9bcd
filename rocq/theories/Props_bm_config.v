(** * Beider-Morse: configurations and files (C51, C54-C56, C62, C63). *)
From Verif Require Import Base UnicodeM Lib RulesParser DaitchMokotoff BmLanguages BmRegex BmRule BmEngine BmDefault MiniRegex UnicodeReal BaseLemmas
  Spec_common Spec_rules Spec_dm_file Dm_proofs Spec_bm Bm_set_proofs Spec_bm_engine Bm_engine_proofs Bm_recursion_proofs Spec_bm_name Bm_name_proofs
  Rules_proofs Spec_bm_file Bm_file_proofs Bm_config_proofs Props_bm_languages Props_bm_engine.
Local Open Scope N_scope.

Section Config.
Variable u : Unicode.
Variable rx : RegexEngine.

(** ** C54: what reading a rule file gives *)
Theorem C54_sound : forall rs depth name, parse_rule u rx rs depth name <> NoFuel ->
  exists o, file_outcome u rx rs name o /\ realizes (parse_rule u rx rs depth name) o.
Proof. exact (parse_rule_sound u rx). Qed.
Theorem C54_complete : forall rs name o, file_outcome u rx rs name o ->
  exists d, forall depth, (d <= depth)%nat -> realizes (parse_rule u rx rs depth name) o.
Proof. exact (parse_rule_complete u rx). Qed.
(** The outcome of a file is unique: how deep the includes are nested does not
    matter. *)
Theorem C54_unique : forall rs name t t', file_outcome u rx rs name (Loaded t) -> file_outcome u rx rs name (Loaded t') -> forall c, t c = t' c.
Proof.
  intros rs name t t' H K. apply C54_complete in H as (d1 & H). apply C54_complete in K as (d2 & K).
  destruct (H (Nat.max d1 d2)) as (m & E & M); [lia|]. destruct (K (Nat.max d1 d2)) as (m' & E' & M'); [lia|].
  rewrite E in E'. apply Ok_inj in E'. injection E' as <-. intros c. destruct M as [_ M]. destruct M' as [_ M'].
  specialize (M c). specialize (M' c). rewrite M in M'. destruct (t c), (t' c); congruence.
Qed.
(** An included file replaces the rules for the characters it has rules for (it
    does not add to them), and leaves the others. *)
Theorem C54_include_replaces : forall t t' c, t' c <> [] -> override t t' c = t' c.
Proof. intros t t' c H. unfold override. destruct (t' c); [congruence|reflexivity]. Qed.
Theorem C54_include_keeps : forall t t' c, t' c = [] -> override t t' c = t c.
Proof. intros t t' c H. unfold override. now rewrite H. Qed.

(** ** C55: a cycle of includes *)
(** A file in whose text only blank lines and comments precede an include. *)
Definition starts_including (rs : Resolver) (name name' : ustr) : Prop :=
  exists content pre r post rem, rs_lookup rs name = Some content
    /\ reading (bm_file_line (file_name_char (is_alphanumeric u))) content (pre ++ (BmInclude name', r) :: post) rem
    /\ forall i x, In (i, x) pre -> i = BmBlank \/ exists n, i = BmComment n.
Theorem C55_no_outcome : forall rs (C : ustr -> Prop), (forall n, C n -> exists n', starts_including rs n n' /\ C n') ->
  forall n o, C n -> ~ file_outcome u rx rs n o.
Proof.
  intros rs C H n o Hn F. revert Hn.
  refine (file_outcome_mind u rx rs (fun n o _ => C n -> False)
    (fun f k items rem t o _ => forall pre n' r post, items = pre ++ (BmInclude n', r) :: post ->
       (forall i x, In (i, x) pre -> i = BmBlank \/ exists n, i = BmComment n) -> C n' -> False) _ _ _ _ _ _ _ _ _ _ _ _ n o F).
  - intros name E K. destruct (H _ K) as (n' & (content & _ & _ & _ & _ & E' & _) & _). congruence.
  - intros name content items rem o0 E R _ IH K. destruct (H _ K) as (n' & (content' & pre & r & post & rem' & E' & R' & P) & K').
    rewrite E in E'. injection E' as <-. destruct (bm_reading_unique u _ _ _ R _ _ R') as [-> _]. exact (IH _ _ _ _ eq_refl P K').
  - intros. destruct pre; discriminate.
  - intros. destruct pre; discriminate.
  - intros f k r items rem t o0 _ IH pre n' r' post E P K. destruct pre as [|[i x] pre]; [discriminate|]. injection E as E1 E2 E3.
    apply (IH pre n' r' post E3); [intros; apply (P i0 x0); now right|assumption].
  - intros f k k' r items rem t o0 _ IH pre n' r' post E P K. destruct pre as [|[i x] pre]; [discriminate|]. injection E as E1 E2 E3.
    apply (IH pre n' r' post E3); [intros; apply (P i0 x0); now right|assumption].
  - intros f k a b c d rule r items rem t o0 _ _ _ _ pre n' r' post E P _. destruct pre as [|[i x] pre]; [discriminate|]. injection E as E1 E2 E3.
    destruct (P i x (or_introl eq_refl)) as [K|(m & K)]; congruence.
  - intros f k b c d rule r items rem t _ pre n' r' post E P _. destruct pre as [|[i x] pre]; [discriminate|]. injection E as E1 E2 E3.
    destruct (P i x (or_introl eq_refl)) as [K|(m & K)]; congruence.
  - intros f k a b c d e r items rem t _ pre n' r' post E P _. destruct pre as [|[i x] pre]; [discriminate|]. injection E as E1 E2 E3.
    destruct (P i x (or_introl eq_refl)) as [K|(m & K)]; congruence.
  - intros f k name t' r items rem t o0 _ IH _ _ pre n' r' post E P K. destruct pre as [|[i x] pre].
    + injection E as E1 E2 E3. subst. now apply IH.
    + injection E as E1 E2 E3. destruct (P i x (or_introl eq_refl)) as [Q|(m & Q)]; congruence.
  - intros f k name e r items rem t _ IH pre n' r' post E P K. destruct pre as [|[i x] pre].
    + injection E as E1 E2 E3. subst. now apply IH.
    + injection E as E1 E2 E3. destruct (P i x (or_introl eq_refl)) as [Q|(m & Q)]; congruence.
  - intros f k name r items rem t _ IH pre n' r' post E P K. destruct pre as [|[i x] pre].
    + injection E as E1 E2 E3. subst. now apply IH.
    + injection E as E1 E2 E3. destruct (P i x (or_introl eq_refl)) as [Q|(m & Q)]; congruence.
Qed.
(** Reading such a file never ends: it is not finished within any depth of
    nested includes (the program overflows its stack). *)
Theorem C55_never_ends : forall rs (C : ustr -> Prop), (forall n, C n -> exists n', starts_including rs n n' /\ C n') ->
  forall n, C n -> forall depth, parse_rule u rx rs depth n = NoFuel.
Proof.
  intros rs C H n Hn depth. destruct (parse_rule u rx rs depth n) eqn:E; [| |reflexivity];
    (assert (N : parse_rule u rx rs depth n <> NoFuel) by congruence; destruct (C54_sound rs depth n N) as (o & O & _);
     exfalso; exact (C55_no_outcome rs C H n o Hn O)).
Qed.

(** ** C51: which rules a configuration has *)
(** The directory has a file for everything: the declared languages, the
    language rules, and the phonetic rules of every declared language (and of
    "common"), all of which can be read. *)
Definition complete_directory (d : directory) : Prop :=
  (exists names, dir_listing d = ROk (map (fun x => ROk x) names) /\ forall n, In (language_filename n) names) /\
  forall n, exists text set ltext rules,
    dir_file d (language_filename n) = ROk text /\ declares text set
    /\ dir_file d (nt_display n ++ $ "_lang.txt") = ROk ltext /\ language_rules rx (dir_path d (nt_display n ++ $ "_lang.txt")) ltext rules
    /\ forall t l, In l set \/ (t <> Rules_ /\ l = $ "common") ->
         exists tbl, file_outcome u rx (dir_resolver d) (rule_filename n t l) (Loaded tbl).

Lemma languages_complete : forall d names acc,
  (forall n, In (language_filename n) names -> exists text set, dir_file d (language_filename n) = ROk text /\ declares text set) ->
  exists L, languages_from_entries d (map (fun x => ROk x) names) acc = Ok (ROk L).
Proof.
  intros d. induction names as [|name names IH]; intros acc H; cbn [map languages_from_entries]; [now exists acc|].
  assert (H' : forall n, In (language_filename n) names -> exists text set, dir_file d (language_filename n) = ROk text /\ declares text set) by (intros n I; apply (H n); now right).
  destruct (nt_try_from_filename name) as [nt|e] eqn:T; [|now apply IH]. apply nt_from_filename in T. subst name.
  destruct (H nt (or_introl eq_refl)) as (text & set & -> & D). apply parse_liste_declares in D. rewrite D. cbn [bind]. now apply IH.
Qed.
Lemma build_langs_complete : forall d (L : Languages) nts acc, (forall n, In n nts -> exists set ltext rules, nt_assoc n L = Some set
     /\ dir_file d (nt_display n ++ $ "_lang.txt") = ROk ltext /\ language_rules rx (dir_path d (nt_display n ++ $ "_lang.txt")) ltext rules) ->
  exists G, build_langs_for rx d L nts acc = Ok (ROk G).
Proof.
  intros d L. induction nts as [|n nts IH]; intros acc H; cbn [build_langs_for]; [now exists acc|].
  destruct (H n (or_introl eq_refl)) as (set & ltext & rules & A & B & C). rewrite A. cbn [unwrap bind]. rewrite B.
  assert (P : parse_lang rx (dir_path d (nt_display n ++ $ "_lang.txt")) set (length ltext) [] 0 ltext = Ok (ROk {| lang_languages := set; lang_rules := rules |}))
    by (apply parse_lang_rules; now split).
  rewrite P. cbn [bind]. apply IH. intros m I. apply H. now right.
Qed.
Lemma load_files_complete : forall rs keys, (forall n t l, In (n, t, l) keys -> exists tbl, file_outcome u rx rs (rule_filename n t l) (Loaded tbl)) ->
  exists d0, forall depth acc, (d0 <= depth)%nat -> exists R, load_files u rx rs depth keys acc = Ok (ROk R).
Proof.
  intros rs. induction keys as [|[[n t] l] keys IH]; intros H.
  - exists 0%nat. intros depth acc _. now exists acc.
  - destruct IH as (d1 & IH); [intros n' t' l' I; apply H; now right|]. destruct (H n t l (or_introl eq_refl)) as (tbl & F).
    apply C54_complete in F as (d2 & F). exists (Nat.max d1 d2). intros depth acc D. cbn [load_files].
    destruct (F depth) as (m & E & _); [lia|]. rewrite E. cbn [bind]. apply IH. lia.
Qed.
Lemma build_rules_complete : forall rs (L : Languages) nts, (forall n, In n nts -> exists set, nt_assoc n L = Some set /\
     forall t l, In l set \/ (t <> Rules_ /\ l = $ "common") -> exists tbl, file_outcome u rx rs (rule_filename n t l) (Loaded tbl)) ->
  exists d0, forall depth acc, (d0 <= depth)%nat -> exists R, build_rules_for u rx rs depth L nts acc = Ok (ROk R).
Proof.
  intros rs L. induction nts as [|n nts IH]; intros H.
  - exists 0%nat. intros depth acc _. now exists acc.
  - destruct IH as (d1 & IH); [intros m I; apply H; now right|]. destruct (H n (or_introl eq_refl)) as (set & A & F).
    destruct (load_files_complete rs (files_for n set)) as (d2 & K).
    { intros n' t l I. apply files_for_In in I as [-> I]. now apply F. }
    exists (Nat.max d1 d2). intros depth acc D. cbn [build_rules_for]. rewrite A. destruct (K depth acc) as (R & E); [lia|]. rewrite E. cbn [bind]. apply IH. lia.
Qed.
(** Such a directory is accepted (when the includes can be nested deep enough:
    the program recurses on its stack). *)
Theorem C51_accepted : forall d, complete_directory d ->
  exists d0, forall depth, (d0 <= depth)%nat -> exists c, config_new u rx d depth = Ok (ROk c).
Proof.
  intros d [(names & EN & HN) H].
  assert (EL : exists L, languages_from_entries d (map (fun x => ROk x) names) [] = Ok (ROk L)).
  { apply languages_complete. intros n I. destruct (H n) as (text & set & _ & _ & A & B & _). now exists text, set. }
  destruct EL as (L & EL0). assert (EL : languages_try_from d = Ok (ROk L)) by (unfold languages_try_from; now rewrite EN).
  assert (AL : forall n, exists set, nt_assoc n L = Some set /\ exists text, dir_file d (language_filename n) = ROk text /\ declares text set).
  { intros n. destruct (proj2 (languages_from_entries_ok d _ [] L EL0) n) as [(_ & text & set & A & B & C)|[A _]]; [exists set; split; [assumption|now exists text]|].
    elim A. apply in_map_iff. exists (language_filename n). split; [reflexivity|apply HN]. }
  assert (US : forall text a b, declares text a -> declares text b -> a = b).
  { intros text a b A B. apply parse_liste_declares in A. apply parse_liste_declares in B. rewrite A in B. apply Ok_inj in B. now injection B. }
  assert (EG : exists G, build_langs rx d L = Ok (ROk G)).
  { apply build_langs_complete. intros n _. destruct (H n) as (text & set & ltext & rules & A & B & C & D & _).
    destruct (AL n) as (set' & A' & _). now exists set', ltext, rules. }
  destruct EG as (G & EG).
  destruct (build_rules_complete (dir_resolver d) L all_name_types) as (d0 & ER).
  { intros n _. destruct (H n) as (text & set & ltext & rules & A & B & C & D & F).
    destruct (AL n) as (set' & A' & text' & B' & C'). rewrite A in B'. injection B' as <-. rewrite (US _ _ _ C' B) in A'. now exists set. }
  exists d0. intros depth D. destruct (ER depth [] D) as (R & E). unfold config_new. rewrite EL. cbn [bind]. rewrite EG. cbn [bind].
  unfold build_rules. rewrite E. cbn [bind]. now exists {| cf_langs := G; cf_rules := R |}.
Qed.
(** Conversely everything in an accepted configuration was read. *)
Theorem C51_accepted_only : forall d depth c, config_new u rx d depth = Ok (ROk c) -> complete_directory d.
Proof.
  intros d depth c H. destruct (config_new_ok _ _ _ _ _ H) as [HN CN]. split; [exact HN|].
  intros n. destruct (CN n) as (text & set & ltext & lang & A & B & C & _ & _ & D & E).
  exists text, set, ltext, (lang_rules lang). repeat (split; [assumption|]). intros t l K. destruct (proj1 (E t l) K) as (m & _ & P).
  destruct (C54_sound (dir_resolver d) depth (rule_filename n t l)) as (o & O & R); [congruence|]. rewrite P in R.
  destruct o as [tbl|e|]; cbn in R; [now exists tbl|discriminate|discriminate].
Qed.

(** Building never fails on an accepted configuration. *)
Theorem C51_builds : forall d depth b, config_new u rx d depth = Ok (ROk (bb_config b)) ->
  exists e, builder_build b = Ok e /\ tables_ok e.
Proof.
  intros d depth b H. destruct (built_engine_ok _ _ _ _ _ H) as (e & E & _). exists e. split; [assumption|].
  intros [[n t] l] m G. unfold builder_build in E. destruct (nt_assoc _ _); [|discriminate]. cbn [unwrap bind] in E. apply Ok_inj in E. subst e. cbn [pe_rules] in G.
  destruct (proj2 (config_new_ok _ _ _ _ _ H) n) as (text & set & ltext & lang & _ & _ & _ & _ & _ & _ & K). destruct (K t l) as [K1 K2].
  assert (D : (In l set \/ (t <> Rules_ /\ l = $ "common")) \/ ~ (In l set \/ (t <> Rules_ /\ l = $ "common"))).
  { destruct (in_dec (list_eq_dec N.eq_dec) l set) as [I|I]; [now left; left|].
    destruct (rt_eqb t Rules_) eqn:T.
    - apply rt_eqb_eq in T. right. intros [X|[X _]]; [contradiction|now apply X].
    - assert (T' : t <> Rules_) by (intros X; apply rt_eqb_eq in X; congruence).
      destruct (list_eq_dec N.eq_dec l $ "common") as [X|X]; [left; right; now split|right]. intros [Y|[_ Y]]; contradiction. }
  destruct D as [D|D]; [|rewrite (K2 D) in G; discriminate]. destruct (K1 D) as (m' & A & B). rewrite G in A. injection A as <-.
  eapply parse_rule_table_ok; eassumption.
Qed.
Hypothesis L : LowerOK u.
(** If "any" is declared for the name type, every value has a code. *)
Theorem C51_total : forall d depth b e, config_new u rx d depth = Ok (ROk (bb_config b)) ->
  declared_in (bb_config b) (bb_name_type b) $ "any" -> builder_build b = Ok e ->
  forall v, exists code, bm_encode u rx e v = Ok code.
Proof.
  intros d depth b e H A E. destruct (built_engine_ok _ _ _ _ _ H) as (e' & E' & O & _). rewrite E in E'. apply Ok_inj in E'. subst e'.
  apply encode_total; [assumption|now apply O].
Qed.
(** With given languages, too, if the only language among them is declared. *)
Theorem C51_total_languages : forall d depth b e, config_new u rx d depth = Ok (ROk (bb_config b)) ->
  declared_in (bb_config b) (bb_name_type b) $ "any" -> builder_build b = Ok e ->
  forall v languages, (forall l, languages = SomeLanguages [l] -> declared_in (bb_config b) (bb_name_type b) l) ->
  exists code, bm_encode_with_languages u rx e v languages = Ok code.
Proof.
  intros d depth b e H A E v languages D. destruct (built_engine_ok _ _ _ _ _ H) as (e' & E' & O & De & T & _). rewrite E in E'. apply Ok_inj in E'. subst e'.
  apply encode_with_languages_total; [assumption|now apply O|]. apply T. apply De.
  destruct (proj2 (language_used_iff languages _) eq_refl) as [K|[-> _]]; [now apply D|assumption].
Qed.
(** Otherwise it panics, whatever the value. *)
Theorem C51_undeclared_panics : forall d depth b e, config_new u rx d depth = Ok (ROk (bb_config b)) ->
  builder_build b = Ok e -> forall v languages l, language_used languages l -> ~ declared_in (bb_config b) (bb_name_type b) l ->
  bm_encode_with_languages u rx e v languages = Panic.
Proof.
  intros d depth b e H E v languages l LU D. destruct (built_engine_ok _ _ _ _ _ H) as (e' & E' & O & De & T & N). rewrite E in E'. apply Ok_inj in E'. subst e'.
  apply language_used_iff in LU. rewrite (encode_equation u rx L). unfold level. cbv zeta. rewrite LU, N; [reflexivity|]. intros K. apply D. now apply De.
Qed.
(** In particular without "any", for every value whose languages are not narrowed
    down to one. *)
Theorem C51_any_needed : forall d depth b e, config_new u rx d depth = Ok (ROk (bb_config b)) ->
  builder_build b = Ok e -> ~ declared_in (bb_config b) (bb_name_type b) $ "any" ->
  forall v, (forall l, guess_languages u rx (pe_lang e) v <> SomeLanguages [l]) -> bm_encode u rx e v = Panic.
Proof.
  intros d depth b e H E D v G. apply (C51_undeclared_panics d depth b e H E v _ $ "any"); [|assumption]. right. now split.
Qed.

(** The default configuration: every builder builds, every value has a code. *)
Theorem C51_default : forall depth b, config_default u rx depth = Ok (bb_config b) ->
  exists e, builder_build b = Ok e /\ forall v, exists code, bm_encode u rx e v = Ok code.
Proof.
  intros depth b H. unfold config_default, rules_default in H.
  destruct (build_rules u rx embedded_resolver depth languages_default) as [[R|e]| |] eqn:ER; try discriminate. cbn [bind] in H. apply Ok_inj in H.
  unfold builder_build. rewrite <- H. cbn [cf_langs cf_rules].
  assert (A : nt_assoc (bb_name_type b) langs_default = Some {| lang_languages := []; lang_rules := [] |}) by (destruct (bb_name_type b); reflexivity).
  rewrite A. cbn [unwrap bind]. eexists. split; [reflexivity|]. apply encode_total; [assumption|]. split; [|intros l []].
  destruct (build_rules_ok _ _ _ _ _ _ _ _ all_name_types_NoDup ER (bb_name_type b)) as [C _].
  destruct (C (all_name_types_In _)) as (set & S & K). assert (S' : set = [$ "any"]) by (destruct (bb_name_type b); cbn in S; congruence). subst set.
  unfold tables_for. cbn [pe_rules pe_name_type pe_rule_type].
  assert (NR : rt_private (bb_rule_type b) <> Rules_) by (destruct (bb_rule_type b); discriminate).
  destruct (proj1 (K Rules_ $ "any")) as (r & R1 & R2); [left; now left|].
  destruct (proj1 (K (rt_private (bb_rule_type b)) $ "common")) as (f1 & F1 & F2); [right; now split|].
  destruct (proj1 (K (rt_private (bb_rule_type b)) $ "any")) as (f2 & G1 & G2); [left; now left|].
  exists r, f1, f2. repeat (split; [assumption|]). split; [|split]; eapply parse_rule_table_ok; eassumption.
Qed.

(** ** C56: a missing list of languages *)
(** The configuration panics (instead of reporting an error) when a name type has
    no list of languages and the rest of the languages can be read. *)
Theorem C56_missing_languages : forall d names n, dir_listing d = ROk (map (fun x => ROk x) names) ->
  ~ In (language_filename n) names ->
  (forall n', In (language_filename n') names -> exists text set, dir_file d (language_filename n') = ROk text /\ declares text set) ->
  (forall n', exists ltext rules, dir_file d (nt_display n' ++ $ "_lang.txt") = ROk ltext
     /\ language_rules rx (dir_path d (nt_display n' ++ $ "_lang.txt")) ltext rules) ->
  forall depth, config_new u rx d depth = Panic.
Proof.
  intros d names n EN N HL HR depth.
  destruct (languages_complete d names [] HL) as (LL & EL0).
  assert (EL : languages_try_from d = Ok (ROk LL)) by (unfold languages_try_from; now rewrite EN).
  unfold config_new. rewrite EL. cbn [bind].
  destruct (proj2 (languages_from_entries_ok d _ [] LL EL0) n) as [(I & _)|[_ A]].
  { apply in_map_iff in I as (x & E & I). injection E as ->. contradiction. }
  cbn [nt_assoc] in A.
  assert (G : forall nts acc, In n nts -> build_langs_for rx d LL nts acc = Panic).
  { induction nts as [|k nts IH]; intros acc I; [destruct I|]. cbn [build_langs_for]. destruct (nt_assoc k LL) as [ls|] eqn:K; [|reflexivity]. cbn [unwrap bind].
    destruct I as [->|I]; [congruence|]. destruct (HR k) as (ltext & rules & B & C). rewrite B.
    assert (P : parse_lang rx (dir_path d (nt_display k ++ $ "_lang.txt")) ls (length ltext) [] 0 ltext = Ok (ROk {| lang_languages := ls; lang_rules := rules |}))
      by (apply parse_lang_rules; now split).
    rewrite P. cbn [bind]. now apply IH. }
  unfold build_langs. rewrite (G all_name_types []); [reflexivity|]. apply all_name_types_In.
Qed.

(** ** C62: the phonemes of a rule *)
Theorem C62_expression : forall s ps, parse_phoneme_expr s = ROk ps <-> expr_reads s ps.
Proof. exact parse_phoneme_expr_ok. Qed.
Theorem C62_expression_error : forall s e, parse_phoneme_expr s = RErr e <-> exists m, e = WrongPhoneme m /\ expr_error s m.
Proof. exact parse_phoneme_expr_err. Qed.

End Config.

(** ** Examples *)
Example C51_nonvacuous : exists b e, config_new real_unicode mini_engine (folder_of demo_dir) 3 = Ok (ROk (bb_config b))
  /\ declared_in (bb_config b) (bb_name_type b) $ "any" /\ builder_build b = Ok e
  /\ complete_directory real_unicode mini_engine (folder_of demo_dir)
  /\ bm_encode_with_languages real_unicode mini_engine e $ "aab" (SomeLanguages [$ "french"]) = Panic.
Proof.
  exists (demo_builder Generic true 3), (demo Generic true 3).
  assert (E : config_new real_unicode mini_engine (folder_of demo_dir) 3 = Ok (ROk (bb_config (demo_builder Generic true 3)))) by (vm_compute; reflexivity).
  split; [exact E|]. split.
  - eexists. split; [vm_compute; reflexivity|]. now left.
  - split; [vm_compute; reflexivity|]. split; [|vm_compute; reflexivity]. exact (C51_accepted_only _ _ _ _ _ E).
Qed.
(** The rules shipped with the crate load with the small matcher of MiniRegex.v. *)
Example C51_default_nonvacuous : exists c, config_default real_unicode mini_engine 3 = Ok c.
Proof. destruct (config_default real_unicode mini_engine 3) as [c| |] eqn:E; [now exists c| |]; exfalso; vm_compute in E; discriminate. Qed.

(** Rule files as a list of names and contents. *)
Definition files (l : list (ustr * ustr)) : Resolver :=
  {| rs_lookup := fun n => match find (fun x => seq_eqb (fst x) n) l with Some x => Some (snd x) | None => None end;
     rs_not_found := fun n => n |}.
Definition phonemes_of (r : res (result RuleMap PhoneticError)) (c : N) : list (list ustr) :=
  match r with Ok (ROk m) => match assoc c m with Some l => map (fun x => map ph_text (bm_phoneme x)) l | None => [] end | _ => [] end.
Example C54_nonvacuous :
  phonemes_of (parse_rule real_unicode mini_engine (files [($ "x", dq $ "'a' '' '' 'one'" ++ dq $ "'b' '' '' 'two'" ++ dq $ "#include y"); ($ "y", dq $ "'a' '' '' '(three|3)'")]) 3 $ "x") (# "a")
  = [[$ "three"; $ "3"]]
  /\ phonemes_of (parse_rule real_unicode mini_engine (files [($ "x", dq $ "'a' '' '' 'one'" ++ dq $ "'b' '' '' 'two'" ++ dq $ "#include y"); ($ "y", dq $ "'a' '' '' '(three|3)'")]) 3 $ "x") (# "b")
  = [[$ "two"]].
Proof. split; vm_compute; reflexivity. Qed.
Definition cyclic : Resolver := files [($ "x", $ "#include y" ++ [10]); ($ "y", $ "// again" ++ [10] ++ $ "#include x" ++ [10])].
Example C55_nonvacuous : forall depth, parse_rule real_unicode mini_engine cyclic depth $ "x" = NoFuel.
Proof.
  apply (C55_never_ends real_unicode mini_engine cyclic (fun n => n = $ "x" \/ n = $ "y")); [|now left].
  intros n [-> | ->].
  - exists $ "y". split; [|now right]. exists ($ "#include y" ++ [10]), [], [], [], []. split; [reflexivity|]. split; [|intros i x []].
    eapply reading_item; [discriminate| |apply reading_end]. apply bm_next_spec; [discriminate|]. vm_compute. reflexivity.
  - exists $ "x". split; [|now left]. exists ($ "// again" ++ [10] ++ $ "#include x" ++ [10]), [(BmBlank, $ "#include x" ++ [10])], [], [], []. split; [reflexivity|]. split.
    + eapply reading_item; [discriminate|apply bm_next_spec; [discriminate|]; vm_compute; reflexivity|].
      eapply reading_item; [discriminate| |apply reading_end]. apply bm_next_spec; [discriminate|]. vm_compute. reflexivity.
    + intros i x [E|[]]. injection E as <- <-. now left.
Qed.
Example C56_nonvacuous :
  config_new real_unicode mini_engine (folder_of (filter (fun x => negb (seq_eqb (fst x) $ "gen_languages.txt")) demo_dir)) 3 = Panic
  /\ In $ "gen_languages.txt" (map fst demo_dir).
Proof. split; [vm_compute; reflexivity|]. vm_compute. tauto. Qed.
Example C62_nonvacuous :
  expr_reads $ "(a|b[german+french]|)"
    [{| ph_text := $ "a"; ph_languages := LAny |}; {| ph_text := $ "b"; ph_languages := SomeLanguages [$ "french"; $ "german"] |};
     {| ph_text := []; ph_languages := LAny |}; {| ph_text := []; ph_languages := LAny |}]
  /\ expr_error $ "(a|b[german)" $ "Phoneme expression b[german has a '[' but doesn't ends with an ']'".
Proof.
  split; [apply parse_phoneme_expr_ok; vm_compute; reflexivity|].
  destruct (proj1 (parse_phoneme_expr_err $ "(a|b[german)" _) eq_refl) as (m & E & H). injection E as <-. exact H.
Qed.
(** C63: when two phonemes become the same text under the final rules, the
    languages of the second one's origin are added, not those of the second one:
    here "z" is given the language "b", which neither rule allows. *)
Definition demo_merge : RuleMap :=
  [(# "x", [{| bm_location := []; bm_line := 1; bm_pattern := $ "x"; bm_pattern_length_char := 1; bm_left := COptimized AllStringsMatcher; bm_right := COptimized AllStringsMatcher;
               bm_phoneme := [{| ph_text := $ "z"; ph_languages := SomeLanguages [$ "a"] |}] |}]);
   (# "y", [{| bm_location := []; bm_line := 2; bm_pattern := $ "y"; bm_pattern_length_char := 1; bm_left := COptimized AllStringsMatcher; bm_right := COptimized AllStringsMatcher;
               bm_phoneme := [{| ph_text := $ "z"; ph_languages := SomeLanguages [$ "c"] |}] |}])].
Theorem C63_merge_refuted :
  apply_final_rule mini_engine demo_merge 10
    [{| ph_text := $ "x"; ph_languages := SomeLanguages [$ "a"; $ "b"] |}; {| ph_text := $ "y"; ph_languages := SomeLanguages [$ "b"; $ "c"] |}]
  = Ok [{| ph_text := $ "z"; ph_languages := SomeLanguages [$ "a"; $ "b"; $ "c"] |}].
Proof. vm_compute. reflexivity. Qed.
(** What the final rules give, in general. *)
Theorem C63_final_rules : forall rx rules max b b', table_ok rules ->
  (apply_final_rule rx rules max b = Ok b' <-> final_step rx rules max b b').
Proof.
  intros rx rules max b b' T. destruct (apply_final_step rx rules max b T) as (b1 & E & S). split.
  - intros H. rewrite H in E. injection E as ->. exact S.
  - intros H. now rewrite (final_step_unique _ _ _ _ _ _ H S).
Qed.
Lemma filter_split : forall {A} (f : A -> bool) l x rest, filter f l = x :: rest ->
  exists pre post, l = pre ++ x :: post /\ (forall y, In y pre -> f y = false) /\ f x = true /\ filter f post = rest.
Proof.
  intros A f. induction l as [|y l IH]; intros x rest H; [discriminate|]. cbn [filter] in H.
  destruct (f y) eqn:E.
  - injection H as -> <-. exists [], l. split; [reflexivity|]. split; [intros z []|]. now split.
  - destruct (IH x rest H) as (pre & post & -> & P1 & P2 & P3). exists (y :: pre), post.
    split; [reflexivity|]. split; [|now split]. intros z [<-|Hz]; [exact E|now apply P1].
Qed.
Lemma fold_merge_mem : forall (rest : list (LanguageSet * Phoneme)) a x,
  ls_mem x (fold_left (fun a c => ls_merge a (fst c)) rest a)
  <-> ls_mem x a \/ exists s n, In (s, n) rest /\ ls_mem x s.
Proof.
  induction rest as [|[s n] rest IH]; intros a x; cbn [fold_left].
  - split; [now left|]. intros [H|(s & n & [] & _)]. exact H.
  - rewrite IH. cbn [fst]. rewrite Props_bm_languages.C42_merge_is_union. split.
    + intros [[H|H]|(s' & n' & H1 & H2)]; [now left|right; exists s, n; split; [now left|exact H]|].
      right. exists s', n'. split; [now right|exact H2].
    + intros [H|(s' & n' & [H|H] & H2)]; [now left; left| |right; now exists s', n'].
      injection H as -> ->. left. now right.
Qed.
(** Every phoneme of the result is a phoneme one of the old ones was rewritten to; its languages
    are those of the first such phoneme, and those the later ones had before they were rewritten. *)
Theorem C63_languages : forall rx rules max b b' ph, table_ok rules -> rules <> [] ->
  apply_final_rule rx rules max b = Ok b' -> In ph b' ->
  exists cs pre s n post, contributions rx rules max b cs /\ cs = pre ++ (s, n) :: post
    /\ ph_text n = ph_text ph /\ (forall s' n', In (s', n') pre -> ph_text n' <> ph_text ph)
    /\ forall x, ls_mem x (ph_languages ph)
                 <-> ls_mem x (ph_languages n)
                     \/ exists s' n', In (s', n') post /\ ph_text n' = ph_text ph /\ ls_mem x s'.
Proof.
  intros rx rules max b b' ph T Ne H Hin. apply C63_final_rules in H; [|exact T].
  destruct H as [[K _]|(_ & _ & cs & C & H)]; [contradiction|].
  apply H in Hin. unfold collected in Hin.
  destruct (filter _ cs) as [|[s n] rest] eqn:F; [discriminate|]. injection Hin as Hl.
  apply filter_split in F as (pre & post & Ecs & Hpre & Hn & Hpost). cbn [snd] in Hn.
  exists cs, pre, s, n, post. split; [exact C|]. split; [exact Ecs|]. split; [now apply seq_eqb_eq|].
  split.
  - intros s' n' Hp E. specialize (Hpre (s', n') Hp). cbn [snd] in Hpre. apply seq_eqb_eq in E. congruence.
  - intros x. rewrite <- Hl, fold_merge_mem. split.
    + intros [K|(s' & n' & K1 & K2)]; [now left|right]. exists s', n'. rewrite <- Hpost in K1.
      apply filter_In in K1 as [K1 K3]. cbn [snd] in K3. apply seq_eqb_eq in K3. now split.
    + intros [K|(s' & n' & K1 & K2 & K3)]; [now left|right]. exists s', n'. split; [|exact K3].
      rewrite <- Hpost. apply filter_In. split; [exact K1|]. cbn [snd]. now apply seq_eqb_eq.
Qed.
(** No text is lost or invented, and no text occurs twice. *)
Theorem C63_texts : forall rx rules max b b', table_ok rules -> rules <> [] ->
  apply_final_rule rx rules max b = Ok b' ->
  NoDup (map ph_text b')
  /\ exists cs, contributions rx rules max b cs
     /\ forall x, In x (map ph_text b') <-> exists s n, In (s, n) cs /\ ph_text n = x.
Proof.
  intros rx rules max b b' T Ne H. apply C63_final_rules in H; [|exact T].
  destruct H as [[K _]|(_ & So & cs & C & H)]; [contradiction|].
  split; [now apply increasing_NoDup|]. exists cs. split; [exact C|]. intros x. rewrite in_map_iff. split.
  - intros (ph & <- & Hin). apply H in Hin. unfold collected in Hin.
    destruct (filter _ cs) as [|[s n] rest] eqn:F; [discriminate|].
    apply filter_split in F as (pre & post & -> & _ & Hn & _). cbn [snd] in Hn. apply seq_eqb_eq in Hn.
    exists s, n. split; [apply in_or_app; right; now left|exact Hn].
  - intros (s & n & Hin & <-).
    destruct (collected cs (ph_text n)) as [l|] eqn:E.
    + exists {| ph_text := ph_text n; ph_languages := l |}. split; [reflexivity|]. now apply H.
    + unfold collected in E. destruct (filter _ cs) as [|[s' n'] rest] eqn:F; [|discriminate].
      assert (K : In (s, n) (filter (fun c => seq_eqb (ph_text (snd c)) (ph_text n)) cs)).
      { apply filter_In. split; [exact Hin|]. cbn [snd]. now apply seq_eqb_eq. }
      rewrite F in K. destruct K.
Qed.
Example C63_nonvacuous : table_ok demo_merge /\ demo_merge <> [].
Proof.
  split; [|discriminate]. intros k l r [H|[H|[]]]; injection H as <- <-; intros [<-|[]]; now split.
Qed.
