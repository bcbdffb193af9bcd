(** * Beider-Morse: what is reported when a configuration cannot be read (C70, C71). *)
From Verif Require Import Base UnicodeM Lib RulesParser DaitchMokotoff BmLanguages BmRegex BmRule BmEngine BmDefault MiniRegex UnicodeReal BaseLemmas
  Spec_common Spec_rules Spec_dm_file Dm_proofs Spec_bm Bm_set_proofs Spec_bm_engine Rules_proofs Spec_bm_file Spec_bm_errors Bm_file_proofs
  Bm_config_proofs Props_dm Props_bm_engine Props_bm_config.
Local Open Scope N_scope.

(** ** Positions *)
Lemma comment_lfs : forall s n r, comment_line s n r -> r <> [] -> exists c, s = c ++ r /\ lfs c = n.
Proof.
  intros s n r [text e rest C E] N. apply line_end_lfs in E as (t & -> & E); [|assumption].
  exists ($ "/*" ++ text ++ $ "*/" ++ t). split; [now rewrite <- !app_assoc|]. rewrite !count_occ_app, E.
  change (lfs $ "/*") with 0%nat. change (lfs $ "*/") with 0%nat. cbn [Nat.add]. lia.
Qed.
Lemma list_line_lfs : forall s i r, list_line s i r -> r <> [] -> exists c, s = c ++ r /\ lfs c = list_lines i.
Proof.
  intros s i r [s' r' L|s' n r' L|s' l r' L] N; cbn [list_lines].
  - now apply line_end_lfs.
  - now apply comment_lfs.
  - destruct L as [name e rest _ A E]. apply line_end_lfs in E as (t & -> & E); [|assumption].
    exists (name ++ t). split; [now rewrite app_assoc|]. rewrite count_occ_app, E, lfs_none; [reflexivity|].
    intros K. apply A in K. discriminate.
Qed.
Lemma lang_line_lfs : forall s i r, lang_file_line s i r -> r <> [] -> one_line_lang i -> exists c, s = c ++ r /\ lfs c = lang_lines i.
Proof.
  intros s i r [s' r' L|s' n r' _ L|s' a b v r' _ _ L] N O; cbn [lang_lines].
  - now apply line_end_lfs.
  - now apply comment_lfs.
  - inversion L as [a' b' v' e rest A1 A2 B1 B2 E]; subst. destruct O as [OA OB]. apply line_end_lfs in E as (t & -> & E); [|assumption].
    exists (a ++ [32] ++ b ++ [32] ++ (if v then $ "true" else $ "false") ++ t).
    split; [repeat (rewrite <- ?app_assoc; cbn [app]); reflexivity|].
    rewrite !count_occ_app, E, (lfs_none a), (lfs_none b) by assumption. destruct v; reflexivity.
Qed.
Definition rule_lines (i : bm_item) : nat := match i with BmComment n => n | _ => 1%nat end.
Lemma rule_line_lfs : forall u s i r, bm_file_line (file_name_char (is_alphanumeric u)) s i r -> r <> [] -> one_line_rule i -> exists c, s = c ++ r /\ lfs c = rule_lines i.
Proof.
  intros u s i r [s' a b c d r' L|s' r' L|s' n r' L|s' n r' L] N O; cbn [rule_lines].
  - inversion L as [a' b' c' d' s1 s2 s3 e rest ? ? ? ? B1 ? B2 ? B3 ? E]; subst. destruct O as (OA & OB & OC & OD).
    apply line_end_lfs in E as (t & -> & E); [|assumption].
    exists (quoted a ++ s1 ++ quoted b ++ s2 ++ quoted c ++ s3 ++ quoted d ++ t). split; [now rewrite <- !app_assoc|].
    rewrite !count_occ_app, E, !lfs_quoted, !lfs_blanks by assumption. reflexivity.
  - now apply line_end_lfs.
  - inversion L as [name e rest A1 A2 E]; subst. apply line_end_lfs in E as (t & -> & E); [|assumption].
    exists ($ "#include " ++ n ++ t). split; [now rewrite <- !app_assoc|]. rewrite !count_occ_app, E, (lfs_none n); [reflexivity|].
    intros K. apply A2 in K. discriminate.
  - now apply comment_lfs.
Qed.

Section Prefix.
Context {item : Type}.
Variable line : ustr -> item -> ustr -> Prop.
Variable lines : item -> nat.
Variable ok : item -> Prop.
Hypothesis line_lfs : forall s i r, line s i r -> r <> [] -> ok i -> exists c, s = c ++ r /\ lfs c = lines i.
Lemma after_at_line : forall s items rest, after line s items rest -> rest <> [] -> (forall i, In i items -> ok i) ->
  at_line s rest (1 + list_sum (map lines items)).
Proof.
  intros s items rest H. induction H as [s|s i r items rest NE L H IH]; intros N O.
  - exists []. split; reflexivity.
  - destruct IH as (b & -> & E); [assumption|intros j J; apply O; now right|].
    destruct (line_lfs _ _ _ L) as (c & -> & C); [intros K; apply app_eq_nil in K as [_ K]; congruence|apply O; now left|].
    exists (c ++ b). split; [now rewrite app_assoc|]. rewrite count_occ_app. cbn [map list_sum fold_right]. unfold list_sum in E. lia.
Qed.
End Prefix.
Lemma reading_after : forall {item} (line : ustr -> item -> ustr -> Prop) s items rem, reading line s items rem -> after line s (map fst items) rem.
Proof. intros item line s items rem H. induction H; cbn [map fst]; econstructor; eassumption. Qed.
Lemma reading_stuck_after : forall {item} (line : ustr -> item -> ustr -> Prop) s items rem, reading line s items rem -> rem <> [] ->
  stuck_after line s (map fst items) rem.
Proof.
  intros item line s items rem H N. split; [now apply reading_after|]. split; [assumption|].
  induction H; [congruence|assumption|auto].
Qed.
Lemma after_reading : forall {item} (line : ustr -> item -> ustr -> Prop) s items rest, after line s items rest ->
  forall items' rem, reading line rest items' rem -> exists items2, reading line s (items2 ++ items') rem /\ map fst items2 = items.
Proof.
  intros item line s items rest H. induction H as [s|s i r items rest N L H IH]; intros items' rem R.
  - exists []. split; [assumption|reflexivity].
  - destruct (IH _ _ R) as (i2 & R2 & M). exists ((i, r) :: i2). split; [now constructor|]. cbn. now rewrite M.
Qed.
Lemma at_line_unique : forall s r n m, at_line s r n -> at_line s r m -> n = m.
Proof. intros s r n m (b & -> & ->) (c & E & ->). apply app_inv_tail in E. now subst. Qed.
Lemma first_line_unique : forall s a b, first_line s a -> first_line s b -> a = b.
Proof.
  induction s as [|x s IH]; intros a b [A1 A2] [B1 B2].
  - destruct A2 as [<-|[r A2]]; [|now destruct a]. destruct B2 as [<-|[r B2]]; [reflexivity|now destruct b].
  - destruct a as [|y a], b as [|z b]; [reflexivity| | |].
    + destruct A2 as [A2|[r A2]]; [discriminate|]. injection A2 as -> _.
      destruct B2 as [B2|[r' B2]]; injection B2 as <- _; elim B1; now left.
    + destruct B2 as [B2|[r B2]]; [discriminate|]. injection B2 as -> _.
      destruct A2 as [A2|[r' A2]]; injection A2 as <- _; elim A1; now left.
    + assert (y = x /\ z = x) as [-> ->]
        by (split; [destruct A2 as [A2|[r A2]]; injection A2; auto|destruct B2 as [B2|[r B2]]; injection B2; auto]).
      f_equal. apply IH; (split; [intros K|]).
      * apply A1; now right.
      * destruct A2 as [A2|[r A2]]; injection A2 as A2; [now left|right; now exists r].
      * apply B1; now right.
      * destruct B2 as [B2|[r B2]]; injection B2 as B2; [now left|right; now exists r].
Qed.
Lemma error_at_unique : forall t r q f d p p', error_at t r q f d p -> error_at t r q f d p' -> p = p'.
Proof.
  intros t r q f d [n f1 c d1] [n' f2 c' d2] [A1 A2 A3 A4] [B1 B2 B3 B4]; cbn in *. subst.
  rewrite (at_line_unique _ _ _ _ A1 B1), (first_line_unique _ _ _ A2 B2). reflexivity.
Qed.

(** ** C70: language lists *)
Theorem C70_language_list : forall text e,
  parse_liste (length text) [] 0 text = Ok (RErr e) <-> exists p, e = ParseRuleError p /\ list_error text p.
Proof.
  assert (F : forall text items rem, reading list_line text items rem -> rem <> [] ->
    exists p, parse_liste (length text) [] 0 text = Ok (RErr (ParseRuleError p)) /\
      error_at text rem rem None $ "Can't parse line for languages" p).
  { intros text items rem R N. destruct (parse_liste_spec _ _ _ R (length text) [] 0 (le_n _) I) as [[K _]|[_ E]]; [congruence|].
    eexists. split; [exact E|]. constructor; cbn [pe_line_number pe_line_content pe_filename pe_description build_error];
      [|apply until_lf_spec|reflexivity|reflexivity].
    rewrite Nat.add_0_l, Nat.add_comm, <- map_map.
    apply (after_at_line list_line list_lines (fun _ => True)); [intros; now apply list_line_lfs|now apply reading_after|assumption|auto]. }
  intros text e. split.
  - intros E. destruct (list_reading_exists text) as (items & rem & R).
    destruct rem as [|x rem]; [destruct (parse_liste_spec _ _ _ R (length text) [] 0 (le_n _) I) as [(_ & set & K & _)|[K _]]; congruence|].
    destruct (F _ _ _ R) as (p & E' & P); [discriminate|]. rewrite E in E'. apply Ok_inj in E'. injection E' as ->.
    exists p. split; [reflexivity|]. exists (map fst items), (x :: rem). split; [now apply reading_stuck_after|assumption].
  - intros (p & -> & items & rest & (A & N & S) & P).
    destruct (after_reading _ _ _ _ A [] rest) as (i2 & R & _); [now constructor|]. rewrite app_nil_r in R.
    destruct (F _ _ _ R N) as (p' & E & P'). now rewrite (error_at_unique _ _ _ _ _ _ _ P P').
Qed.

(** ** C70: language rules *)
Lemma after_snoc : forall {item} (line : ustr -> item -> ustr -> Prop) s items rest, after line s items rest ->
  forall i r, rest <> [] -> line rest i r -> after line s (items ++ [i]) r.
Proof.
  intros item line s items rest H. induction H as [s|s i r items rest N L H IH]; intros j t NE L'.
  - econstructor; [assumption|eassumption|constructor].
  - cbn [app]. econstructor; [assumption|eassumption|]. now apply IH.
Qed.
Section Lang.
Variable rx : RegexEngine.
Lemma lang_outcome_error : forall filename n items rem o, lang_outcome rx filename n items rem o ->
  forall text pre s, after lang_file_line text pre s -> reading lang_file_line s items rem ->
  (forall i, In i (pre ++ map fst items) -> one_line_lang i) -> valid_patterns rx pre ->
  n = (1 + list_sum (map lang_lines pre))%nat ->
  match o with RErr e => exists p, e = ParseRuleError p /\ lang_error rx filename text p | ROk _ => rem = [] end.
Proof.
  assert (NX : forall i n pre, n = (1 + list_sum (map lang_lines pre))%nat -> (n + lang_lines i = 1 + list_sum (map lang_lines (pre ++ [i])))%nat)
    by (intros i n pre ->; rewrite map_app, list_sum_app; cbn; lia).
  assert (AT : forall text pre s n, after lang_file_line text pre s -> s <> [] -> (forall i, In i pre -> one_line_lang i) ->
     n = (1 + list_sum (map lang_lines pre))%nat -> at_line text s n)
    by (intros text pre s n A N O ->; now apply (after_at_line lang_file_line lang_lines one_line_lang lang_line_lfs)).
  assert (VX : forall pre i, valid_patterns rx pre -> match i with LgRule a _ _ => rx_valid rx a = true | _ => True end -> valid_patterns rx (pre ++ [i])).
  { intros pre i V Hi a l v K. apply in_app_or in K as [K|[->|[]]]; [now apply (V a l v)|exact Hi]. }
  intros filename n items rem o H. induction H as [n|n rem N|n r items rem o H IH|n k r items rem o H IH
    |n p l v ls set r items rem rules RV SP I1 I2 H IH|n p l v r items rem e RV H IH|n p l v r items rem RV];
    intros text pre s A R O V E.
  - reflexivity.
  - inversion R as [|s' NE S|]; subst; [congruence|]. eexists. split; [reflexivity|].
    eapply lerr_unreadable; [split; [exact A|now split]|assumption|].
    constructor; cbn [pe_line_number pe_line_content pe_filename pe_description build_error]; [|apply until_lf_spec|reflexivity|reflexivity].
    apply (AT text pre); auto. intros i K. apply O, in_or_app. now left.
  - inversion R as [| |s' i' r' items' rem' NE L R']; subst.
    apply (IH text (pre ++ [LgBlank]) r); [now apply (after_snoc lang_file_line _ _ s)|assumption|now rewrite <- app_assoc|now apply VX|].
    now apply (NX LgBlank).
  - inversion R as [| |s' i' r' items' rem' NE L R']; subst.
    apply (IH text (pre ++ [LgComment k]) r); [now apply (after_snoc lang_file_line _ _ s)|assumption|now rewrite <- app_assoc|now apply VX|].
    now apply (NX (LgComment k)).
  - inversion R as [| |s' i' r' items' rem' NE L R']; subst.
    apply (IH text (pre ++ [LgRule p l v]) r); [now apply (after_snoc lang_file_line _ _ s)|assumption|now rewrite <- app_assoc|now apply VX|].
    now apply (NX (LgRule p l v)).
  - inversion R as [| |s' i' r' items' rem' NE L R']; subst.
    apply (IH text (pre ++ [LgRule p l v]) r); [now apply (after_snoc lang_file_line _ _ s)|assumption|now rewrite <- app_assoc|now apply VX|].
    now apply (NX (LgRule p l v)).
  - inversion R as [| |s' i' r' items' rem' NE L R']; subst. eexists. split; [reflexivity|].
    eapply lerr_pattern; [exact A|assumption|exact L|assumption|].
    constructor; cbn [pe_line_number pe_line_content pe_filename pe_description build_error]; [|apply until_lf_spec|reflexivity|reflexivity].
    apply (AT text pre); auto. intros i K. apply O, in_or_app. now left.
Qed.
Theorem C70_language_rules : forall filename languages text e,
  (forall items rest i, after lang_file_line text items rest -> In i items -> one_line_lang i) ->
  parse_lang rx filename languages (length text) [] 0 text = Ok (RErr e) ->
  exists p, e = ParseRuleError p /\ lang_error rx filename text p.
Proof.
  intros filename languages text e O E. destruct (lang_reading_exists text) as (items & rem & R).
  destruct (parse_lang_spec rx _ _ _ R filename languages (length text) [] 0 (le_n _)) as (o & L & E'). rewrite E in E'. apply Ok_inj in E'.
  destruct o as [l|e']; [discriminate|]. injection E' as <-.
  apply (lang_outcome_error _ _ _ _ _ L text [] text); [constructor|assumption| |intros a b c []|reflexivity].
  intros i I. apply (O _ _ i (reading_after _ _ _ _ R) I).
Qed.
(** Conversely nothing else is reported: no such error, no failure. *)
Theorem C70_language_rules_else : forall filename languages text,
  (forall items rest i, after lang_file_line text items rest -> In i items -> one_line_lang i) ->
  (forall p, ~ lang_error rx filename text p) ->
  exists rules, parse_lang rx filename languages (length text) [] 0 text = Ok (ROk {| lang_languages := languages; lang_rules := rules |}).
Proof.
  intros filename languages text O N. destruct (lang_reading_exists text) as (items & rem & R).
  destruct (parse_lang_spec rx _ _ _ R filename languages (length text) [] 0 (le_n _)) as (o & L & E'). destruct o as [l|e]; [now exists l|].
  destruct (C70_language_rules filename languages text e O E') as (p & _ & K). now elim (N p).
Qed.
End Lang.

(** ** C70: phonetic rules *)
Section Rule.
Variable u : Unicode.
Variable rx : RegexEngine.
Variable rs : Resolver.
Notation rule_line := (bm_file_line (file_name_char (is_alphanumeric u))).
Definition error_ok (name : ustr) (e : PhoneticError) : Prop :=
  match e with ParseRuleError p => placed_error u rx rs name p | BMErr m => unplaced_error u rx rs name m end.
Lemma file_outcome_error : rules_on_one_line u rs -> forall name o, file_outcome u rx rs name o ->
  match o with Failed e => error_ok name e | _ => True end.
Proof.
  intros OL.
  assert (NX : forall i n pre, n = (1 + list_sum (map rule_lines pre))%nat -> (n + rule_lines i = 1 + list_sum (map rule_lines (pre ++ [i])))%nat)
    by (intros i n pre ->; rewrite map_app, list_sum_app; cbn; lia).
  assert (AT : forall name text pre s n, rs_lookup rs name = Some text -> after rule_line text pre s -> s <> [] ->
     n = (1 + list_sum (map rule_lines pre))%nat -> at_line text s n).
  { intros name text pre s n F A N ->. apply (after_at_line rule_line rule_lines one_line_rule (rule_line_lfs u)); [assumption..|].
    intros i I. now apply (OL name text pre s). }
  intros name o H.
  apply (file_outcome_mind u rx rs
    (fun name o _ => match o with Failed e => error_ok name e | _ => True end)
    (fun f n items rem t o _ => forall text pre s, rs_lookup rs f = Some text -> after rule_line text pre s -> reading rule_line s items rem ->
       n = (1 + list_sum (map rule_lines pre))%nat -> match o with Failed e => error_ok f e | _ => True end)); try exact H; clear name o H.
  - intros name E. now constructor.
  - intros name content items rem o E R _ IH. apply (IH content [] content); [assumption|constructor|assumption|reflexivity].
  - intros; exact I.
  - intros f n rem t NE text pre s F A R E. inversion R as [|s' NE' S|]; subst; [congruence|].
    eapply perr_unreadable; [exact F|split; [exact A|now split]|].
    constructor; cbn [pe_line_number pe_line_content pe_filename pe_description build_error]; [|apply until_lf_spec|reflexivity|reflexivity].
    now apply (AT f text pre).
  - intros f n r items rem t o _ IH text pre s F A R E. inversion R as [| |s' i' r' items' rem' NE L R']; subst.
    apply (IH text (pre ++ [BmBlank]) r); [assumption|now apply (after_snoc rule_line _ _ s)|assumption|]. now apply (NX BmBlank).
  - intros f n k r items rem t o _ IH text pre s F A R E. inversion R as [| |s' i' r' items' rem' NE L R']; subst.
    apply (IH text (pre ++ [BmComment k]) r); [assumption|now apply (after_snoc rule_line _ _ s)|assumption|]. now apply (NX (BmComment k)).
  - intros f n a b c d rule r items rem t o _ _ _ IH text pre s F A R E. inversion R as [| |s' i' r' items' rem' NE L R']; subst.
    apply (IH text (pre ++ [BmQuad a b c d]) r); [assumption|now apply (after_snoc rule_line _ _ s)|assumption|]. now apply (NX (BmQuad a b c d)).
  - intros; exact I.
  - intros f n a b c d e r items rem t LE text pre s F A R E. inversion R as [| |s' i' r' items' rem' NE L R']; subst.
    assert (M : exists m, e = BMErr m) by (destruct LE; eexists; reflexivity). destruct M as (m & ->).
    eapply uerr_line; [exact F|exact A|exact L|exact LE].
  - intros f n name t' r items rem t o _ _ _ IH text pre s F A R E. inversion R as [| |s' i' r' items' rem' NE L R']; subst.
    apply (IH text (pre ++ [BmInclude name]) r); [assumption|now apply (after_snoc rule_line _ _ s)|assumption|]. now apply (NX (BmInclude name)).
  - intros f n name e r items rem t _ IH text pre s F A R E. inversion R as [| |s' i' r' items' rem' NE L R']; subst.
    destruct e as [p|m]; cbn [include_error error_ok] in *.
    + eapply perr_nested; [exact F|exact A|exact L|exact IH].
    + eapply perr_include; [exact F|exact A|exact L|exact IH|].
      constructor; cbn [pe_line_number pe_line_content pe_filename pe_description build_error]; [|apply until_lf_spec|reflexivity|reflexivity].
      now apply (AT f text pre).
  - intros; exact I.
Qed.
Theorem C70_phonetic_rules : rules_on_one_line u rs -> forall depth name e, parse_rule u rx rs depth name = Ok (RErr e) ->
  (exists p, e = ParseRuleError p /\ placed_error u rx rs name p) \/ (exists m, e = BMErr m /\ unplaced_error u rx rs name m).
Proof.
  intros OL depth name e E. destruct (parse_rule_sound u rx rs depth name) as (o & H & Z); [congruence|].
  pose proof (file_outcome_error OL _ _ H) as K. rewrite E in Z. destruct o as [t|e'|]; cbn in Z.
  - destruct Z as (m & Z & _). discriminate.
  - apply Ok_inj in Z. injection Z as ->. destruct e' as [p|m]; cbn in K; [left; now exists p|right; now exists m].
  - discriminate.
Qed.
End Rule.

(** ** C71: the first problem *)
Lemma list_file_eq : forall n, language_filename n = list_file n.
Proof. now intros []. Qed.
Lemma lang_file_eq : forall n, nt_display n ++ $ "_lang.txt" = lang_file n.
Proof. now intros []. Qed.
Lemma rule_files_eq : forall n l, map (fun k => match k with (n, t, l) => rule_filename n t l end) (files_for n l) = rule_files n l.
Proof.
  intros n l. unfold files_for, rule_files, all_rule_types. cbn [flat_map rt_eqb app]. rewrite !map_app, !map_map. cbn [map app].
  rewrite !app_nil_r, <- !app_assoc.
  assert (E : forall t x, rule_filename n t x = rule_file n t x) by (now intros [] x; destruct n).
  rewrite !E, (map_ext _ _ (E Approx)), (map_ext _ _ (E Exact)), (map_ext _ _ (E Rules_)). reflexivity.
Qed.
Lemma not_a_list : forall name x, nt_try_from_filename name = RErr x -> forall n, name <> list_file n.
Proof. intros name x E n ->. rewrite <- list_file_eq, (proj2 (nt_from_filename _ n) eq_refl) in E. discriminate. Qed.
Lemma list_file_inj : forall n m, list_file n = list_file m -> n = m.
Proof. intros n m E. rewrite <- !list_file_eq in E. now apply language_filename_inj. Qed.
Lemma languages_problem : forall d entries acc e, languages_from_entries d entries acc = Ok (RErr e) ->
  exists pre x post, entries = pre ++ x :: post /\ (forall y, In y pre -> entry_verdict d y Fine) /\ entry_verdict d x (Wrong e).
Proof.
  intros d. induction entries as [|[name|text] entries IH]; intros acc e H; cbn [languages_from_entries] in H; [discriminate| |].
  - assert (K : forall acc, entry_verdict d (ROk name) Fine -> languages_from_entries d entries acc = Ok (RErr e) ->
      exists pre x post, ROk name :: entries = pre ++ x :: post /\ (forall y, In y pre -> entry_verdict d y Fine) /\ entry_verdict d x (Wrong e)).
    { intros acc' F H'. destruct (IH _ _ H') as (pre & x & post & -> & F' & W). exists (ROk name :: pre), x, post. split; [reflexivity|].
      split; [|assumption]. intros y [<-|I]; auto. }
    destruct (nt_try_from_filename name) as [n|x] eqn:E.
    + apply nt_from_filename in E. subst name. rewrite list_file_eq in *. destruct (dir_file d (list_file n)) as [text|text] eqn:D.
      * destruct (parse_liste_total text) as ([set|e'] & P); rewrite P in H; cbn [bind] in H.
        -- apply (K (nt_insert n set acc)); [|assumption]. apply (ev_fine d n text set D). now apply parse_liste_declares.
        -- apply Ok_inj in H. injection H as ->. exists [], (ROk (list_file n)), entries. split; [reflexivity|]. split; [intros y []|].
           apply C70_language_list in P as (p & -> & P). now apply (ev_wrong d n text).
      * apply Ok_inj in H. injection H as <-. exists [], (ROk (list_file n)), entries. split; [reflexivity|]. split; [intros y []|].
        now apply (ev_unreadable d n text).
    + apply (K acc); [|assumption]. apply ev_other. eapply not_a_list. exact E.
  - apply Ok_inj in H. injection H as <-. exists [], (RErr text), entries. split; [reflexivity|]. split; [intros y []|constructor].
Qed.
Lemma entry_step : forall d x entries acc v, entry_verdict d x v ->
  match v with
  | Fine => exists acc', languages_from_entries d (x :: entries) acc = languages_from_entries d entries acc'
  | Wrong e => languages_from_entries d (x :: entries) acc = Ok (RErr e)
  | Crash => False
  end.
Proof.
  intros d x entries acc v V.
  inversion V as [text|n text D|n text p D P|n text set D P|name N]; subst; cbn [languages_from_entries os_error].
  - reflexivity.
  - rewrite <- list_file_eq, (proj2 (nt_from_filename _ n) eq_refl), list_file_eq, D. reflexivity.
  - rewrite <- list_file_eq, (proj2 (nt_from_filename _ n) eq_refl), list_file_eq, D.
    assert (Q : parse_liste (length text) [] 0 text = Ok (RErr (ParseRuleError p))) by (apply C70_language_list; eauto). rewrite Q. reflexivity.
  - rewrite <- list_file_eq, (proj2 (nt_from_filename _ n) eq_refl), list_file_eq, D.
    apply parse_liste_declares in P. rewrite P. cbn [bind]. eexists. reflexivity.
  - destruct (nt_try_from_filename name) as [n|e] eqn:E; [|eexists; reflexivity].
    apply nt_from_filename in E. rewrite list_file_eq in E. now elim (N n).
Qed.
Lemma languages_problem_reported : forall d pre x post acc v, (forall y, In y pre -> entry_verdict d y Fine) -> entry_verdict d x v -> v <> Fine ->
  exists e, v = Wrong e /\ languages_from_entries d (pre ++ x :: post) acc = Ok (RErr e).
Proof.
  intros d. induction pre as [|y pre IH]; intros x post acc v F V N; cbn [app].
  - pose proof (entry_step d x post acc v V) as H. destruct v as [|e|]; [congruence| |contradiction]. now exists e.
  - destruct (entry_step d y (pre ++ x :: post) acc Fine (F y (or_introl eq_refl))) as (acc' & ->).
    apply IH; try assumption. intros z I. apply F. now right.
Qed.
Lemma lists_fine_ok : forall d entries acc, (forall y, In y entries -> entry_verdict d y Fine) ->
  exists L, languages_from_entries d entries acc = Ok (ROk L).
Proof.
  intros d. induction entries as [|x entries IH]; intros acc F; [cbn; now exists acc|].
  destruct (entry_step d x entries acc Fine (F x (or_introl eq_refl))) as (acc' & ->).
  apply IH. intros z I. apply F. now right.
Qed.
Lemma languages_ok_fine : forall d entries acc L, languages_from_entries d entries acc = Ok (ROk L) ->
  forall y, In y entries -> entry_verdict d y Fine.
Proof.
  intros d. induction entries as [|[name|text] entries IH]; intros acc L H y I; [destruct I| |]; cbn [languages_from_entries] in H; [|discriminate].
  destruct (nt_try_from_filename name) as [m|x] eqn:E.
  - apply nt_from_filename in E. subst name. rewrite list_file_eq in *. destruct (dir_file d (list_file m)) as [text|] eqn:D; [|discriminate].
    destruct (parse_liste_total text) as ([set|e'] & P); rewrite P in H; cbn [bind] in H; [|discriminate].
    destruct I as [<-|I]; [|now apply (IH _ _ H)]. apply (ev_fine d m text set D). now apply parse_liste_declares.
  - destruct I as [<-|I]; [|now apply (IH _ _ H)]. apply ev_other. eapply not_a_list. exact E.
Qed.

Section Problem.
Variable u : Unicode.
Variable rx : RegexEngine.
(** What a result says. *)
Definition verdict_of {A} (r : res (result A PhoneticError)) (v : verdict) : Prop :=
  match v with Fine => exists x, r = Ok (ROk x) | Wrong e => r = Ok (RErr e) | Crash => r = Panic end.

(** Language rules. *)
Definition listed (d : directory) (L : Languages) : Prop :=
  forall n, match nt_assoc n L with Some _ => listed_file d (list_file n) | None => ~ listed_file d (list_file n) end.
Definition lang_step (d : directory) (L : Languages) (n : NameType) : res (result Lang PhoneticError) :=
  ls <- unwrap (nt_assoc n L) ;;
  match dir_file d (lang_file n) with
  | RErr text => Ok (RErr (BMErr (ParseConfiguration text)))
  | ROk content => parse_lang rx (dir_path d (lang_file n)) ls (length content) [] 0 content
  end.
Lemma lang_step_verdict : forall d L n, listed d L -> exists v, lang_verdict rx d n v /\ verdict_of (lang_step d L n) v.
Proof.
  intros d L n H. specialize (H n). unfold lang_step. destruct (nt_assoc n L) as [ls|]; cbn [unwrap bind].
  - destruct (dir_file d (lang_file n)) as [text|text] eqn:E.
    + destruct (lang_reading_exists text) as (items & rem & R).
      destruct (parse_lang_spec rx _ _ _ R (dir_path d (lang_file n)) ls (length text) [] 0 (le_n _)) as (o & O & ->).
      destruct o as [l|e].
      * exists Fine. split; [|eexists; reflexivity]. eapply gv_fine; [assumption|exact E|]. exists items, rem. split; [exact R|exact O].
      * exists (Wrong e). split; [|reflexivity]. eapply gv_outcome; eassumption.
    + eexists. split; [eapply gv_missing; eassumption|reflexivity].
  - exists Crash. split; [now constructor|reflexivity].
Qed.
Lemma verdict_of_unique : forall A (r : res (result A PhoneticError)) v v', verdict_of r v -> verdict_of r v' -> v = v'.
Proof.
  intros A r [|e|] [|e'|]; cbn; intros H K; try reflexivity; try (destruct H as (x & H)); try (destruct K as (y & K)); try congruence.
Qed.
Lemma lang_step_iff : forall d L n v, listed d L -> lang_verdict rx d n v -> verdict_of (lang_step d L n) v.
Proof.
  intros d L n v H V. specialize (H n). unfold lang_step.
  inversion V as [N|text I E|text items rem e I E R O|text rules I E (items & rem & R & O)]; subst; destruct (nt_assoc n L) as [ls|]; try contradiction; cbn [unwrap bind].
  - reflexivity.
  - rewrite E. reflexivity.
  - rewrite E. destruct (parse_lang_spec rx _ _ _ R (dir_path d (lang_file n)) ls (length text) [] 0 (le_n _)) as (o & O' & ->).
    rewrite (lang_outcome_unique rx _ _ _ _ _ O' _ O). reflexivity.
  - rewrite E. destruct (parse_lang_spec rx _ _ _ R (dir_path d (lang_file n)) ls (length text) [] 0 (le_n _)) as (o & O' & ->).
    rewrite (lang_outcome_unique rx _ _ _ _ _ O' _ O). eexists. reflexivity.
Qed.
Lemma build_langs_step : forall d L n nts acc, build_langs_for rx d L (n :: nts) acc =
  p <- lang_step d L n ;; match p with RErr e => Ok (RErr e) | ROk l => build_langs_for rx d L nts (nt_insert n l acc) end.
Proof.
  intros. cbn [build_langs_for]. unfold lang_step. rewrite lang_file_eq. destruct (nt_assoc n L); cbn [unwrap bind]; [|reflexivity].
  destruct (dir_file d (lang_file n)); reflexivity.
Qed.
Lemma build_langs_problem : forall d L nts acc, listed d L ->
  (exists G, build_langs_for rx d L nts acc = Ok (ROk G)) /\ (forall n, In n nts -> lang_verdict rx d n Fine)
  \/ exists pre n post v, nts = pre ++ n :: post /\ (forall m, In m pre -> lang_verdict rx d m Fine) /\ lang_verdict rx d n v /\ v <> Fine
       /\ verdict_of (build_langs_for rx d L nts acc) v.
Proof.
  intros d L. induction nts as [|n nts IH]; intros acc H.
  - left. split; [now exists acc|intros n []].
  - rewrite build_langs_step. destruct (lang_step_verdict d L n H) as ([|e|] & V & R); cbn [verdict_of] in R.
    + destruct R as (l & ->). cbn [bind]. destruct (IH (nt_insert n l acc) H) as [[G F]|(pre & m & post & v & -> & F & W & N & R)].
      * left. split; [assumption|]. intros k [<-|K]; auto.
      * right. exists (n :: pre), m, post, v. split; [reflexivity|]. split; [intros k [<-|K]; auto|auto].
    + right. exists [], n, nts, (Wrong e). split; [reflexivity|]. split; [intros m []|]. split; [assumption|]. split; [discriminate|]. now rewrite R.
    + right. exists [], n, nts, Crash. split; [reflexivity|]. split; [intros m []|]. split; [assumption|]. split; [discriminate|]. now rewrite R.
Qed.
Lemma build_langs_reported : forall d L pre n post acc v, listed d L ->
  (forall m, In m pre -> lang_verdict rx d m Fine) -> lang_verdict rx d n v -> v <> Fine ->
  verdict_of (build_langs_for rx d L (pre ++ n :: post) acc) v.
Proof.
  intros d L. induction pre as [|k pre IH]; intros n post acc v H F V N; cbn [app]; rewrite build_langs_step.
  - apply (lang_step_iff d L n v H) in V. destruct v as [|e|]; [congruence| |]; cbn in V; rewrite V; reflexivity.
  - pose proof (lang_step_iff d L k Fine H (F k (or_introl eq_refl))) as (l & ->). cbn [bind]. apply IH; try assumption.
    intros m M. apply F. now right.
Qed.
Lemma build_langs_fine : forall d L nts acc, listed d L -> (forall m, In m nts -> lang_verdict rx d m Fine) ->
  exists G, build_langs_for rx d L nts acc = Ok (ROk G).
Proof.
  intros d L. induction nts as [|k nts IH]; intros acc H F; [now exists acc|]. rewrite build_langs_step.
  pose proof (lang_step_iff d L k Fine H (F k (or_introl eq_refl))) as (l & ->). cbn [bind]. apply IH; try assumption.
  intros m M. apply F. now right.
Qed.

(** Phonetic rules. *)
Definition key_file (k : RuleKey) : ustr := match k with (n, t, l) => rule_filename n t l end.
Lemma load_files_app : forall rs depth a b acc, load_files u rx rs depth (a ++ b) acc =
  p <- load_files u rx rs depth a acc ;; match p with RErr e => Ok (RErr e) | ROk acc => load_files u rx rs depth b acc end.
Proof.
  intros rs depth. induction a as [|[[n t] l] a IH]; intros b acc; cbn [app load_files]; [reflexivity|].
  destruct (parse_rule _ _ _ _ _) as [[m|e]| |]; cbn [bind]; auto.
Qed.
Lemma build_rules_load : forall rs depth (L : Languages) f nts acc, (forall n, In n nts -> nt_assoc n L = Some (f n)) ->
  build_rules_for u rx rs depth L nts acc = load_files u rx rs depth (flat_map (fun n => files_for n (f n)) nts) acc.
Proof.
  intros rs depth L f. induction nts as [|n nts IH]; intros acc H; cbn [flat_map build_rules_for]; [reflexivity|].
  rewrite (H n (or_introl eq_refl)), load_files_app. destruct (load_files _ _ _ _ _ acc) as [[acc'|e]| |]; cbn [bind]; try reflexivity.
  apply IH. intros m M. apply H. now right.
Qed.
Lemma load_files_problem : forall d depth keys acc, load_files u rx (dir_resolver d) depth keys acc <> NoFuel ->
  (exists R, load_files u rx (dir_resolver d) depth keys acc = Ok (ROk R)) \/
  exists pre f post v, map key_file keys = pre ++ f :: post /\ (forall g, In g pre -> rule_verdict u rx d g Fine) /\ rule_verdict u rx d f v
    /\ v <> Fine /\ verdict_of (load_files u rx (dir_resolver d) depth keys acc) v.
Proof.
  intros d depth. induction keys as [|[[n t] l] keys IH]; intros acc NF; cbn [load_files] in *; [left; now exists acc|].
  destruct (parse_rule_sound u rx (dir_resolver d) depth (rule_filename n t l)) as (o & O & Z); [intros K; now rewrite K in NF|].
  destruct o as [tb|e|]; cbn in Z.
  - destruct Z as (m & Z & _). rewrite Z in *. cbn [bind] in *. destruct (IH _ NF) as [[R K]|(pre & f & post & v & E & F & V & N & Q)]; [left; now exists R|].
    right. exists (rule_filename n t l :: pre), f, post, v. cbn [map key_file app]. rewrite E. split; [reflexivity|].
    split; [intros g [<-|G]; [now apply (rv_fine _ _ _ _ tb)|auto]|auto].
  - rewrite Z. right. exists [], (rule_filename n t l), (map key_file keys), (Wrong e). split; [reflexivity|]. split; [intros g []|].
    split; [now constructor|]. split; [discriminate|reflexivity].
  - rewrite Z. right. exists [], (rule_filename n t l), (map key_file keys), Crash. split; [reflexivity|]. split; [intros g []|].
    split; [now constructor|]. split; [discriminate|reflexivity].
Qed.
Lemma load_files_reported : forall d keys pre f post v, map key_file keys = pre ++ f :: post ->
  (forall g, In g pre -> rule_verdict u rx d g Fine) -> rule_verdict u rx d f v -> v <> Fine ->
  exists d0, forall depth acc, (d0 <= depth)%nat -> verdict_of (load_files u rx (dir_resolver d) depth keys acc) v.
Proof.
  intros d. induction keys as [|[[n t] l] keys IH]; intros pre f post v E F V N; [destruct pre; discriminate|].
  destruct pre as [|g pre]; injection E as E1 E2.
  - cbn [key_file] in E1. subst f. inversion V as [tb O|e O|O]; subst; [congruence| |];
      change (rule_source d) with (dir_resolver d) in O; apply C54_complete in O as (d0 & O); exists d0; intros depth acc D; cbn [load_files]; specialize (O depth D); cbn in O; rewrite O; reflexivity.
  - cbn [key_file] in E1. subst g. destruct (IH _ _ _ _ E2 (fun g G => F g (or_intror G)) V N) as (d1 & K).
    pose proof (F _ (or_introl eq_refl)) as W. inversion W as [tb O|e O|O]; subst. change (rule_source d) with (dir_resolver d) in O. apply C54_complete in O as (d2 & O).
    exists (Nat.max d1 d2). intros depth acc D. cbn [load_files]. destruct (O depth) as (m & -> & _); [lia|]. cbn [bind]. apply K. lia.
Qed.
Lemma keys_files : forall f, map key_file (flat_map (fun n => files_for n (f n)) all_name_types) =
  rule_files Ashkenazi (f Ashkenazi) ++ rule_files Generic (f Generic) ++ rule_files Sephardic (f Sephardic).
Proof.
  intros f. unfold all_name_types. cbn [flat_map]. rewrite app_nil_r, !map_app. unfold key_file. now rewrite !rule_files_eq.
Qed.

Lemma listed_ok : forall d entries L, dir_listing d = ROk entries -> languages_from_entries d entries [] = Ok (ROk L) -> listed d L.
Proof.
  intros d entries L EN H n. unfold listed_file. rewrite EN.
  destruct (proj2 (languages_from_entries_ok d entries [] L H) n) as [(I & text & set & A & B & C)|[A C]]; rewrite C, <- list_file_eq.
  - now exists entries.
  - cbn [nt_assoc]. intros (x & E & I). injection E as <-. contradiction.
Qed.

(** [ConfigFiles::new] reports the first problem. *)
Theorem C71_reports_the_first_problem : forall d depth, config_new u rx d depth <> NoFuel ->
  (exists c, config_new u rx d depth = Ok (ROk c)) \/
  (exists e, config_new u rx d depth = Ok (RErr e) /\ config_problem u rx d (Wrong e)) \/
  (config_new u rx d depth = Panic /\ config_problem u rx d Crash).
Proof.
  intros d depth NF.
  assert (G : forall v, verdict_of (config_new u rx d depth) v -> config_problem u rx d v -> v <> Fine ->
    (exists e, config_new u rx d depth = Ok (RErr e) /\ config_problem u rx d (Wrong e)) \/
    (config_new u rx d depth = Panic /\ config_problem u rx d Crash)).
  { intros [|e|] V P N; [congruence|left; now exists e|right; now split]. }
  unfold config_new, languages_try_from in *. destruct (dir_listing d) as [entries|text] eqn:EN.
  2:{ right. apply (G (os_error text)); [reflexivity|now constructor|discriminate]. }
  destruct (languages_from_entries_outcome d entries []) as ([L|e] & EL).
  2:{ right. apply (G (Wrong e)); [now rewrite EL| |discriminate].
      destruct (languages_problem _ _ _ _ EL) as (pre & x & post & -> & F & W). now apply (cp_entry u rx d pre x post). }
  rewrite EL in *. cbn [bind] in *.
  pose proof (listed_ok d entries L EN EL) as LI. pose proof (languages_ok_fine _ _ _ _ EL) as LF.
  unfold build_langs in *. destruct (build_langs_problem d L all_name_types [] LI) as [((GG & EG) & FG)|(pre & n & post & v & E & F & W & N & R)].
  2:{ right. apply (G v); [|now apply (cp_lang u rx d entries pre n post)|assumption]. destruct v; [congruence|cbn in *; now rewrite R..]. }
  rewrite EG in *. cbn [bind] in *.
  assert (A : forall n, exists text set, dir_file d (list_file n) = ROk text /\ declares text set /\ nt_assoc n L = Some set).
  { intros n. pose proof (FG n (all_name_types_In n)) as V. assert (I : listed_file d (list_file n)) by (inversion V; assumption).
    destruct I as (x & E & I). rewrite EN in E. injection E as <-.
    destruct (proj2 (languages_from_entries_ok d entries [] L EL) n) as [(_ & text & set & A & B & C)|[K _]]; rewrite list_file_eq in *; [now exists text, set|contradiction]. }
  set (f := fun n => match nt_assoc n L with Some s => s | None => [] end).
  assert (AF : forall n, nt_assoc n L = Some (f n)) by (intros n; unfold f; destruct (A n) as (text & set & _ & _ & ->); reflexivity).
  assert (DF : forall n, exists text, dir_file d (list_file n) = ROk text /\ declares text (f n))
    by (intros n; destruct (A n) as (text & set & X & Y & Z); exists text; rewrite AF in Z; injection Z as ->; now split).
  unfold build_rules in *. rewrite (build_rules_load _ _ L f) in * by auto.
  destruct (load_files_problem d depth (flat_map (fun n => files_for n (f n)) all_name_types) []) as [(R & ER)|(pre & g & post & v & E & F & V & N & Q)].
  - intros K. now rewrite K in NF.
  - left. rewrite ER. eexists. reflexivity.
  - right. apply (G v); [destruct v; [congruence|cbn in *; now rewrite Q..]| |assumption].
    rewrite keys_files in E. apply (cp_rule u rx d entries f pre g post); auto. intros n. apply FG, all_name_types_In.
Qed.
Theorem C71_every_problem_is_reported : forall d v, config_problem u rx d v ->
  exists d0, forall depth, (d0 <= depth)%nat ->
  match v with Fine => False | Wrong e => config_new u rx d depth = Ok (RErr e) | Crash => config_new u rx d depth = Panic end.
Proof.
  intros d v P.
  assert (G : forall depth, v <> Fine -> verdict_of (config_new u rx d depth) v ->
    match v with Fine => False | Wrong e => config_new u rx d depth = Ok (RErr e) | Crash => config_new u rx d depth = Panic end)
    by (intros depth N V; destruct v; [congruence|exact V|exact V]).
  inversion P as [text EN E|pre x post w EN F V N E|entries pre n post w EN LF E F V N|entries languages pre f post w EN LF DF FG E F V N]; [|subst w..].
  - exists 0%nat. intros depth _. subst v. cbn [os_error]. unfold config_new, languages_try_from. rewrite EN. reflexivity.
  - destruct (languages_problem_reported d pre x post [] v F V N) as (e & -> & R). exists 0%nat. intros depth _. apply G; [assumption|].
    unfold config_new, languages_try_from. rewrite EN, R. reflexivity.
  - destruct (lists_fine_ok d entries [] LF) as (L & EL). exists 0%nat. intros depth _. apply G; [assumption|].
    unfold config_new, languages_try_from, build_langs. rewrite EN, EL. cbn [bind].
    pose proof (build_langs_reported d L pre n post [] v (listed_ok d entries L EN EL) F V N) as R. change all_name_types with [Ashkenazi; Generic; Sephardic].
    rewrite E. destruct v; [congruence|cbn in *; now rewrite R..].
  - destruct (lists_fine_ok d entries [] LF) as (L & EL). pose proof (listed_ok d entries L EN EL) as LI.
    destruct (build_langs_fine d L all_name_types [] LI) as (GG & EG); [auto|].
    assert (AF : forall n, nt_assoc n L = Some (languages n)).
    { intros n. destruct (DF n) as (text & A & B). destruct (proj2 (languages_from_entries_ok d entries [] L EL) n) as [(_ & text' & set & A' & B' & C)|[K _]]; rewrite list_file_eq in *.
      - rewrite A in A'. injection A' as <-. rewrite C. f_equal. apply parse_liste_declares in B. apply parse_liste_declares in B'. congruence.
      - pose proof (FG n) as W. assert (I : listed_file d (list_file n)) by (inversion W; assumption).
        destruct I as (x & E' & I). rewrite EN in E'. injection E' as <-. contradiction. }
    destruct (load_files_reported d (flat_map (fun n => files_for n (languages n)) all_name_types) pre f post v) as (d0 & R); [now rewrite keys_files|assumption..|].
    exists d0. intros depth D. apply G; [assumption|]. specialize (R depth [] D).
    unfold config_new, languages_try_from, build_langs, build_rules. rewrite EN, EL. cbn [bind]. rewrite EG. cbn [bind].
    rewrite (build_rules_load _ _ L languages) by auto. destruct v; [congruence|cbn in *; now rewrite R..].
Qed.
(** There is one first problem at most, and none if the directory is accepted. *)
Theorem C71_one_problem : forall d v v', config_problem u rx d v -> config_problem u rx d v' -> v = v'.
Proof.
  intros d v v' P P'. apply (C71_every_problem_is_reported d) in P as (d1 & P). apply (C71_every_problem_is_reported d) in P' as (d2 & P').
  specialize (P (Nat.max d1 d2) (Nat.le_max_l _ _)). specialize (P' (Nat.max d1 d2) (Nat.le_max_r _ _)). destruct v, v'; try contradiction; congruence.
Qed.
Theorem C71_none_if_accepted : forall d depth c v, config_new u rx d depth = Ok (ROk c) -> ~ config_problem u rx d v.
Proof.
  intros d depth c v A P. pose proof (C51_accepted_only u rx d depth c A) as CD. destruct (C51_accepted u rx d CD) as (d1 & A').
  apply (C71_every_problem_is_reported d) in P as (d2 & P).
  destruct (A' (Nat.max d1 d2) (Nat.le_max_l _ _)) as (c' & A2). specialize (P (Nat.max d1 d2) (Nat.le_max_r _ _)). destruct v; [contradiction|congruence|congruence].
Qed.
(** A directory that cannot be listed is reported with the text of the operating system, at once. *)
Theorem C71_unreadable_directory : forall d depth text, dir_listing d = RErr text ->
  config_new u rx d depth = Ok (RErr (BMErr (ParseConfiguration text))).
Proof. intros d depth text E. unfold config_new, languages_try_from. rewrite E. reflexivity. Qed.
End Problem.

(** ** Examples *)
Definition lines (l : list ustr) : ustr := flat_map (fun x => x ++ [10]) l.
Example C70_nonvacuous_lists : list_error (lines [$ "any"; $ "/* two"; $ "lines */"; $ "french"; $ "9"; $ "x"])
  {| pe_line_number := 5; pe_filename := None; pe_line_content := $ "9"; pe_description := $ "Can't parse line for languages" |}.
Proof.
  destruct (proj1 (C70_language_list (lines [$ "any"; $ "/* two"; $ "lines */"; $ "french"; $ "9"; $ "x"]) _)
    ltac:(vm_compute; reflexivity)) as (p & E & P). injection E as <-. exact P.
Qed.
(** The invalid expression is on the first line, the second one is quoted. *)
Example C70_nonvacuous_lang :
  parse_lang mini_engine (Some $ "f") [] 100 [] 0 (lines [$ "( english true"; $ "b french true"])
  = Ok (RErr (ParseRuleError {| pe_line_number := 1; pe_filename := Some $ "f"; pe_line_content := $ "b french true";
        pe_description := rx_error mini_engine $ "(" |})).
Proof. vm_compute. reflexivity. Qed.
(** A bad line of an included file is reported where the file is included. *)
Definition broken : Resolver :=
  files [($ "x", dq $ "'a' '' '' 'one'" ++ lines [$ "/* c"; $ "*/"; $ "#include y"; $ "// next"]);
         ($ "y", dq $ "'b' '' '' 'b'" ++ dq $ "'c' '' '' '(c'")].
Example C70_nonvacuous_rules :
  parse_rule real_unicode mini_engine broken 3 $ "x"
  = Ok (RErr (ParseRuleError {| pe_line_number := 4; pe_filename := Some $ "x"; pe_line_content := $ "// next";
        pe_description := bm_error_text (WrongPhoneme $ "Wrong phoneme rule (c") |}))
  /\ parse_rule real_unicode mini_engine broken 3 $ "y" = Ok (RErr (BMErr (WrongPhoneme $ "Wrong phoneme rule (c"))).
Proof. split; vm_compute; reflexivity. Qed.
Definition damaged (name text : ustr) : directory :=
  folder_of (map (fun x => if seq_eqb (fst x) name then (name, Some text) else x) demo_dir).
Example C71_nonvacuous :
  config_problem real_unicode mini_engine (damaged $ "gen_exact_common.txt" (lines [[]; $ "?"]))
    (Wrong (ParseRuleError {| pe_line_number := 2; pe_filename := Some $ "gen_exact_common"; pe_line_content := $ "?";
            pe_description := $ "Can't parse line" |})).
Proof.
  destruct (C71_reports_the_first_problem real_unicode mini_engine (damaged $ "gen_exact_common.txt" (lines [[]; $ "?"])) 3)
    as [(c & K)|[(e & E & P)|(K & _)]].
  - vm_compute. discriminate.
  - exfalso. vm_compute in K. discriminate.
  - vm_compute in E. apply Ok_inj in E. injection E as <-. exact P.
  - exfalso. vm_compute in K. discriminate.
Qed.
(** The same directory without its lists, without a rule file, and a directory that cannot be listed. *)
Definition without (name : ustr) : directory := folder_of (filter (fun x => negb (seq_eqb (fst x) name)) demo_dir).
Example C71_missing_nonvacuous :
  config_new real_unicode mini_engine (without $ "sep_lang.txt") 3
    = Ok (RErr (BMErr (ParseConfiguration $ "No such file or directory (os error 2)")))
  /\ config_new real_unicode mini_engine (without $ "sep_rules_any.txt") 3
    = Ok (RErr (BMErr (WrongFilename $ "Can't find file for sep_rules_any rules")))
  /\ config_new real_unicode mini_engine (without $ "sep_languages.txt") 3 = Panic
  /\ config_new real_unicode mini_engine
       {| dir_listing := RErr $ "Permission denied (os error 13)"; dir_file := dir_file (folder_of demo_dir); dir_path := fun n => Some n |} 3
    = Ok (RErr (BMErr (ParseConfiguration $ "Permission denied (os error 13)"))).
Proof. repeat split; vm_compute; reflexivity. Qed.
