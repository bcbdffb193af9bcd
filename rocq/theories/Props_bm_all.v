(** * Beider-Morse from the files to the code: C72. *)
From Verif Require Import Base UnicodeM Lib RulesParser DaitchMokotoff BmLanguages BmRegex BmRule BmEngine BmEmbedded BmDefault MiniRegex UnicodeReal BaseLemmas
  Dm_proofs Spec_bm Spec_bm_engine Bm_engine_proofs Bm_recursion_proofs Spec_bm_file Bm_config_proofs Spec_bm_name Bm_name_proofs Props_bm_engine Props_bm_config
  Spec_bm_all Bm_all_proofs.
Local Open Scope N_scope.

(** ** The builder *)
(** Calls on a builder, in order. *)
Inductive builder_call := CallName (n : NameType) | CallRule (t : RuleType) | CallConcat (b : bool) | CallMax (k : nat).
Definition call (b : BeiderMorseBuilder) (x : builder_call) : BeiderMorseBuilder :=
  match x with
  | CallName n => builder_name_type b n
  | CallRule t => builder_rule_type b t
  | CallConcat y => builder_concat b y
  | CallMax k => builder_max_phonemes b k
  end.
(** The last value of the calls of one kind, or the default. *)
Definition last_of {A} (kind : builder_call -> option A) (calls : list builder_call) (default x : A) : Prop :=
  (x = default /\ forall y, In y calls -> kind y = None)
  \/ exists pre y post, calls = pre ++ y :: post /\ kind y = Some x /\ forall z, In z post -> kind z = None.
Definition settings_after (calls : list builder_call) (s : settings) : Prop :=
  last_of (fun x => match x with CallName n => Some n | _ => None end) calls Generic (s_name_type s)
  /\ last_of (fun x => match x with CallRule t => Some t | _ => None end) calls RtApprox (s_rule_type s)
  /\ last_of (fun x => match x with CallConcat b => Some b | _ => None end) calls true (s_concat s)
  /\ last_of (fun x => match x with CallMax k => Some k | _ => None end) calls 20%nat (s_max_phonemes s).

Lemma last_of_snoc : forall A (kind : builder_call -> option A) calls y default x,
  last_of kind (calls ++ [y]) default x <->
  match kind y with Some z => x = z | None => last_of kind calls default x end.
Proof.
  intros A kind calls y default x. unfold last_of. split.
  - intros [[-> H]|(pre & z & post & E & K & H)].
    + destruct (kind y) eqn:Y; [rewrite (H y) in Y; [discriminate|apply in_or_app; right; now left]|]. left. split; [reflexivity|].
      intros z I. apply H. apply in_or_app. now left.
    + destruct post as [|w post _] using rev_ind.
      * apply app_inj_tail in E as [-> ->]. now rewrite K.
      * rewrite app_comm_cons, app_assoc in E. apply app_inj_tail in E as [-> ->].
        rewrite (H w) by (apply in_or_app; right; now left). right. exists pre, z, post. split; [reflexivity|]. split; [assumption|].
        intros q I. apply H. apply in_or_app. now left.
  - destruct (kind y) as [z|] eqn:Y.
    + intros ->. right. exists calls, y, []. split; [reflexivity|]. split; [assumption|intros q []].
    + intros [[-> H]|(pre & z & post & -> & K & H)].
      * left. split; [reflexivity|]. intros z I. apply in_app_or in I as [I|[<-|[]]]; [now apply H|assumption].
      * right. exists pre, z, (post ++ [y]). rewrite <- app_assoc. split; [reflexivity|]. split; [assumption|].
        intros q I. apply in_app_or in I as [I|[<-|[]]]; [now apply H|assumption].
Qed.
Lemma last_of_fun : forall A (kind : builder_call -> option A) calls default x y,
  last_of kind calls default x -> last_of kind calls default y -> x = y.
Proof.
  intros A kind calls default x y. induction calls as [|z calls IH] using rev_ind.
  - intros [[-> _]|(pre & q & post & E & _)]; [|destruct pre; discriminate].
    intros [[-> _]|(pre & q & post & E & _)]; [reflexivity|destruct pre; discriminate].
  - rewrite !last_of_snoc. destruct (kind z); [congruence|exact IH].
Qed.
(** The last call of each kind decides; the others are at their defaults. *)
Theorem C72_builder : forall c calls s, settings_after calls s -> fold_left call calls (builder_new c) = told c s.
Proof.
  intros c calls. induction calls as [|x calls IH] using rev_ind; intros s (H1 & H2 & H3 & H4).
  - assert (D : forall A (kind : builder_call -> option A) a b, last_of kind [] a b -> b = a).
    { intros A kind a b [[E _]|(pre & q & post & E & _)]; [exact E|destruct pre; discriminate]. }
    apply D in H1. apply D in H2. apply D in H3. apply D in H4. unfold told. rewrite H1, H2, H3, H4. reflexivity.
  - rewrite fold_left_app. cbn [fold_left].
    assert (T : exists s', fold_left call calls (builder_new c) = told c s' /\
      last_of (fun x => match x with CallName n => Some n | _ => None end) calls Generic (s_name_type s')
      /\ last_of (fun x => match x with CallRule t => Some t | _ => None end) calls RtApprox (s_rule_type s')
      /\ last_of (fun x => match x with CallConcat b => Some b | _ => None end) calls true (s_concat s')
      /\ last_of (fun x => match x with CallMax k => Some k | _ => None end) calls 20%nat (s_max_phonemes s')).
    { assert (EX : forall A (kind : builder_call -> option A) a, exists v, last_of kind calls a v).
      { intros A kind a. clear. induction calls as [|z calls IH] using rev_ind.
        - exists a. left. split; [reflexivity|intros y []].
        - destruct IH as (v & IH). destruct (kind z) as [w|] eqn:E; [exists w|exists v]; apply last_of_snoc; now rewrite E. }
      destruct (EX _ (fun x => match x with CallName n => Some n | _ => None end) Generic) as (v1 & V1).
      destruct (EX _ (fun x => match x with CallRule t => Some t | _ => None end) RtApprox) as (v2 & V2).
      destruct (EX _ (fun x => match x with CallConcat b => Some b | _ => None end) true) as (v3 & V3).
      destruct (EX _ (fun x => match x with CallMax k => Some k | _ => None end) 20%nat) as (v4 & V4).
      exists {| s_name_type := v1; s_rule_type := v2; s_concat := v3; s_max_phonemes := v4 |}.
      cbn [s_name_type s_rule_type s_concat s_max_phonemes]. split; [|now repeat split]. apply IH. now repeat split. }
    destruct T as (s' & -> & V1 & V2 & V3 & V4). rewrite last_of_snoc in H1, H2, H3, H4. unfold told, call.
    destruct x; cbn [ builder_name_type builder_rule_type builder_concat builder_max_phonemes bb_config bb_name_type bb_rule_type bb_concat bb_max_phonemes] in *;
      repeat match goal with
      | A : last_of ?k calls ?d ?x, B : last_of ?k calls ?d ?y |- _ => pose proof (last_of_fun _ _ _ _ _ _ A B); clear A
      end; unfold builder_name_type, builder_rule_type, builder_concat, builder_max_phonemes; cbn [bb_config bb_name_type bb_rule_type bb_concat bb_max_phonemes]; congruence.
Qed.
Theorem C72_defaults : forall c, builder_new c = told c default_settings.
Proof. reflexivity. Qed.

(** ** The code *)
Fixpoint names_nodup (l : list ustr) : bool :=
  match l with [] => true | x :: r => negb (existsb (seq_eqb x) r) && names_nodup r end.
Lemma nodup_names : forall l, names_nodup l = true -> NoDup l.
Proof.
  induction l as [|x l IH]; [constructor|]. cbn [names_nodup]. intros H.
  apply andb_true_iff in H as [H1 H2]. constructor; [|now apply IH]. intros I.
  apply negb_true_iff in H1. assert (E : existsb (seq_eqb x) l = true); [|congruence].
  apply existsb_exists. exists x. split; [assumption|apply seq_eqb_refl].
Qed.
Section All.
Variable u : Unicode.
Variable rx : RegexEngine.
Hypothesis L : LowerOK u.

Lemma built_tables_ok : forall d depth c s e, config_new u rx d depth = Ok (ROk c) ->
  builder_build (told c s) = Ok e -> tables_ok e.
Proof.
  intros d depth c s e C E. destruct (C51_builds u rx d depth (told c s) C) as (e' & E' & T). rewrite E in E'. apply Ok_inj in E'. now subst e'.
Qed.
(** The encoder built from the files of a directory returns exactly the code the
    files, the settings and the languages give. *)
Theorem C72_code : forall d depth c s e, config_new u rx d depth = Ok (ROk c) ->
  builder_build (told c s) = Ok e -> forall v languages code,
  bm_encode_with_languages u rx e v languages = Ok code <-> value_code u rx (directory_sources rx d) s languages v code.
Proof.
  intros d depth c s e C E v languages code. destruct (directory_engine u rx d depth c s e C E) as [_ H]. rewrite <- H.
  apply C48_code; [assumption|]. eapply built_tables_ok; eassumption.
Qed.
(** Without given languages, the languages are guessed. *)
Theorem C72_guessed_code : forall d depth c s e, config_new u rx d depth = Ok (ROk c) ->
  builder_build (told c s) = Ok e -> forall v code,
  bm_encode u rx e v = Ok code <-> exists languages, guessed u rx (directory_sources rx d) (s_name_type s) v languages
    /\ value_code u rx (directory_sources rx d) s languages v code.
Proof.
  intros d depth c s e C E v code. destruct (directory_engine u rx d depth c s e C E) as [G H]. unfold bm_encode. split.
  - intros K. exists (guess_languages u rx (pe_lang e) v). split; [now apply G|]. eapply C72_code; eassumption.
  - intros (languages & K1 & K2). apply G in K1. subst languages. eapply C72_code; eassumption.
Qed.
(** It is a function of the files, the settings and the value. *)
Theorem C72_unique : forall d depth c s, config_new u rx d depth = Ok (ROk c) ->
  forall v languages a b, value_code u rx (directory_sources rx d) s languages v a -> value_code u rx (directory_sources rx d) s languages v b -> a = b.
Proof.
  intros d depth c s C v languages a b A B. destruct (C51_builds u rx d depth (told c s) C) as (e & E & _).
  apply (C72_code d depth c s e C E) in A. apply (C72_code d depth c s e C E) in B. rewrite A in B. now apply Ok_inj in B.
Qed.
(** The same with the rules in the crate: no language is guessed, so every rule
    of "any" applies. *)
Lemma default_tables_ok : forall depth c s e, config_default u rx depth = Ok c -> builder_build (told c s) = Ok e -> tables_ok e.
Proof.
  intros depth c s e C E. unfold config_default, rules_default in C.
  destruct (build_rules u rx embedded_resolver depth languages_default) as [[R|x]| |] eqn:ER; try discriminate. cbn [bind] in C. apply Ok_inj in C. subst c.
  unfold builder_build, told in E. cbn [bb_name_type bb_config bb_rule_type bb_concat bb_max_phonemes cf_langs cf_rules] in E.
  destruct (nt_assoc _ _) as [lng|]; [|discriminate]. cbn [unwrap bind] in E. apply Ok_inj in E. subst e.
  intros [[n t] l] m G. cbn [pe_rules] in G.
  destruct (build_rules_ok _ _ _ _ _ _ _ _ all_name_types_NoDup ER n) as [B _].
  destruct (B (all_name_types_In _)) as (set & S & K). destruct (K t l) as [K1 K2].
  assert (D : (In l set \/ (t <> Rules_ /\ l = $ "common")) \/ ~ (In l set \/ (t <> Rules_ /\ l = $ "common"))).
  { destruct (in_dec (list_eq_dec N.eq_dec) l set) as [I|I]; [now left; left|].
    destruct (rt_eqb t Rules_) eqn:T.
    - apply rt_eqb_eq in T. right. intros [X|[X _]]; [contradiction|now apply X].
    - assert (T' : t <> Rules_) by (intros X; apply rt_eqb_eq in X; congruence).
      destruct (list_eq_dec N.eq_dec l $ "common") as [X|X]; [left; right; now split|right]. intros [Y|[_ Y]]; contradiction. }
  destruct D as [D|D]; [|rewrite (K2 D) in G; discriminate]. destruct (K1 D) as (m' & A & B'). rewrite G in A. injection A as <-.
  eapply parse_rule_table_ok; eassumption.
Qed.
(** The sources of the default configuration are the files shipped with the library, by name. *)
Theorem C72_embedded_files : forall name,
  (forall text, rs_lookup (src_files embedded_sources) name = Some text <-> In (name ++ $ ".txt", Some text) bm_embedded_files)
  /\ rs_not_found (src_files embedded_sources) name = $ "Missing embedded rule " ++ name.
Proof.
  intros name. split; [|reflexivity]. intros text. cbn [src_files embedded_sources rs_lookup embedded_resolver].
  assert (ND : NoDup (map fst bm_embedded_files)).
  { apply nodup_names. vm_compute. reflexivity. }
  revert ND. generalize (name ++ $ ".txt") bm_embedded_files. clear. intros n l.
  induction l as [|[m c] l IH]; intros ND; cbn [find_file In].
  - split; [discriminate|tauto].
  - cbn [map fst] in ND. inversion ND as [|x y N1 N2]; subst. destruct (seq_eqb m n) eqn:E.
    + apply seq_eqb_eq in E. subst m. split.
      * intros ->. now left.
      * intros [[= ->]|H]; [reflexivity|]. exfalso. apply N1. now apply (in_map fst) in H.
    + rewrite (IH N2). split; [now right|]. intros [[= -> ->]|H]; [|assumption].
      rewrite seq_eqb_refl in E. discriminate.
Qed.
Theorem C72_default_code : forall depth c s e, config_default u rx depth = Ok c -> builder_build (told c s) = Ok e ->
  forall v languages code, bm_encode_with_languages u rx e v languages = Ok code <-> value_code u rx embedded_sources s languages v code.
Proof.
  intros depth c s e C E v languages code. destruct (embedded_engine u rx depth c s e C E) as [_ H]. rewrite <- H.
  apply C48_code; [assumption|]. eapply default_tables_ok; eassumption.
Qed.
Theorem C72_default_any : forall depth c s e, config_default u rx depth = Ok c -> builder_build (told c s) = Ok e ->
  forall v code, bm_encode u rx e v = Ok code <-> value_code u rx embedded_sources s LAny v code.
Proof.
  intros depth c s e C E v code. destruct (embedded_engine u rx depth c s e C E) as [G _]. rewrite <- (C72_default_code depth c s e C E). unfold bm_encode.
  assert (A : guess_languages u rx (pe_lang e) v = LAny); [|now rewrite A].
  symmetry. apply G. exists []. split; [reflexivity|]. left. split; [reflexivity|]. intros l [].
Qed.
End All.

(** ** Examples *)
(** A directory in which the settings matter: the final rules differ. *)
Definition two_rules : file_list :=
  map (fun f => let '(name, content) := f in
    (name, if seq_eqb name $ "gen_approx_common.txt" then Some (dq $ "'b' '' '' 'P'")
           else if seq_eqb name $ "gen_exact_common.txt" then Some (dq $ "'b' '' '' 'Q'") else content)) demo_dir.
Definition two_settings (t : RuleType) : settings := {| s_name_type := Generic; s_rule_type := t; s_concat := true; s_max_phonemes := 20 |}.
Example C72_nonvacuous :
  exists c e1 e2, config_new real_unicode mini_engine (folder_of two_rules) 3 = Ok (ROk c)
  /\ settings_after [CallRule RtExact; CallMax 3; CallMax 20] (two_settings RtExact)
  /\ builder_build (told c (two_settings RtApprox)) = Ok e1 /\ builder_build (told c (two_settings RtExact)) = Ok e2
  /\ value_code real_unicode mini_engine (directory_sources mini_engine (folder_of two_rules)) (two_settings RtApprox) (SomeLanguages [$ "any"]) $ "ab" $ "xP|yP"
  /\ value_code real_unicode mini_engine (directory_sources mini_engine (folder_of two_rules)) (two_settings RtExact) (SomeLanguages [$ "any"]) $ "ab" $ "xQ|yQ".
Proof.
  destruct (config_new real_unicode mini_engine (folder_of two_rules) 3) as [[c|x]| |] eqn:C; try (exfalso; vm_compute in C; discriminate C).
  destruct (C51_builds real_unicode mini_engine (folder_of two_rules) 3 (told c (two_settings RtApprox)) C) as (e1 & E1 & _).
  destruct (C51_builds real_unicode mini_engine (folder_of two_rules) 3 (told c (two_settings RtExact)) C) as (e2 & E2 & _).
  exists c, e1, e2. split; [reflexivity|]. split.
  { unfold settings_after, two_settings. cbn [s_name_type s_rule_type s_concat s_max_phonemes]. split; [|split; [|split]].
    - left. split; [reflexivity|]. intros y [<-|[<-|[<-|[]]]]; reflexivity.
    - right. exists [], (CallRule RtExact), [CallMax 3; CallMax 20]. split; [reflexivity|]. split; [reflexivity|]. intros y [<-|[<-|[]]]; reflexivity.
    - left. split; [reflexivity|]. intros y [<-|[<-|[<-|[]]]]; reflexivity.
    - right. exists [CallRule RtExact; CallMax 3], (CallMax 20), []. split; [reflexivity|]. split; [reflexivity|]. intros y []. }
  split; [exact E1|]. split; [exact E2|].
  split.
  - apply (C72_code _ _ real_lower_ok (folder_of two_rules) 3 c _ e1 C E1).
    vm_compute in C. apply Ok_inj in C. injection C as <-. vm_compute in E1. apply Ok_inj in E1. subst e1. vm_compute. reflexivity.
  - apply (C72_code _ _ real_lower_ok (folder_of two_rules) 3 c _ e2 C E2).
    vm_compute in C. apply Ok_inj in C. injection C as <-. vm_compute in E2. apply Ok_inj in E2. subst e2. vm_compute. reflexivity.
Qed.
(** The name in the documentation of the crate (src/beider_morse/mod.rs:219), with the rules in the crate. *)
Example C72_default_nonvacuous :
  exists c e, config_default real_unicode mini_engine 3 = Ok c /\ builder_build (told c default_settings) = Ok e
  /\ value_code real_unicode mini_engine embedded_sources default_settings LAny $ "Van Helsing"
       $ "(Ylznk|ilzn|ilznk|xilzn|xilznk)-(banilznk|bonilznk|fYnYlznk|fYnilznk|fanYlznk|fanilznk|fonYlznk|fonilznk|vYnYlznk|vYnilznk|vanYlznk|vaniilznk|vanilzn|vanilznk|vonYlznk|voniilznk|vonilzn|vonilznk)".
Proof.
  destruct (config_default real_unicode mini_engine 3) as [c| |] eqn:C; try (exfalso; vm_compute in C; discriminate C).
  destruct (builder_build (told c default_settings)) as [e| |] eqn:E.
  - exists c, e. split; [reflexivity|]. split; [exact E|]. apply (C72_default_code _ _ real_lower_ok 3 c _ e C E).
    assert (T : match config_default real_unicode mini_engine 3 with Ok c => match builder_build (told c default_settings) with
      Ok e => bm_encode_with_languages real_unicode mini_engine e $ "Van Helsing" LAny | _ => Panic end | _ => Panic end =
      Ok $ "(Ylznk|ilzn|ilznk|xilzn|xilznk)-(banilznk|bonilznk|fYnYlznk|fYnilznk|fanYlznk|fanilznk|fonYlznk|fonilznk|vYnYlznk|vYnilznk|vanYlznk|vaniilznk|vanilzn|vanilznk|vonYlznk|voniilznk|vonilzn|vonilznk)").
    { vm_compute. reflexivity. }
    rewrite C, E in T. exact T.
  - exfalso. assert (T : match config_default real_unicode mini_engine 3 with Ok c => match builder_build (told c default_settings) with
      Ok e => true | _ => false end | _ => false end = true) by (vm_compute; reflexivity). rewrite C, E in T. discriminate.
  - exfalso. assert (T : match config_default real_unicode mini_engine 3 with Ok c => match builder_build (told c default_settings) with
      Ok e => true | _ => false end | _ => false end = true) by (vm_compute; reflexivity). rewrite C, E in T. discriminate.
Qed.
