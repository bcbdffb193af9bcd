(** * Property C78: how the code depends on the regular-expression engine. *)
From Verif Require Import Base BaseLemmas UnicodeM UnicodeReal Lib Helper RulesParser DaitchMokotoff Dm_proofs
  BmLanguages BmRegex BmRule BmEngine BmEmbedded BmDefault MiniRegex Bm_standard_proofs Bm_depth_proofs Props_bm_engine.
Local Open Scope N_scope.

(** ** Specification *)
(** The second engine accepts every pattern the first accepts, and finds it in the same texts. *)
Definition agrees_on_accepted (rx1 rx2 : RegexEngine) : Prop :=
  forall p, rx_valid rx1 p = true ->
    rx_valid rx2 p = true /\ forall s, rx_match rx2 p s = rx_match rx1 p s.

(** The part of the usual syntax on which every engine agrees: literals, [.], groups, alternatives,
    [^], [$], and lists of characters that are not empty and use none of the signs that have a
    meaning inside a list. *)
Fixpoint plain_re (r : re) : Prop :=
  match r with
  | RSet _ l => l <> [] /\ forall c, In c l -> ~ In c $ "-[]^&~\"
  | RCat a b | RAlt a b => plain_re a /\ plain_re b
  | _ => True
  end.
(** An engine that follows the usual meaning of such patterns, when they are not too long. *)
Definition standard (rx : RegexEngine) : Prop :=
  forall p r, (length p <= 200)%nat -> compile_re p = Some r -> plain_re r ->
    rx_valid rx p = true /\ forall s, rx_match rx p s = true <-> re_search r s.

(** ** Loading and encoding *)
Theorem C78_same_tables : forall u rx1 rx2, agrees_on_accepted rx1 rx2 -> forall d depth c,
  config_new u rx1 d depth = Ok (ROk c) -> config_new u rx2 d depth = Ok (ROk c).
Proof. intros u rx1 rx2 E d depth c H. now apply (config_new_ext u rx1 rx2 E). Qed.
Theorem C78_same_codes : forall u rx1 rx2, agrees_on_accepted rx1 rx2 -> forall d depth b e,
  config_new u rx1 d depth = Ok (ROk (bb_config b)) -> builder_build b = Ok e ->
  forall v, guess_languages u rx2 (pe_lang e) v = guess_languages u rx1 (pe_lang e) v
    /\ bm_encode u rx2 e v = bm_encode u rx1 e v
    /\ forall l, bm_encode_with_languages u rx2 e v l = bm_encode_with_languages u rx1 e v l.
Proof. intros u rx1 rx2 E d depth b e H B v. apply (built_ext u rx1 rx2 E b e); [|exact B]. now apply (config_new_ext u rx1 rx2 E d depth). Qed.

(** ** The rules in the crate use only plain patterns *)
Fixpoint plainb (r : re) : bool :=
  match r with
  | RSet _ l => negb (Nat.eqb (length l) 0) && forallb (fun c => negb (isin c $ "-[]^&~\")) l
  | RCat a b | RAlt a b => plainb a && plainb b
  | _ => true
  end.
Lemma plainb_spec : forall r, plainb r = true -> plain_re r.
Proof.
  induction r as [| | |neg l| | |a IHa b IHb|a IHa b IHb]; cbn [plainb plain_re]; intros H; try exact I.
  - apply andb_prop in H as [H1 H2]. split.
    + intros ->. discriminate.
    + intros c I J. rewrite forallb_forall in H2. specialize (H2 c I). apply isin_In in J. rewrite J in H2. discriminate.
  - apply andb_prop in H as [H1 H2]. auto.
  - apply andb_prop in H as [H1 H2]. auto.
Qed.
Definition plain_engine : RegexEngine := {|
  rx_valid := fun p => (Nat.leb (length p) 200) && match compile_re p with Some r => plainb r | None => false end;
  rx_error := fun _ => [];
  rx_match := rx_match mini_engine |}.
Lemma plain_extended : forall rx, standard rx -> agrees_on_accepted plain_engine rx.
Proof.
  intros rx S p V. cbn [plain_engine rx_valid] in V. apply andb_prop in V as [V1 V2]. apply Nat.leb_le in V1.
  destruct (compile_re p) as [r|] eqn:C; [|discriminate]. destruct (S p r V1 C (plainb_spec _ V2)) as [A M]. split; [exact A|].
  intros s. cbn [plain_engine mini_engine rx_match]. rewrite C. apply Bool.eq_true_iff_eq. rewrite M. symmetry. apply re_is_match_spec.
Qed.
Lemma mini_plain : standard mini_engine.
Proof.
  intros p r _ C _. cbn [mini_engine rx_valid rx_match]. rewrite C. split; [reflexivity|]. intros s. apply re_is_match_spec.
Qed.
Lemma plain_default_loads : forall u, exists c, config_default u plain_engine 2 = Ok c.
Proof.
  intros u. assert (T : match config_default u plain_engine 2 with Ok _ => true | _ => false end = true) by (vm_compute; reflexivity).
  destruct (config_default u plain_engine 2) as [c| |]; [now exists c|discriminate|discriminate].
Qed.
(** The default configuration loads with every standard engine, on every Unicode version, and its
    tables are always the same... *)
Theorem C78_default_tables : forall u, exists c, forall rx, standard rx -> forall depth, (2 <= depth)%nat -> config_default u rx depth = Ok c.
Proof.
  intros u. destruct (plain_default_loads u) as [c C]. exists c. intros rx S depth L.
  pose proof (proj1 (config_default_ext u plain_engine rx (plain_extended rx S) 2 c C)) as D.
  rewrite (config_default_deeper u rx 2 depth L), D; [reflexivity|]. rewrite D. discriminate.
Qed.
(** ... and so are the codes. *)
Theorem C78_default_codes : forall u rx1 rx2, standard rx1 -> standard rx2 -> forall depth b e,
  config_default u rx1 depth = Ok (bb_config b) -> builder_build b = Ok e ->
  forall v, bm_encode u rx2 e v = bm_encode u rx1 e v
    /\ forall l, bm_encode_with_languages u rx2 e v l = bm_encode_with_languages u rx1 e v l.
Proof.
  intros u rx1 rx2 S1 S2 depth b e C B v. destruct (plain_default_loads u) as [c P].
  assert (Q : bb_config b = c).
  { pose proof (proj1 (config_default_ext u plain_engine rx1 (plain_extended rx1 S1) 2 c P)) as D.
    assert (D' : config_default u rx1 (Nat.max 2 depth) = Ok c)
      by (rewrite (config_default_deeper u rx1 2); [exact D|apply Nat.le_max_l|rewrite D; discriminate]).
    rewrite (config_default_deeper u rx1 depth), C in D'; [now apply Ok_inj in D'|apply Nat.le_max_r|rewrite C; discriminate]. }
  subst c.
  assert (K : forall rx, standard rx -> forall s, bm_encode u rx e s = bm_encode u plain_engine e s
    /\ forall l, bm_encode_with_languages u rx e s l = bm_encode_with_languages u plain_engine e s l).
  { intros rx S s. pose proof (plain_extended rx S) as X.
    pose proof (proj2 (config_default_ext u plain_engine rx X 2 _ P)) as G.
    destruct (built_ext u plain_engine rx X b e G B s) as (_ & A & A'). split; assumption. }
  destruct (K rx1 S1 v) as [A1 A2]. destruct (K rx2 S2 v) as [B1 B2]. split; [exact (eq_trans B1 (eq_sym A1))|]. intros l. exact (eq_trans (B2 l) (eq_sym (A2 l))).
Qed.
(** The bound on the nesting of included files that the model uses is immaterial: any larger bound
    gives the same configuration or the same error. *)
Theorem C78_nesting_bound : forall u rx d n m, (n <= m)%nat -> config_new u rx d n <> NoFuel -> config_new u rx d m = config_new u rx d n.
Proof. intros u rx d n m. apply config_new_deeper. Qed.

(** ** Examples *)
(** An engine that refuses the pattern of a context that only an engine can check: nothing loads, so
    the engine matters. *)
Definition refusing : RegexEngine := {| rx_valid := fun _ => false; rx_error := fun _ => $ "no"; rx_match := fun _ _ => false |}.
Theorem C78_engine_matters : forall u, config_default u refusing 2 = Panic.
Proof. intros u. vm_compute. reflexivity. Qed.
(** Two engines that differ on the patterns outside the plain part both are standard. *)
Definition other_engine : RegexEngine := {|
  rx_valid := fun _ => true; rx_error := fun _ => [];
  rx_match := fun p s => match compile_re p with Some r => re_is_match r s | None => true end |}.
Example C78_nonvacuous : standard mini_engine /\ standard other_engine /\ agrees_on_accepted mini_engine other_engine
  /\ rx_valid mini_engine $ "a*" = false /\ rx_valid other_engine $ "a*" = true
  /\ exists c, config_new real_unicode mini_engine (folder_of demo_dir) 3 = Ok (ROk c)
       /\ exists e, builder_build (builder_new c) = Ok e /\ bm_encode real_unicode mini_engine e $ "ab" = Ok $ "rb|sb|xb".
Proof.
  assert (S : standard other_engine).
  { intros p r _ C _. cbn [other_engine rx_valid rx_match]. rewrite C. split; [reflexivity|]. intros s. apply re_is_match_spec. }
  split; [exact mini_plain|]. split; [exact S|]. split.
  { intros p V. cbn [mini_engine rx_valid other_engine rx_match] in *. destruct (compile_re p) as [r|]; [|discriminate]. split; reflexivity. }
  split; [vm_compute; reflexivity|]. split; [reflexivity|].
  assert (T : match config_new real_unicode mini_engine (folder_of demo_dir) 3 with
    | Ok (ROk c) => match builder_build (builder_new c) with Ok e => bm_encode real_unicode mini_engine e $ "ab" | _ => Panic end
    | _ => Panic end = Ok $ "rb|sb|xb") by (vm_compute; reflexivity).
  destruct (config_new real_unicode mini_engine (folder_of demo_dir) 3) as [[c|x]| |]; try discriminate T.
  exists c. split; [reflexivity|]. destruct (builder_build (builder_new c)) as [e| |]; try discriminate T. exists e. split; [reflexivity|exact T].
Qed.
