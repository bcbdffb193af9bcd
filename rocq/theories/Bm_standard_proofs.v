(** * Two regular-expression engines that agree give the same tables and the same codes. *)
From Verif Require Import Base BaseLemmas UnicodeM Lib Helper RulesParser DaitchMokotoff Dm_proofs
  BmLanguages BmRegex BmRule BmEngine BmEmbedded BmDefault.
Local Open Scope N_scope.

(** [rx2] accepts every pattern that [rx1] accepts, and finds it in the same texts. *)
Definition extends (rx1 rx2 : RegexEngine) : Prop :=
  forall p, rx_valid rx1 p = true ->
    rx_valid rx2 p = true /\ forall s, rx_match rx2 p s = rx_match rx1 p s.

Section Agree.
Variable u : Unicode.
Variables rx1 rx2 : RegexEngine.
Hypothesis E : extends rx1 rx2.

Definition ctx_good (c : Context) : Prop :=
  match c with CRegex p => rx_valid rx1 p = true | COptimized _ => True end.
Definition rule_good (r : BmRule) : Prop := ctx_good (bm_left r) /\ ctx_good (bm_right r).
Definition map_good (m : RuleMap) : Prop := forall k l r, In (k, l) m -> In r l -> rule_good r.

Lemma ctx_match : forall c s, ctx_good c -> context_is_match rx2 c s = context_is_match rx1 c s.
Proof. intros [p|o] s H; [|reflexivity]. cbn. now apply E. Qed.
Lemma parse_context_ext : forall s c, parse_context rx1 s = ROk c -> parse_context rx2 s = ROk c /\ ctx_good c.
Proof.
  intros s c H. unfold parse_context in *. destruct (optimized_from_str s) as [o|].
  - injection H as <-. split; [reflexivity|exact I].
  - destruct (rx_valid rx1 s) eqn:V; [|discriminate]. injection H as <-. destruct (E _ V) as [V2 _]. rewrite V2. split; [reflexivity|exact V].
Qed.
Lemma make_rule_ext : forall f n q x, make_rule rx1 f n q = Ok (ROk x) -> make_rule rx2 f n q = Ok (ROk x) /\ rule_good (snd x).
Proof.
  intros f n [[[p l] r] ph] x H. unfold make_rule in *.
  destruct (parse_context rx1 (l ++ $ "$")) as [lc|e] eqn:A; [|discriminate]. apply parse_context_ext in A as [A GA]. rewrite A.
  destruct (parse_context rx1 ($ "^" ++ r)) as [rc|e] eqn:B; [|discriminate]. apply parse_context_ext in B as [B GB]. rewrite B.
  destruct (parse_phoneme_expr ph) as [pe|e]; [|discriminate]. destruct (hd_error p) as [ch|]; [|discriminate]. cbn [unwrap bind] in *.
  split; [exact H|]. apply Ok_inj in H. injection H as <-. split; assumption.
Qed.
Lemma rm_push_good : forall k x m, rule_good x -> map_good m -> map_good (rm_push k x m).
Proof.
  intros k x m G. induction m as [|[k' v] m IH]; intros M k0 l r I J.
  - destruct I as [I|[]]. injection I as <- <-. destruct J as [<-|[]]. exact G.
  - cbn [rm_push] in I. destruct (k' =? k).
    + destruct I as [I|I]; [|apply (M k0 l r); [now right|assumption]]. injection I as <- <-. apply in_app_iff in J as [J|[<-|[]]]; [|exact G].
      apply (M k' v r); [now left|assumption].
    + destruct I as [I|I]; [apply (M k0 l r); [now left|assumption]|]. apply (IH (fun a b c P Q => M a b c (or_intror P) Q) k0 l r I J).
Qed.
Lemma assoc_insert_good : forall k v m, (forall r, In r v -> rule_good r) -> map_good m -> map_good (assoc_insert k v m).
Proof.
  intros k v m G. induction m as [|[k' v'] m IH]; intros M k0 l r I J.
  - destruct I as [I|[]]. injection I as <- <-. auto.
  - cbn [assoc_insert] in I. destruct (k' =? k).
    + destruct I as [I|I]; [|apply (M k0 l r); [now right|assumption]]. injection I as <- <-. auto.
    + destruct I as [I|I]; [apply (M k0 l r); [now left|assumption]|]. apply (IH (fun a b c P Q => M a b c (or_intror P) Q) k0 l r I J).
Qed.
Lemma rm_extend_good : forall other m, map_good m -> map_good other -> map_good (rm_extend m other).
Proof.
  unfold rm_extend. induction other as [|[k v] o IH]; intros m M O; cbn [fold_left]; [assumption|].
  apply IH; [|intros a b c P Q; apply (O a b c); [now right|assumption]]. apply assoc_insert_good; [|assumption].
  intros r I. apply (O k v r); [now left|assumption].
Qed.

Lemma parse_rule_text_ext : forall inc1 inc2 f,
  (forall name m, inc1 name = Ok (ROk m) -> inc2 name = Ok (ROk m) /\ map_good m) ->
  forall fuel acc n text m, map_good acc -> parse_rule_text u rx1 inc1 f fuel acc n text = Ok (ROk m) ->
  parse_rule_text u rx2 inc2 f fuel acc n text = Ok (ROk m) /\ map_good m.
Proof.
  intros inc1 inc2 f INC. induction fuel as [|fuel IH]; intros acc n text m A H; destruct text as [|c text].
  - cbn [parse_rule_text] in *. apply Ok_inj in H. injection H as <-. split; [reflexivity|assumption].
  - discriminate H.
  - cbn [parse_rule_text] in *. apply Ok_inj in H. injection H as <-. split; [reflexivity|assumption].
  - cbn [parse_rule_text] in *. destruct (quadruplet (c :: text)) as [[q rm]|].
    + destruct (make_rule rx1 f (S n) q) as [[[ch rule]|e]| |] eqn:R; try discriminate. cbn [bind] in H.
      apply make_rule_ext in R as [R G]. rewrite R. cbn [bind]. apply IH; [|assumption]. now apply rm_push_good.
    + destruct (end_of_line (c :: text)) as [[k rm]|]; [now apply IH|].
      destruct (include u (c :: text)) as [[name rm]|].
      * destruct (inc1 name) as [[rules|e]| |] eqn:R; try discriminate. cbn [bind] in H. apply INC in R as [R G]. rewrite R. cbn [bind].
        apply IH; [|assumption]. now apply rm_extend_good.
      * destruct (multiline_comment (c :: text)) as [[k rm]|]; [now apply IH|discriminate].
Qed.
Lemma parse_rule_ext : forall rs depth name m, parse_rule u rx1 rs depth name = Ok (ROk m) ->
  parse_rule u rx2 rs depth name = Ok (ROk m) /\ map_good m.
Proof.
  intros rs. induction depth as [|d IH]; intros name m H; [discriminate|]. cbn [parse_rule] in *.
  destruct (resolve rs name) as [content|e]; [|discriminate]. eapply parse_rule_text_ext; [exact IH| |exact H]. intros k l r [].
Qed.

Definition rules_good (R : Rules) : Prop := forall k m, In (k, m) R -> map_good m.
Lemma load_files_ext : forall rs depth keys acc R, rules_good acc -> load_files u rx1 rs depth keys acc = Ok (ROk R) ->
  load_files u rx2 rs depth keys acc = Ok (ROk R) /\ rules_good R.
Proof.
  intros rs depth. induction keys as [|[[n t] l] keys IH]; intros acc R A H; cbn [load_files] in *.
  - apply Ok_inj in H. injection H as <-. split; [reflexivity|assumption].
  - destruct (parse_rule u rx1 rs depth (rule_filename n t l)) as [[m|e]| |] eqn:P; try discriminate. cbn [bind] in H.
    apply parse_rule_ext in P as [P G]. rewrite P. cbn [bind]. apply IH; [|assumption].
    intros k m' [I|I]; [injection I as _ <-; assumption|]. now apply (A k m').
Qed.
Lemma build_rules_for_ext : forall rs depth languages nts acc R, rules_good acc ->
  build_rules_for u rx1 rs depth languages nts acc = Ok (ROk R) ->
  build_rules_for u rx2 rs depth languages nts acc = Ok (ROk R) /\ rules_good R.
Proof.
  intros rs depth languages. induction nts as [|n nts IH]; intros acc R A H; cbn [build_rules_for] in *.
  - apply Ok_inj in H. injection H as <-. split; [reflexivity|assumption].
  - destruct (nt_assoc n languages) as [l|]; [|discriminate].
    destruct (load_files u rx1 rs depth (files_for n l) acc) as [[m|e]| |] eqn:P; try discriminate. cbn [bind] in H.
    apply load_files_ext in P as [P G]; [|assumption]. rewrite P. cbn [bind]. now apply IH.
Qed.

Definition lang_good (l : Lang) : Prop := forall r, In r (lang_rules l) -> rx_valid rx1 (lr_pattern r) = true.
Lemma parse_lang_ext : forall filename languages fuel acc n text l, (forall r, In r acc -> rx_valid rx1 (lr_pattern r) = true) ->
  parse_lang rx1 filename languages fuel acc n text = Ok (ROk l) ->
  parse_lang rx2 filename languages fuel acc n text = Ok (ROk l) /\ lang_good l.
Proof.
  intros filename languages. induction fuel as [|fuel IH]; intros acc n text l A H; destruct text as [|c text].
  - cbn [parse_lang] in *. apply Ok_inj in H. injection H as <-. split; [reflexivity|assumption].
  - discriminate H.
  - cbn [parse_lang] in *. apply Ok_inj in H. injection H as <-. split; [reflexivity|assumption].
  - cbn [parse_lang] in *. destruct (end_of_line (c :: text)) as [[k rm]|]; [now apply IH|].
    destruct (multiline_comment (c :: text)) as [[k rm]|]; [now apply IH|].
    destruct (lang (c :: text)) as [[[[pattern langs] accept] rm]|]; [|discriminate].
    destruct (rx_valid rx1 pattern) eqn:V; [|discriminate]. destruct (E _ V) as [V2 _]. rewrite V2. apply IH; [|assumption].
    intros r I. apply in_app_iff in I as [I|[<-|[]]]; [auto|exact V].
Qed.
Lemma nt_insert_In : forall (A : Type) k (v : A) l x, In x (nt_insert k v l) -> x = (k, v) \/ In x l.
Proof.
  intros A k v. induction l as [|[k' v'] l IH]; intros x H.
  - destruct H as [<-|[]]. now left.
  - cbn [nt_insert] in H. destruct (nt_eqb k' k).
    + destruct H as [<-|H]; [now left|]. right. now right.
    + destruct H as [<-|H]; [right; now left|]. destruct (IH _ H); [now left|]. right. now right.
Qed.
Definition langs_good (G : Langs) : Prop := forall n l, In (n, l) G -> lang_good l.
Lemma build_langs_ext : forall d languages nts acc G, langs_good acc -> build_langs_for rx1 d languages nts acc = Ok (ROk G) ->
  build_langs_for rx2 d languages nts acc = Ok (ROk G) /\ langs_good G.
Proof.
  intros d languages. induction nts as [|n nts IH]; intros acc G A H; cbn [build_langs_for] in *.
  - apply Ok_inj in H. injection H as <-. split; [reflexivity|assumption].
  - destruct (nt_assoc n languages) as [ls|]; [|discriminate]. cbn [unwrap bind] in *.
    destruct (dir_file d (nt_display n ++ $ "_lang.txt")) as [content|e]; [|discriminate].
    destruct (parse_lang rx1 (dir_path d (nt_display n ++ $ "_lang.txt")) ls (length content) [] 0 content) as [[l|e]| |] eqn:P; try discriminate.
    cbn [bind] in H. apply parse_lang_ext in P as [P L]; [|intros r []]. rewrite P. cbn [bind]. apply IH; [|assumption].
    intros m l' I. apply nt_insert_In in I as [I|I]; [injection I as _ ->; assumption|]. now apply (A m l').
Qed.

Definition config_good (c : ConfigFiles) : Prop := langs_good (cf_langs c) /\ rules_good (cf_rules c).
Lemma config_new_ext : forall d depth c, config_new u rx1 d depth = Ok (ROk c) ->
  config_new u rx2 d depth = Ok (ROk c) /\ config_good c.
Proof.
  intros d depth c H. unfold config_new in *. destruct (languages_try_from d) as [[L|e]| |]; try discriminate. cbn [bind] in *.
  unfold build_langs, build_rules in *.
  destruct (build_langs_for rx1 d L all_name_types []) as [[G|e]| |] eqn:P; try discriminate. cbn [bind] in H.
  apply build_langs_ext in P as [P LG]; [|intros n l []]. rewrite P. cbn [bind].
  destruct (build_rules_for u rx1 (dir_resolver d) depth L all_name_types []) as [[R|e]| |] eqn:Q; try discriminate. cbn [bind] in H.
  apply build_rules_for_ext in Q as [Q RG]; [|intros n l []]. rewrite Q. cbn [bind]. split; [assumption|].
  apply Ok_inj in H. injection H as <-. split; assumption.
Qed.
Lemma config_default_ext : forall depth c, config_default u rx1 depth = Ok c -> config_default u rx2 depth = Ok c /\ config_good c.
Proof.
  intros depth c H. unfold config_default, rules_default, build_rules in *.
  destruct (build_rules_for u rx1 embedded_resolver depth languages_default all_name_types []) as [[R|e]| |] eqn:Q; try discriminate.
  cbn [bind] in H. apply build_rules_for_ext in Q as [Q RG]; [|intros n l []]. rewrite Q. cbn [bind]. split; [assumption|].
  apply Ok_inj in H. subst c. split; [|assumption]. cbn [cf_langs]. intros n l I. unfold langs_default in I.
  apply in_map_iff in I as (x & X & _). inversion X; subst l. intros r [].
Qed.

(** ** Encoding *)
Lemma fold_left_ext_in : forall (A B : Type) (f g : A -> B -> A) l a, (forall x b, In b l -> f x b = g x b) -> fold_left f l a = fold_left g l a.
Proof.
  intros A B f g. induction l as [|b l IH]; intros a H; [reflexivity|]. cbn [fold_left]. rewrite (H a b) by now left.
  apply IH. intros x c I. apply H. now right.
Qed.
Lemma guess_ext : forall l s, lang_good l -> guess_languages u rx2 l s = guess_languages u rx1 l s.
Proof.
  intros l s G. unfold guess_languages. rewrite (fold_left_ext_in _ _ (apply_lang_rule rx2 (str_lower u s)) (apply_lang_rule rx1 (str_lower u s))); [reflexivity|].
  intros x r I. unfold apply_lang_rule. destruct (E _ (G r I)) as [_ M]. now rewrite M.
Qed.
Lemma matches_ext : forall r input i, rule_good r -> pattern_and_context_matches rx2 r input i = pattern_and_context_matches rx1 r input i.
Proof.
  intros r input i [L R]. unfold pattern_and_context_matches. destruct (cs_len input <? N.of_nat (i + bm_pattern_length_char r)); [reflexivity|].
  destruct (cs_range input (N.of_nat i) (N.of_nat (i + bm_pattern_length_char r))) as [p| |]; cbn [bind]; [|reflexivity|reflexivity].
  destruct (negb (seq_eqb p (bm_pattern r))); [reflexivity|].
  destruct (cs_range_from input (N.of_nat (i + bm_pattern_length_char r))) as [t| |]; cbn [bind]; [|reflexivity|reflexivity].
  rewrite (ctx_match _ t R). destruct (negb (context_is_match rx1 (bm_right r) t)); [reflexivity|].
  destruct (cs_range_to input (N.of_nat i)) as [b| |]; cbn [bind]; [|reflexivity|reflexivity]. now rewrite (ctx_match _ b L).
Qed.
Lemma first_match_ext : forall rules input i, (forall r, In r rules -> rule_good r) -> first_match rx2 rules input i = first_match rx1 rules input i.
Proof.
  induction rules as [|r rules IH]; intros input i G; [reflexivity|]. cbn [first_match]. rewrite (matches_ext r) by (apply G; now left).
  destruct (pattern_and_context_matches rx1 r input i) as [b| |]; cbn [bind]; [|reflexivity|reflexivity]. destruct b; [reflexivity|].
  apply IH. intros x I. apply G. now right.
Qed.
Lemma assoc_In_pair : forall (A : Type) k (l : list (N * A)) v, assoc k l = Some v -> In (k, v) l.
Proof.
  intros A k. induction l as [|[k' v'] l IH]; intros v H; [discriminate|]. cbn [assoc] in H. destruct (k' =? k) eqn:Q; [|right; auto].
  apply N.eqb_eq in Q. injection H as <-. subst. now left.
Qed.
Lemma invoke_ext : forall m input b i max, map_good m -> invoke rx2 m input b i max = invoke rx1 m input b i max.
Proof.
  intros m input b i max G. unfold invoke. destruct (cs_range_from input (N.of_nat i)) as [t| |]; cbn [bind]; [|reflexivity|reflexivity].
  destruct (hd_error t) as [key|]; cbn [unwrap bind]; [|reflexivity]. destruct (assoc key m) as [rs|] eqn:A; [|reflexivity].
  rewrite first_match_ext; [reflexivity|]. intros r I. apply (G key rs r); [|assumption]. now apply assoc_In_pair.
Qed.
Lemma main_loop_ext : forall m, map_good m -> forall fuel input b i max, main_loop rx2 fuel m input b i max = main_loop rx1 fuel m input b i max.
Proof.
  intros m G. induction fuel as [|fuel IH]; intros input b i max; cbn [main_loop]; [reflexivity|].
  destruct (N.of_nat i <? cs_len input); [|reflexivity]. rewrite invoke_ext by assumption.
  destruct (invoke rx1 m input b i max) as [[[b' i'] x]| |]; cbn [bind]; [apply IH|reflexivity|reflexivity].
Qed.
Lemma final_loop_ext : forall m, map_good m -> forall fuel input b i max, final_loop rx2 fuel m input b i max = final_loop rx1 fuel m input b i max.
Proof.
  intros m G. induction fuel as [|fuel IH]; intros input b i max; cbn [final_loop]; [reflexivity|].
  destruct (N.of_nat i <? cs_len input); [|reflexivity]. rewrite invoke_ext by assumption.
  destruct (invoke rx1 m input b i max) as [[[b' i'] x]| |]; cbn [bind]; [|reflexivity|reflexivity].
  match goal with |- bind ?a _ = _ => destruct a end; cbn [bind]; [apply IH|reflexivity|reflexivity].
Qed.
Lemma final_phonemes_ext : forall m, map_good m -> forall max l acc, apply_final_phonemes rx2 m max l acc = apply_final_phonemes rx1 m max l acc.
Proof.
  intros m G max. induction l as [|p l IH]; intros acc; cbn [apply_final_phonemes]; [reflexivity|]. rewrite final_loop_ext by assumption.
  destruct (final_loop rx1 (length (ph_text p)) m (cs_from (ph_text p)) (pb_empty (ph_languages p)) 0 max); cbn [bind]; [apply IH|reflexivity|reflexivity].
Qed.
Lemma final_rule_ext : forall m max b, map_good m -> apply_final_rule rx2 m max b = apply_final_rule rx1 m max b.
Proof. intros m max b G. unfold apply_final_rule. destruct m as [|x m]; [reflexivity|]. now apply final_phonemes_ext. Qed.
Lemma encode_text_ext : forall e r f1 f2 l text, map_good r -> map_good f1 -> map_good f2 ->
  encode_text rx2 e r f1 f2 l text = encode_text rx1 e r f1 f2 l text.
Proof.
  intros e r f1 f2 l text G G1 G2. unfold encode_text. rewrite main_loop_ext by assumption.
  destruct (main_loop rx1 (length text) r (cs_from text) (pb_empty l) 0 (pe_max_phonemes e)) as [b| |]; cbn [bind]; [|reflexivity|reflexivity].
  rewrite final_rule_ext by assumption. destruct (apply_final_rule rx1 f1 (pe_max_phonemes e) b) as [b'| |]; cbn [bind]; [|reflexivity|reflexivity].
  now rewrite final_rule_ext by assumption.
Qed.
Lemma rules_get_good : forall R k m, rules_good R -> rules_get R k = Some m -> map_good m.
Proof.
  induction R as [|[k' v] R IH]; intros k m G H; [discriminate|]. cbn [rules_get] in H. destruct (rk_eqb k' k).
  - injection H as <-. apply (G k' v). now left.
  - apply (IH k m); [|assumption]. intros a b I. apply (G a b). now right.
Qed.
Lemma map_res_ext : forall (A B : Type) (f g : A -> res B) l, (forall x, f x = g x) -> map_res f l = map_res g l.
Proof.
  intros A B f g l H. induction l as [|x l IH]; [reflexivity|]. cbn [map_res]. rewrite (H x). destruct (g x); cbn [bind]; [|reflexivity|reflexivity].
  now rewrite IH.
Qed.
Lemma encode_ext : forall e, rules_good (pe_rules e) -> lang_good (pe_lang e) ->
  forall fuel s l, encode_with_language_set u rx2 fuel e s l = encode_with_language_set u rx1 fuel e s l.
Proof.
  intros e RG LG. induction fuel as [|fuel IH]; intros s l; cbn [encode_with_language_set]; [reflexivity|]. cbv zeta.
  assert (K : forall x, encode_with_language_set u rx2 fuel e x (guess_languages u rx2 (pe_lang e) x)
                      = encode_with_language_set u rx1 fuel e x (guess_languages u rx1 (pe_lang e) x)).
  { intros x. rewrite IH. now rewrite guess_ext. }
  destruct (rules_get (pe_rules e) (pe_name_type e, Rules_, rules_language l)) as [m|] eqn:A; cbn [unwrap bind]; [|reflexivity].
  destruct (rules_get (pe_rules e) (pe_name_type e, pe_rule_type e, $ "common")) as [f1|] eqn:B; cbn [unwrap bind]; [|reflexivity].
  destruct (rules_get (pe_rules e) (pe_name_type e, pe_rule_type e, rules_language l)) as [f2|] eqn:C; cbn [unwrap bind]; [|reflexivity].
  destruct (generic_prefix (pe_name_type e) (replace $ "-" $ " " (str_lower u s))) as [[x y]|].
  - rewrite (K x). destruct (encode_with_language_set u rx1 fuel e x (guess_languages u rx1 (pe_lang e) x)); cbn [bind]; [|reflexivity|reflexivity].
    now rewrite (K y).
  - match goal with |- (if ?c then _ else _) = _ => destruct c end.
    + now rewrite (map_res_ext _ _ _ _ _ K).
    + match goal with |- bind ?a _ = _ => destruct a end; cbn [bind]; [|reflexivity|reflexivity].
      apply encode_text_ext; eapply rules_get_good; eassumption.
Qed.
Lemma built_good : forall b e, config_good (bb_config b) -> builder_build b = Ok e -> rules_good (pe_rules e) /\ lang_good (pe_lang e).
Proof.
  intros b e [L R] H. unfold builder_build in H. destruct (nt_assoc (bb_name_type b) (cf_langs (bb_config b))) as [l|] eqn:A; [|discriminate].
  cbn [unwrap bind] in H. apply Ok_inj in H. subst e. cbn [pe_rules pe_lang]. split; [assumption|].
  clear - L A. revert L A. generalize (cf_langs (bb_config b)). intros G. induction G as [|[k v] G IH]; intros L A; [discriminate|].
  cbn [nt_assoc] in A. destruct (nt_eqb k (bb_name_type b)).
  - injection A as <-. apply (L k v). now left.
  - apply IH; [|assumption]. intros n x I. apply (L n x). now right.
Qed.
Theorem built_ext : forall b e, config_good (bb_config b) -> builder_build b = Ok e ->
  forall s, guess_languages u rx2 (pe_lang e) s = guess_languages u rx1 (pe_lang e) s
    /\ bm_encode u rx2 e s = bm_encode u rx1 e s
    /\ forall l, bm_encode_with_languages u rx2 e s l = bm_encode_with_languages u rx1 e s l.
Proof.
  intros b e G H s. destruct (built_good _ _ G H) as [RG LG]. split; [now apply guess_ext|]. split.
  - unfold bm_encode, bm_encode_with_languages. rewrite encode_ext by assumption. now rewrite guess_ext.
  - intros l. unfold bm_encode_with_languages. now apply encode_ext.
Qed.
End Agree.
