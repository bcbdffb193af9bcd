(** * Beider-Morse: the properties of encoding (C46-C50, C53, C58, C61, C64). *)
From Verif Require Import Base UnicodeM RulesParser DaitchMokotoff BmLanguages BmRegex BmRule BmEngine MiniRegex UnicodeReal BaseLemmas UnicodeLemmas
  Dm_proofs Spec_bm Bm_set_proofs Spec_bm_engine Bm_engine_proofs Bm_recursion_proofs Spec_bm_name Bm_name_proofs Bm_config_proofs.
Local Open Scope N_scope.

(** ** A small configuration for the examples *)
Definition demo_rules (main final : ustr) : file_list :=
  flat_map (fun n => [(language_filename n, Some ($ "any" ++ [10]));
                      (nt_display n ++ $ "_lang.txt", Some ($ "// no rule" ++ [10]))]
    ++ map (fun k => let '(n, t, l) := k in
              (rule_filename n t l ++ $ ".txt", Some (match t with Rules_ => main | _ => if seq_eqb l $ "common" then final else [] end)))
           (files_for n [$ "any"])) all_name_types.
(** Double quotes are written as apostrophes here. *)
Definition dq (s : ustr) : ustr := map (fun c => if c =? # "'" then 34 else c) s ++ [10].
Definition demo_dir : file_list :=
  demo_rules (dq $ "'b' '' '' 'b'" ++ dq $ "'a' '' '' '(x|y)'" ++ dq $ "'aa' '' '' 'z'" ++ dq $ "'v' '' '' '(f|v)'" ++ dq $ "'d' '' '' 'd'" ++ dq $ "' ' '' '' '_'")
             (dq $ "'x' '' '$' '(p|q)'" ++ dq $ "'y' '' '' '(r|s)'").
Definition demo_builder (n : NameType) (concat : bool) (max : nat) : BeiderMorseBuilder :=
  {| bb_config := match config_new real_unicode mini_engine (folder_of demo_dir) 3 with Ok (ROk c) => c | _ => {| cf_langs := []; cf_rules := [] |} end;
     bb_name_type := n; bb_rule_type := RtExact; bb_concat := concat; bb_max_phonemes := max |}.
Definition demo (n : NameType) (concat : bool) (max : nat) : PhoneticEngine :=
  Eval vm_compute in match builder_build (demo_builder n concat max) with Ok e => e | _ =>
    {| pe_rules := []; pe_lang := {| lang_languages := []; lang_rules := [] |}; pe_name_type := n; pe_rule_type := Exact; pe_concat := concat; pe_max_phonemes := max |} end.
Definition demo_code (e : PhoneticEngine) (v : ustr) : res ustr := bm_encode real_unicode mini_engine e v.
Example demo_builds : exists c, config_new real_unicode mini_engine (folder_of demo_dir) 3 = Ok (ROk c).
Proof. eexists. vm_compute. reflexivity. Qed.


(** ** C48: encoding computes the code of the specification, and ends *)
Section Engine.
Variable u : Unicode.
Variable rx : RegexEngine.
Hypothesis L : LowerOK u.

(** With rules read from files (which are filed under the first character of
    their non-empty pattern), an encoding returns a code exactly when the
    specification gives one, and returns that code. *)
Theorem C48_code : forall e, tables_ok e -> forall v languages code,
  bm_encode_with_languages u rx e v languages = Ok code <-> name_code u rx e languages v code.
Proof. intros e T v languages code. now apply engine_computes. Qed.
Theorem C48_encode : forall e, tables_ok e -> forall v code,
  bm_encode u rx e v = Ok code <-> name_code u rx e (guess_languages u rx (pe_lang e) v) v code.
Proof. intros e T v code. now apply engine_computes. Qed.
(** It ends: with the code, or with a panic when there is none. *)
Theorem C48_ends : forall e, tables_ok e -> forall v languages,
  (exists code, bm_encode_with_languages u rx e v languages = Ok code)
  \/ (bm_encode_with_languages u rx e v languages = Panic /\ forall code, ~ name_code u rx e languages v code).
Proof.
  intros e T v languages. pose proof (engine_ends u rx L e T v languages) as N.
  destruct (bm_encode_with_languages u rx e v languages) as [c| |] eqn:E; [left; now exists c| |congruence].
  right. split; [reflexivity|]. intros code H. apply (engine_computes u rx L e T) in H. congruence.
Qed.
Theorem C48_code_unique : forall e, tables_ok e -> forall v languages a b,
  name_code u rx e languages v a -> name_code u rx e languages v b -> a = b.
Proof.
  intros e T v languages a b H K. apply (engine_computes u rx L e T) in H. apply (engine_computes u rx L e T) in K.
  rewrite H in K. now apply Ok_inj in K.
Qed.

(** ** C49: particles *)
Theorem C49_prefixed : forall e v languages c r, prefixed (pe_name_type e) (looked_at u v) c r ->
  (exists a b d, tables e languages a b d) ->
  bm_encode_with_languages u rx e v languages
  = (cc <- bm_encode u rx e c ;; rc <- bm_encode u rx e r ;; Ok ($ "(" ++ rc ++ $ ")-(" ++ cc ++ $ ")")).
Proof.
  intros e v languages c r P (a & b & d & T). rewrite (encode_equation u rx L). unfold level. cbv zeta.
  apply tables_iff in T as (-> & -> & ->). cbn [unwrap bind]. rewrite prepared_looked_at.
  now rewrite (proj2 (generic_prefix_prefixed _ _ _ _) P).
Qed.
(** In particular for a name that is already in lowercase, without hyphen. *)
Lemma looked_at_plain : forall p r, (forall c, In c p -> c < 128 /\ is_ascii_upper c = false /\ c <> # "-") -> looked_at u r = r ->
  (forall c, In c r -> to_lower u c = [c] /\ c <> 931) -> looked_at u (p ++ r) = p ++ r.
Proof.
  intros p r P R K. assert (W : lowered u (p ++ r)).
  { intros c H. apply in_app_iff in H as [H|H]; [|now apply K]. destruct (P c H) as (A & B & C). now apply ascii_lowered. }
  unfold looked_at in *. rewrite (lowered_fixed u _ W). rewrite (lowered_fixed u r K) in R. rewrite map_app, R. f_equal.
  rewrite <- (map_id p) at 2. apply map_ext_in. intros c H. destruct (P c H) as (_ & _ & C). apply N.eqb_neq in C. now rewrite C.
Qed.
Theorem C49_lowercase : forall e languages p r, pe_name_type e = Generic -> (exists a b d, tables e languages a b d) ->
  In p ($ "d'" :: map (fun x => x ++ $ " ") particles) ->
  (forall c, In c r -> to_lower u c = [c] /\ c <> 931 /\ c <> # "-") ->
  bm_encode_with_languages u rx e (p ++ r) languages
  = (cc <- bm_encode u rx e (removelast p ++ r) ;; rc <- bm_encode u rx e r ;; Ok ($ "(" ++ rc ++ $ ")-(" ++ cc ++ $ ")")).
Proof.
  intros e languages p r G T I R. apply C49_prefixed; [|assumption]. rewrite G.
  assert (W : lowered u r) by (intros c H; destruct (R c H) as (A & B & _); now split).
  assert (E : looked_at u r = r).
  { unfold looked_at. rewrite (lowered_fixed u r W). rewrite <- (map_id r) at 2. apply map_ext_in. intros c H.
    destruct (R c H) as (_ & _ & C). apply N.eqb_neq in C. now rewrite C. }
  rewrite looked_at_plain; [|intros c H|assumption|exact W].
  - destruct I as [<-|I]; [apply px_d|]. apply in_map_iff in I as (q & <- & Q).
    rewrite <- app_assoc. rewrite removelast_last. now apply px_particle.
  - assert (Z : forallb (fun p => forallb (fun c => (c <? 128) && negb (is_ascii_upper c) && negb (c =? # "-")) p) ($ "d'" :: map (fun x => x ++ $ " ") particles) = true)
      by (vm_compute; reflexivity).
    rewrite forallb_forall in Z. apply Z in I. rewrite forallb_forall in I. apply I in H.
    apply andb_prop in H as [H C]. apply andb_prop in H as [A B]. split; [now apply N.ltb_lt|]. split; [now apply negb_true_iff|]. intros ->. discriminate.
Qed.
(** A generic name without particle, or another kind of name, is not split. *)
Theorem C49_other_name_types : forall n t c r, prefixed n t c r -> n = Generic.
Proof. intros n t c r H. now destruct H. Qed.
(** The name is not trimmed: only a text that begins with d or v has a prefix. *)
Theorem C49_front : forall n x t c r, prefixed n (x :: t) c r -> x = # "d" \/ x = # "v".
Proof.
  intros n x t c r H. remember (x :: t) as text eqn:E. destruct H as [r|p r H].
  - injection E as <- _. now left.
  - unfold particles in H. cbn [In] in H.
    repeat (destruct H as [<-|H]; [injection E as <- _; auto|]). contradiction H.
Qed.

(** ** C50: words *)
Theorem C50_words : forall e v languages ws, pe_concat e = false -> (forall c r, ~ prefixed (pe_name_type e) (looked_at u v) c r) ->
  words_of u (looked_at u v) ws -> length ws <> 1%nat -> (exists a b d, tables e languages a b d) ->
  bm_encode_with_languages u rx e v languages = (codes <- map_res (bm_encode u rx e) ws ;; Ok (join $ "-" codes)).
Proof.
  intros e v languages ws C P W N (a & b & d & T). rewrite (encode_equation u rx L). unfold level. cbv zeta.
  apply tables_iff in T as (-> & -> & ->). cbn [unwrap bind]. rewrite prepared_looked_at, (proj2 (not_prefixed _ _) P), (words_of_split _ _ _ W), C.
  apply Nat.eqb_neq in N. now rewrite N.
Qed.
Theorem C50_one_word : forall e v languages w, tables_ok e -> pe_concat e = false -> (forall c r, ~ prefixed (pe_name_type e) (looked_at u v) c r) ->
  words_of u (looked_at u v) [w] -> forall code,
  bm_encode_with_languages u rx e v languages = Ok code <-> text_code rx e languages w code.
Proof.
  intros e v languages w T C P W code. rewrite (engine_computes u rx L e T). split.
  - intros H. inversion H as [LS' v' c r cc rc X P' N1 N2|LS' v' ws cs X P' C' W' N F|LS' v' w' code' P' C' W' X|LS' v' ws ks code' P' C' W' K X]; subst.
    + now apply P in P'.
    + rewrite (words_of_unique _ _ _ _ W' W) in N. now destruct N.
    + pose proof (words_of_unique _ _ _ _ W' W) as E. injection E as ->. assumption.
    + congruence.
  - intros H. now apply nc_one_word with w.
Qed.
Theorem C50_concat : forall e v languages ws ks, tables_ok e -> pe_concat e = true -> (forall c r, ~ prefixed (pe_name_type e) (looked_at u v) c r) ->
  words_of u (looked_at u v) ws -> kept (pe_name_type e) ws ks -> forall code,
  bm_encode_with_languages u rx e v languages = Ok code <-> text_code rx e languages (join $ " " ks) code.
Proof.
  intros e v languages ws ks T C P W K code. rewrite (engine_computes u rx L e T).
  assert (NS : forall w, In w ws -> ~ In 32 w).
  { intros w I X. apply (words_of_chars _ _ _ _ _ W I) in X. now rewrite space_ws in X. }
  split.
  - intros H. inversion H as [LS' v' c r cc rc X P' N1 N2|LS' v' ws' cs X P' C' W' N F|LS' v' w' code' P' C' W' X|LS' v' ws' ks' code' P' C' W' K' X]; subst; try congruence.
    + now apply P in P'.
    + rewrite (words_of_unique _ _ _ _ W' W) in K'. apply words2_kept in K'; [|assumption]. apply words2_kept in K; [|assumption].
      rewrite K in K'. now subst ks'.
  - intros H. now apply nc_concat with ws ks.
Qed.
(** Every word list has exactly one list of kept words. *)
Theorem C50_kept : forall n v ws, words_of u v ws -> exists ks, kept n ws ks /\ forall ks', kept n ws ks' -> ks' = ks.
Proof.
  intros n v ws W. assert (NS : forall w, In w ws -> ~ In 32 w).
  { intros w I X. apply (words_of_chars _ _ _ _ _ W I) in X. now rewrite space_ws in X. }
  exists (words2 n ws). split; [now apply words2_kept|]. intros ks' K. apply words2_kept in K; [now rewrite K|assumption].
Qed.
Theorem C50_words_exist : forall t, exists ws, words_of u t ws /\ forall ws', words_of u t ws' -> ws' = ws.
Proof. intros t. exists (split_whitespace u t). split; [apply split_words_of|]. intros ws' H. symmetry. now apply words_of_split. Qed.

(** ** C53: the given languages do not matter for names that are split *)
Theorem C53_prefixed : forall e v l1 l2 c r, prefixed (pe_name_type e) (looked_at u v) c r ->
  (exists a b d, tables e l1 a b d) -> (exists a b d, tables e l2 a b d) ->
  bm_encode_with_languages u rx e v l1 = bm_encode_with_languages u rx e v l2.
Proof. intros e v l1 l2 c r P T1 T2. now rewrite (C49_prefixed e v l1 c r P T1), (C49_prefixed e v l2 c r P T2). Qed.
Theorem C53_words : forall e v l1 l2 ws, pe_concat e = false -> words_of u (looked_at u v) ws -> length ws <> 1%nat ->
  (exists a b d, tables e l1 a b d) -> (exists a b d, tables e l2 a b d) ->
  bm_encode_with_languages u rx e v l1 = bm_encode_with_languages u rx e v l2.
Proof.
  intros e v l1 l2 ws C W N T1 T2. destruct (generic_prefix (pe_name_type e) (looked_at u v)) as [[c r]|] eqn:G.
  - apply generic_prefix_prefixed in G. now apply C53_prefixed with c r.
  - pose proof (proj1 (not_prefixed _ _) G) as P. now rewrite (C50_words e v l1 ws C P W N T1), (C50_words e v l2 ws C P W N T2).
Qed.

(** ** C64: case and layout *)
Theorem C64_looked_at : forall e v w languages, looked_at u v = looked_at u w ->
  bm_encode_with_languages u rx e v languages = bm_encode_with_languages u rx e w languages.
Proof. intros e v w languages H. rewrite !(encode_equation u rx L). unfold level. now rewrite !prepared_looked_at, H. Qed.
Theorem C64_case : forall e v w, str_lower u v = str_lower u w -> bm_encode u rx e v = bm_encode u rx e w.
Proof.
  intros e v w H. unfold bm_encode. assert (G : guess_languages u rx (pe_lang e) v = guess_languages u rx (pe_lang e) w).
  { unfold guess_languages. now rewrite H. }
  rewrite G. apply C64_looked_at. unfold looked_at. now rewrite H.
Qed.
Theorem C64_spacing : forall e v w ws languages, (forall c r, ~ prefixed (pe_name_type e) (looked_at u v) c r) ->
  (forall c r, ~ prefixed (pe_name_type e) (looked_at u w) c r) ->
  words_of u (looked_at u v) ws -> words_of u (looked_at u w) ws ->
  bm_encode_with_languages u rx e v languages = bm_encode_with_languages u rx e w languages.
Proof.
  intros e v w ws languages P1 P2 W1 W2. rewrite !(encode_equation u rx L). unfold level.
  now rewrite !prepared_looked_at, (proj2 (not_prefixed _ _) P1), (proj2 (not_prefixed _ _) P2), (words_of_split _ _ _ W1), (words_of_split _ _ _ W2).
Qed.
End Engine.

(** ** C46: the limit *)
(** The main rules keep at most [max_phonemes] phonemes. *)
Theorem C46_main_rules : forall rx rules max text languages b, (1 <= max)%nat ->
  main_scan rx rules max text 0 (start languages) b -> (length b <= max)%nat.
Proof. intros rx rules max text languages b M H. apply main_scan_length in H; cbn [start length] in *; lia. Qed.
(** Hence at most that many alternatives when there are no final rules. *)
Theorem C46_without_final_rules : forall rx e languages text code, (1 <= pe_max_phonemes e)%nat ->
  text_code rx e languages text code -> (exists rules, tables e languages rules [] []) ->
  exists alternatives, code = join $ "|" alternatives /\ (length alternatives <= pe_max_phonemes e)%nat.
Proof.
  intros rx e languages text code M (a & b & d & w & T & W & ->) (rules & T'). apply tables_iff in T as (T1 & T2 & T3). apply tables_iff in T' as (K1 & K2 & K3).
  rewrite K2 in T2. rewrite K3 in T3. injection T2 as <-. injection T3 as <-. exists (map ph_text w). split; [reflexivity|].
  rewrite map_length. apply word_phonemes_length in W. cbn [Nat.mul] in W. lia.
Qed.
(** With final rules the number of alternatives is bounded by the cube. *)
Theorem C46_bound : forall rx e languages text code, (1 <= pe_max_phonemes e)%nat -> text_code rx e languages text code ->
  exists alternatives, code = join $ "|" alternatives /\ (length alternatives <= pe_max_phonemes e * pe_max_phonemes e * pe_max_phonemes e)%nat.
Proof.
  intros rx e languages text code M (a & b & d & w & T & W & ->). exists (map ph_text w). split; [reflexivity|]. rewrite map_length.
  apply word_phonemes_length in W. rewrite (Nat.max_r 1) in W by assumption. etransitivity; [exact W|].
  apply Nat.mul_le_mono_r. apply Nat.mul_le_mono; destruct b, d; lia.
Qed.
(** They do exceed the limit itself. *)
Theorem C46_limit_refuted : demo_code (demo Generic true 2) $ "a" = Ok $ "p|q|r|s".
Proof. vm_compute. reflexivity. Qed.
(** With a limit of one there is at most one alternative. *)
Theorem C46_one : forall rx e languages text code, pe_max_phonemes e = 1%nat -> text_code rx e languages text code ->
  code = [] \/ exists p, code = ph_text p /\ forall rules final1 final2 b, tables e languages rules final1 final2 ->
     word_phonemes rx rules final1 final2 1 languages text b -> b = [p].
Proof.
  intros rx e languages text code M (a & b & d & w & T & W & ->). rewrite M in W. pose proof (word_phonemes_length _ _ _ _ _ _ _ _ W) as Ln.
  assert (length w <= 1)%nat by (destruct b, d; cbn in Ln; lia). destruct w as [|p [|q w]]; [now left| |cbn in *; lia].
  right. exists p. split; [reflexivity|]. intros rules f1 f2 b' T' W'. apply tables_iff in T as (T1 & T2 & T3). apply tables_iff in T' as (K1 & K2 & K3).
  rewrite K1 in T1. rewrite K2 in T2. rewrite K3 in T3. injection T1 as <-. injection T2 as <-. injection T3 as <-.
  exact (word_phonemes_unique _ _ _ _ _ _ _ _ _ W' W).
Qed.

(** ** C61: where the characters of a code come from *)
Definition rule_chars (rules : RuleMap) (c : N) : Prop :=
  exists k l r p, In (k, l) rules /\ In r l /\ In p (bm_phoneme r) /\ In c (ph_text p).
Lemma pset_of_list_In : forall l y, In y (pset_of_list l) -> In y l.
Proof.
  intros l y. unfold pset_of_list. assert (G : forall l s, In y (fold_left (fun s x => pset_insert x s) l s) -> In y l \/ In y s).
  { clear l. induction l as [|x l IH]; intros s H; cbn [fold_left] in H; [now right|]. destruct (IH _ H) as [K|K]; [left; now right|].
    apply pset_insert_In in K as [->|K]; [left; now left|now right]. }
  intros H. destruct (G l [] H) as [K|[]]. assumption.
Qed.
Lemma firstn_In_ : forall (A : Type) n (l : list A) x, In x (firstn n l) -> In x l.
Proof. intros A n l x H. rewrite <- (firstn_skipn n l). apply in_app_iff. now left. Qed.
Lemma combined_chars : forall (P : N -> Prop) b e max b', combined b e max b' ->
  (forall p c, In p b -> In c (ph_text p) -> P c) -> (forall p c, In p e -> In c (ph_text p) -> P c) ->
  forall p c, In p b' -> In c (ph_text p) -> P c.
Proof.
  intros P b e max b' (n & D & _ & _) B E p c H K. apply distinct_of_iff in D. subst b'. apply pset_of_list_In in H. apply firstn_In_ in H. unfold combinations in H.
  apply in_flat_map in H as (l & Hl & H). apply in_flat_map in H as (r & Hr & H). cbv zeta in H.
  destruct (no_language _); [destruct H|destruct H as [<-|[]]]. cbn [ph_text] in K. apply in_app_iff in K as [K|K]; [now apply (B l)|now apply (E r)].
Qed.
Lemma chosen_in_table : forall rx rules t i r, chosen rx rules t i (Some r) -> exists k l, In (k, l) rules /\ In r l.
Proof.
  intros rx rules t i r H. inversion H as [pre r' post C N A|]; subst. unfold candidates in C. destruct (nth_error t i) as [c|]; [|destruct pre; discriminate].
  destruct (assoc c rules) as [l|] eqn:E; [|destruct pre; discriminate]. exists c, l. split; [now apply assoc_In|]. rewrite C. apply in_app_iff. right. now left.
Qed.
Lemma chosen_chars : forall rx rules t i r p c, chosen rx rules t i (Some r) -> In p (bm_phoneme r) -> In c (ph_text p) -> rule_chars rules c.
Proof. intros rx rules t i r p c H I J. destruct (chosen_in_table _ _ _ _ _ H) as (k & l & A & B). now exists k, l, r, p. Qed.
Lemma main_scan_chars : forall rx rules max t i b b', main_scan rx rules max t i b b' ->
  (forall p c, In p b -> In c (ph_text p) -> rule_chars rules c) -> forall p c, In p b' -> In c (ph_text p) -> rule_chars rules c.
Proof.
  intros rx rules max t i b b' H. induction H as [i b H|i b r b1 b' H1 H2 H3 H4 IH|i b b' H1 H2 H3 IH]; intros P; [assumption| |now apply IH].
  apply IH. eapply combined_chars; [eassumption|assumption|]. intros p c. now apply (chosen_chars _ _ _ _ _ _ _ H2).
Qed.
Lemma final_scan_chars : forall rx rules max t i b b', final_scan rx rules max t i b b' ->
  (forall p c, In p b -> In c (ph_text p) -> In c t \/ rule_chars rules c) -> forall p c, In p b' -> In c (ph_text p) -> In c t \/ rule_chars rules c.
Proof.
  intros rx rules max t i b b' H. induction H as [i b H|i b r b1 b' H1 H2 H3 H4 IH|i b x bk b' H1 H2 DK H3 IH]; intros P; [assumption| |].
  - apply IH. eapply (combined_chars (fun c => In c t \/ rule_chars rules c)); [eassumption|assumption|].
    intros p c A B. right. exact (chosen_chars _ _ _ _ _ _ _ H2 A B).
  - apply IH. intros p c A B. apply distinct_of_iff in DK. subst bk. apply pset_of_list_In in A. apply in_map_iff in A as (q & <- & A). cbn [ph_text] in B.
    apply in_app_iff in B as [B|[<-|[]]]; [now apply (P q)|]. left. now apply nth_error_In with i.
Qed.
Lemma final_step_chars : forall rx rules max b b', final_step rx rules max b b' ->
  forall p c, In p b' -> In c (ph_text p) -> (exists q, In q b /\ In c (ph_text q)) \/ rule_chars rules c.
Proof.
  intros rx rules max b b' [[_ ->]|(_ & _ & cs & C & H)] p c I J; [left; now exists p|].
  apply H in I. destruct (proj1 (collected_texts cs (ph_text p)) (ex_intro _ _ I)) as ([LS q] & Hq & E). cbn [snd] in E. rewrite <- E in J.
  clear H I E p. induction C as [|p ps q' cs F C IH]; [destruct Hq|]. apply in_app_iff in Hq as [Hq|Hq].
  - apply in_map_iff in Hq as (z & Z & Hq). injection Z as <- <-.
    destruct (final_scan_chars _ _ _ _ _ _ _ F) with (p := z) (c := c) as [K|K]; try assumption; [|left; exists p; split; [now left|assumption]|now right].
    intros p0 c0 [<-|[]] [].
  - destruct (IH Hq) as [(z & A & B)|K]; [left; exists z; split; [now right|assumption]|now right].
Qed.
(** Every character of the phonemes of a text comes from the phonemes of a rule
    of one of the three tables: nothing of the text itself is copied. *)
Theorem C61_characters : forall rx rules f1 f2 max languages text b, word_phonemes rx rules f1 f2 max languages text b ->
  forall p c, In p b -> In c (ph_text p) -> rule_chars rules c \/ rule_chars f1 c \/ rule_chars f2 c.
Proof.
  intros rx rules f1 f2 max languages text b (b1 & b2 & A & B & C) p c I J.
  destruct (final_step_chars _ _ _ _ _ C p c I J) as [(q & Q1 & Q2)|K]; [|now right; right].
  destruct (final_step_chars _ _ _ _ _ B q c Q1 Q2) as [(q' & Q3 & Q4)|K]; [|now right; left].
  left. eapply main_scan_chars; [exact A| |exact Q3|exact Q4]. intros p0 c0 [<-|[]] [].
Qed.
(** The first applicable rule in file order is used, not the longest pattern: a
    rule that applies wherever its pattern occurs hides every later rule whose
    pattern starts with its own. *)
Theorem C61_shadowed : forall rx rules text i pre x mid r, candidates rules text i = pre ++ x :: mid ->
  (forall s, context_is_match rx (bm_left x) s = true) -> (forall s, context_is_match rx (bm_right x) s = true) ->
  chosen rx rules text i (Some r) -> In r pre \/ r = x \/ ~ exists q, bm_pattern r = bm_pattern x ++ q.
Proof.
  intros rx rules text i pre x mid r C CL CR H. inversion H as [pre' r' post E N A|]; subst r'.
  assert (AX : (exists q, bm_pattern r = bm_pattern x ++ q) -> rule_applies rx x text i).
  { intros (q & Q). destruct A as (bf & af & T & Ln & _). exists bf, (q ++ af). split; [rewrite T, Q; now rewrite <- !app_assoc|]. split; [assumption|]. split; [apply CL|apply CR]. }
  rewrite C in E. clear H C. revert pre' E N. induction pre as [|y pre IH]; intros pre' E N; cbn [app] in E.
  - destruct pre' as [|z pre']; injection E as E1 E2; [right; left; now symmetry|]. subst z. right. right. intros Q. exact (N x (or_introl eq_refl) (AX Q)).
  - destruct pre' as [|z pre']; injection E as E1 E2; [left; left; assumption|]. subst z.
    destruct (IH pre' E2) as [K|K]; [intros w Hw; apply N; now right|left; now right|now right].
Qed.
(** A text without any character for which there are main rules has an empty
    code (digits or other scripts, say): unknown characters are dropped. *)
Theorem C61_unknown_text : forall rx e languages text code, text_code rx e languages text code ->
  (forall rules f1 f2 c, tables e languages rules f1 f2 -> In c text -> assoc c rules = None) -> code = [].
Proof.
  intros rx e languages text code (a & f1 & f2 & w & T & (b1 & b2 & A & B & C) & ->) U.
  assert (X : forall i b b', main_scan rx a (pe_max_phonemes e) text i b b' -> b' = b).
  { intros i b b' H. induction H as [i b H|i b r b1' b' H1 H2 H3 H4 IH|i b b' H1 H2 H3 IH]; [reflexivity| |assumption].
    exfalso. inversion H2 as [pre r' post K N0 A0|]; subst. unfold candidates in K. destruct (nth_error text i) as [c|] eqn:E; [|destruct pre; discriminate].
    apply nth_error_In in E. rewrite (U _ _ _ _ T E) in K. destruct pre; discriminate. }
  apply X in A. subst b1.
  assert (Y : forall f LS b', final_step rx f (pe_max_phonemes e) (start LS) b' -> map ph_text b' = [[]]).
  { intros f LS b' [[_ ->]|(_ & S & cs & K & H)]; [reflexivity|]. inversion K as [|p ps q cs' F K']; subst. inversion K'; subst.
    inversion F; subst; cbn in *; try lia; try discriminate.
    assert (E : b' = start LS); [|now rewrite E]. apply psorted_ext; [assumption|apply start_sorted|]. intros x. rewrite H. cbn [start map app In].
    unfold collected. cbn [filter snd ph_text]. destruct x as [t l]. cbn [ph_text ph_languages]. destruct (seq_eqb [] t) eqn:Q.
    - apply seq_eqb_eq in Q. subst t. cbn. split; [intros Z'; injection Z' as <-; now left|intros [Z'|[]]; injection Z' as <-; reflexivity].
    - split; [discriminate|]. intros [Z'|[]]. injection Z' as <- <-. cbn in Q. discriminate. }
  pose proof (Y _ _ _ B) as Z. assert (b2 = start (ph_languages (hd {| ph_text := []; ph_languages := LAny |} b2))) as E.
  { destruct b2 as [|[t l] [|]]; try discriminate. cbn in Z. injection Z as ->. reflexivity. }
  rewrite E in C. clear E.
  now rewrite (Y _ _ _ C).
Qed.

(** ** C47: the alternatives *)
(** The alternatives of a text are pairwise distinct, in increasing order. *)
Theorem C47_alternatives : forall rx e languages text code, text_code rx e languages text code ->
  exists alternatives, code = join $ "|" alternatives /\ increasing alternatives.
Proof.
  intros rx e languages text code (a & b & d & w & T & W & ->). exists (map ph_text w). split; [reflexivity|].
  exact (word_phonemes_sorted _ _ _ _ _ _ _ _ W).
Qed.
(** When no rule writes a '|', they are the parts of the code between the '|'. *)
Theorem C47_separated : forall rx e languages text code, text_code rx e languages text code ->
  (forall rules f1 f2, tables e languages rules f1 f2 -> ~ rule_chars rules (# "|") /\ ~ rule_chars f1 (# "|") /\ ~ rule_chars f2 (# "|")) ->
  increasing (split_on (# "|") code).
Proof.
  intros rx e languages text code (a & b & d & w & T & W & ->) N. destruct w as [|p w]; [cbn; split; [intros y []|exact I]|].
  rewrite split_join; [exact (word_phonemes_sorted _ _ _ _ _ _ _ _ W)|discriminate|].
  intros s H. apply in_map_iff in H as (q & <- & H). intros K. destruct (N _ _ _ T) as (N1 & N2 & N3).
  destruct (C61_characters _ _ _ _ _ _ _ _ W q _ H K) as [X|[X|X]]; contradiction.
Qed.

(** ** C58: "de la" is never the particle found *)
Theorem C58_de_la : forall r c x, prefixed Generic ($ "de la " ++ r) c x -> c = $ "dela " ++ r /\ x = $ "la " ++ r.
Proof.
  intros r c x H. apply generic_prefix_prefixed in H. cbn in H. injection H as <- <-. split; reflexivity.
Qed.

(** ** Examples *)
Lemma rules_get_In : forall rs k m, rules_get rs k = Some m -> exists k', In (k', m) rs.
Proof.
  induction rs as [|[k' v] rs IH]; intros k m H; cbn [rules_get] in H; [discriminate|].
  destruct (rk_eqb k' k); [injection H as <-; exists k'; now left|]. destruct (IH _ _ H) as (x & K). exists x. now right.
Qed.
Definition rule_okb (k : N) (r : BmRule) : bool :=
  match bm_pattern r with [] => false | c :: _ => (c =? k) && Nat.eqb (bm_pattern_length_char r) (length (bm_pattern r)) end.
Lemma tables_ok_check : forall e, forallb (fun x : RuleKey * RuleMap => forallb (fun y : N * list BmRule => forallb (rule_okb (fst y)) (snd y)) (snd x)) (pe_rules e) = true ->
  tables_ok e.
Proof.
  intros e H k m G k' l r I J. apply rules_get_In in G as (k0 & G). rewrite forallb_forall in H. apply H in G. cbn [snd] in G.
  rewrite forallb_forall in G. apply G in I. cbn [fst snd] in I. rewrite forallb_forall in I. apply I in J. unfold rule_okb in J. unfold rule_ok.
  destruct (bm_pattern r) as [|c p]; [discriminate|]. apply andb_prop in J as [J1 J2]. apply N.eqb_eq in J1. apply Nat.eqb_eq in J2. subst. now split.
Qed.
Example demo_tables_ok : forall n concat max, tables_ok (demo n concat max).
Proof. intros n concat max. apply tables_ok_check. destruct n; vm_compute; reflexivity. Qed.
Example demo_has_tables : forall n concat max languages, (forall x, languages <> SomeLanguages [x]) ->
  exists a b d, tables (demo n concat max) languages a b d.
Proof.
  intros n concat max languages H. destruct n; (eexists; eexists; eexists; exists $ "any"; split; [right; split; [reflexivity|exact H]|]);
    (split; [vm_compute; reflexivity|split; vm_compute; reflexivity]).
Qed.
Example C48_nonvacuous :
  demo_code (demo Generic true 3) $ "Aab 1a" = Ok $ "xrb_p|xrb_q|xsb_p|xxb_p|xxb_q|xxb_r|xxb_s"
  /\ (exists code, name_code real_unicode mini_engine (demo Generic true 3) LAny $ "Aab 1a" code).
Proof.
  split; [vm_compute; reflexivity|]. exists $ "xrb_p|xrb_q|xsb_p|xxb_p|xxb_q|xxb_r|xxb_s".
  apply (C48_code real_unicode mini_engine real_lower_ok); [apply demo_tables_ok|]. vm_compute. reflexivity.
Qed.
Example C49_nonvacuous :
  prefixed Generic (looked_at real_unicode $ "D'Av b-1a") $ "dav b 1a" $ "av b 1a"
  /\ demo_code (demo Generic false 3) $ "D'Av b-1a" = Ok $ "(rf|sf|xf|xv-b-p|q|r|s)-(drf|dsf|dxf|dxv-b-p|q|r|s)".
Proof. split; [|vm_compute; reflexivity]. apply generic_prefix_prefixed. vm_compute. reflexivity. Qed.
Example C50_nonvacuous :
  words_of real_unicode $ "de b'a van vb" [$ "de"; $ "b'a"; $ "van"; $ "vb"]
  /\ kept Sephardic [$ "de"; $ "b'a"; $ "van"; $ "vb"] [$ "a"; $ "vb"]
  /\ demo_code (demo Sephardic true 3) $ "de B'a van vb" = Ok $ "r_fb|s_fb|x_fb|x_vb"
  /\ demo_code (demo Sephardic false 3) $ "b vb" = Ok $ "b-fb|vb".
Proof.
  split; [|split; [|split; vm_compute; reflexivity]].
  - replace [$ "de"; $ "b'a"; $ "van"; $ "vb"] with (split_whitespace real_unicode $ "de b'a van vb") by (vm_compute; reflexivity). apply split_words_of.
  - apply words2_kept; [|vm_compute; reflexivity]. intros w [<-|[<-|[<-|[<-|[]]]]] K; cbv in K; intuition congruence.
Qed.
Example C58_nonvacuous : demo_code (demo Generic true 3) $ "de la b" = Ok $ "(r_b|s_b|x_b)-((b)-(drb|dsb|dxb))".
Proof. vm_compute. reflexivity. Qed.
Definition demo_rule (p : ustr) : BmRule :=
  {| bm_location := $ "demo"; bm_line := 1; bm_pattern := p; bm_pattern_length_char := length p; bm_left := COptimized AllStringsMatcher;
     bm_right := COptimized AllStringsMatcher; bm_phoneme := [] |}.
Example C61_nonvacuous :
  chosen mini_engine [(97, [demo_rule $ "a"; demo_rule $ "aa"])] $ "aa" 0 (Some (demo_rule $ "a"))
  /\ demo_code (demo Generic true 3) $ "123" = Ok [].
Proof.
  split; [|vm_compute; reflexivity]. apply chosen_some with (pre := []) (post := [demo_rule $ "aa"]); [reflexivity|intros x []|].
  exists [], $ "a". now repeat split.
Qed.
Example C64_nonvacuous : demo_code (demo Ashkenazi true 3) $ "AA-B" = demo_code (demo Ashkenazi true 3) $ "aa-b"
  /\ demo_code (demo Ashkenazi true 3) $ "AA-B" = Ok $ "rx_b|sx_b|xr_b|xs_b|xx_b".
Proof. split; vm_compute; reflexivity. Qed.
Example C46_nonvacuous : text_code mini_engine (demo Generic true 3) LAny $ "ab" $ "rb|sb|xb".
Proof. apply (encode_text_code mini_engine); [apply demo_tables_ok|]. vm_compute. reflexivity. Qed.
(** The hypotheses of C47_separated: the rules of the demonstration contain no '|'. *)
Example C47_nonvacuous : text_code mini_engine (demo Generic true 3) LAny $ "ab" $ "rb|sb|xb"
  /\ split_on (# "|") $ "rb|sb|xb" = [$ "rb"; $ "sb"; $ "xb"]
  /\ increasing (split_on (# "|") $ "rb|sb|xb").
Proof.
  split; [exact C46_nonvacuous|]. split; [reflexivity|]. apply (C47_separated mini_engine (demo Generic true 3) LAny $ "ab"); [exact C46_nonvacuous|].
  intros rules f1 f2 H. apply tables_iff in H as (H1 & H2 & H3). vm_compute in H1. vm_compute in H2. vm_compute in H3.
  injection H1 as <-. injection H2 as <-. injection H3 as <-.
  assert (G : forall m, forallb (fun y : N * list BmRule => forallb (fun r => forallb (fun p => negb (isin (# "|") (ph_text p))) (bm_phoneme r)) (snd y)) m = true ->
              ~ rule_chars m (# "|")).
  { intros m G (k & l & r & p & I1 & I2 & I3 & I4). rewrite forallb_forall in G. apply G in I1. cbn [snd] in I1.
    rewrite forallb_forall in I1. apply I1 in I2. rewrite forallb_forall in I2. apply I2 in I3.
    apply isin_In in I4. rewrite I4 in I3. discriminate. }
  split; [|split]; apply G; vm_compute; reflexivity.
Qed.
Example C53_nonvacuous :
  prefixed Generic (looked_at real_unicode $ "D'Av") $ "dav" $ "av"
  /\ (exists a b d, tables (demo Generic true 3) LAny a b d)
  /\ (exists a b d, tables (demo Generic true 3) NoLanguages a b d)
  /\ bm_encode_with_languages real_unicode mini_engine (demo Generic true 3) $ "D'Av" LAny
     = bm_encode_with_languages real_unicode mini_engine (demo Generic true 3) $ "D'Av" NoLanguages.
Proof.
  assert (P : prefixed Generic (looked_at real_unicode $ "D'Av") $ "dav" $ "av") by (apply generic_prefix_prefixed; vm_compute; reflexivity).
  assert (T1 : exists a b d, tables (demo Generic true 3) LAny a b d) by (apply demo_has_tables; discriminate).
  assert (T2 : exists a b d, tables (demo Generic true 3) NoLanguages a b d) by (apply demo_has_tables; discriminate).
  split; [exact P|]. split; [exact T1|]. split; [exact T2|].
  apply (C53_prefixed real_unicode mini_engine real_lower_ok (demo Generic true 3) _ _ _ _ _ P T1 T2).
Qed.
