(** * Beider-Morse: proofs that the engine computes the code of a name. *)
From Verif Require Import Base UnicodeM DaitchMokotoff BmLanguages BmRegex BmRule BmEngine BaseLemmas UnicodeLemmas
  Dm_proofs Spec_bm Bm_set_proofs Spec_bm_engine Bm_engine_proofs Bm_recursion_proofs Spec_bm_name.
Local Open Scope N_scope.

Lemma prepared_looked_at : forall u v, prepared u v = looked_at u v.
Proof. intros u v. apply hyphens_map. Qed.

(** ** Words *)
Lemma split_ws_run : forall u w cur rest, (forall c, In c w -> is_whitespace u c = false) ->
  split_ws_aux u cur (w ++ rest) = split_ws_aux u (rev w ++ cur) rest.
Proof.
  intros u. induction w as [|c w IH]; intros cur rest H; [reflexivity|]. cbn [app split_ws_aux rev].
  rewrite (H c (or_introl eq_refl)). rewrite IH by (intros x Hx; apply H; now right). now rewrite <- app_assoc.
Qed.
Lemma split_ws_spaces : forall u sp rest, (forall c, In c sp -> is_whitespace u c = true) ->
  split_ws_aux u [] (sp ++ rest) = split_ws_aux u [] rest.
Proof.
  intros u. induction sp as [|c sp IH]; intros rest H; [reflexivity|]. cbn [app split_ws_aux].
  rewrite (H c (or_introl eq_refl)). apply IH. intros x Hx. apply H. now right.
Qed.
Lemma words_of_split : forall u s ws, words_of u s ws -> split_whitespace u s = ws.
Proof.
  intros u s ws H. unfold split_whitespace. induction H as [s H|sp w rest ws H1 H2 H3 H4 H5 IH].
  - rewrite <- (app_nil_r s). now rewrite split_ws_spaces.
  - rewrite split_ws_spaces by assumption. rewrite split_ws_run by assumption. rewrite app_nil_r.
    assert (N : rev w <> []) by (intros C; apply H2; now rewrite <- (rev_involutive w), C).
    destruct H4 as [->|(c & r & -> & W)].
    + cbn [split_ws_aux] in *. destruct (rev w) eqn:E; [congruence|]. rewrite <- E, rev_involutive. now rewrite <- IH.
    + cbn [split_ws_aux] in *. rewrite W in *. destruct (rev w) eqn:E; [congruence|]. rewrite <- E, rev_involutive. now rewrite <- IH.
Qed.
Lemma span_ws : forall u b s, exists p r, s = p ++ r /\ (forall c, In c p -> is_whitespace u c = b)
  /\ (r = [] \/ exists c t, r = c :: t /\ is_whitespace u c = negb b).
Proof.
  intros u b. induction s as [|c s (p & r & E & H1 & H2)].
  - exists [], []. split; [reflexivity|]. split; [intros c []|now left].
  - destruct (Bool.bool_dec (is_whitespace u c) b) as [K|K].
    + exists (c :: p), r. split; [cbn; congruence|]. split; [|assumption]. intros x [<-|Hx]; [assumption|now apply H1].
    + exists [], (c :: s). split; [reflexivity|]. split; [intros x []|]. right. exists c, s. split; [reflexivity|].
      destruct b, (is_whitespace u c); cbn; congruence.
Qed.
Lemma words_of_exists : forall u s, exists ws, words_of u s ws.
Proof.
  intros u s. assert (G : forall n s, (length s <= n)%nat -> exists ws, words_of u s ws).
  { induction n as [|n IH]; intros t Ht.
    - destruct t; [|cbn in Ht; lia]. exists []. apply wo_end. intros c [].
    - destruct (span_ws u true t) as (sp & r & -> & H1 & [->|(c & q & -> & W)]).
      + exists []. rewrite app_nil_r. now apply wo_end.
      + destruct (span_ws u false (c :: q)) as (w & rest & E & K1 & K2).
        assert (N : w <> []). { intros ->. cbn in E. subst rest. destruct K2 as [K2|(d & q' & K2 & K3)]; [discriminate|]. injection K2 as <- <-. cbn in *. congruence. }
        destruct (IH rest) as (ws & Hws).
        { rewrite app_length in Ht. apply (f_equal (@length _)) in E. rewrite app_length in E. cbn [length] in *. destruct w; [congruence|]. cbn [length] in *. lia. }
        exists (w :: ws). rewrite E. apply wo_word; assumption. }
  apply (G (length s)). lia.
Qed.
Lemma split_words_of : forall u s, words_of u s (split_whitespace u s).
Proof. intros u s. destruct (words_of_exists u s) as (ws & H). now rewrite (words_of_split _ _ _ H). Qed.
Lemma words_of_unique : forall u s a b, words_of u s a -> words_of u s b -> a = b.
Proof. intros u s a b H K. apply words_of_split in H. apply words_of_split in K. congruence. Qed.
Lemma words_of_chars : forall u s ws w c, words_of u s ws -> In w ws -> In c w -> is_whitespace u c = false.
Proof.
  intros u s ws w c H. induction H as [|sp v rest ws H1 H2 H3 H4 H5 IH]; intros I K; [destruct I|].
  destruct I as [<-|I]; [now apply H3|now apply IH].
Qed.
Lemma space_ws : forall u, is_whitespace u 32 = true.
Proof. reflexivity. Qed.

(** ** Particles *)
Lemma generic_prefix_prefixed : forall n t c r, generic_prefix n t = Some (c, r) <-> prefixed n t c r.
Proof.
  intros n t c r. split.
  - unfold generic_prefix. destruct n; [discriminate| |discriminate].
    destruct (strip_prefix $ "d'" t) as [q|] eqn:E.
    + intros H. injection H as <- <-. apply strip_prefix_spec in E as ->. apply px_d.
    + unfold name_prefixes. cbn [find_prefix].
      repeat match goal with |- context [strip_prefix ?p t] => destruct (strip_prefix p t) eqn:?E end; intros H; try discriminate;
        injection H as <- <-;
        try (match goal with K : strip_prefix _ t = Some _ |- _ => apply strip_prefix_spec in K; rewrite K; rewrite <- app_assoc; apply px_particle; cbv; tauto end).
      exfalso. match goal with K : strip_prefix _ t = Some _ |- _ => apply strip_prefix_spec in K; subst t end.
      match goal with K : strip_prefix ($ "de" ++ _) _ = None |- _ => cbv in K; discriminate K end.
  - intros H. destruct H as [r|p r H]; [reflexivity|].
    cbn [particles In] in H. repeat (destruct H as [<-|H]; [reflexivity|]). destruct H.
Qed.
Lemma prefixed_unique : forall n t c r c' r', prefixed n t c r -> prefixed n t c' r' -> c = c' /\ r = r'.
Proof. intros n t c r c' r' H K. apply generic_prefix_prefixed in H. apply generic_prefix_prefixed in K. rewrite H in K. injection K as <- <-. now split. Qed.
Lemma not_prefixed : forall n t, generic_prefix n t = None <-> forall c r, ~ prefixed n t c r.
Proof.
  intros n t. split.
  - intros H c r K. apply generic_prefix_prefixed in K. congruence.
  - intros H. destruct (generic_prefix n t) as [[c r]|] eqn:E; [|reflexivity]. apply generic_prefix_prefixed in E. now apply H in E.
Qed.

(** ** Kept words *)
Lemma in_split_first : forall (x : N) l, In x l -> exists a b, l = a ++ x :: b /\ ~ In x a.
Proof.
  intros x. induction l as [|y l IH]; intros H; [destruct H|]. destruct (N.eq_dec y x) as [->|N].
  - exists [], l. split; [reflexivity|]. intros [].
  - destruct H as [H|H]; [congruence|]. destruct (IH H) as (a & b & -> & A). exists (y :: a), b. split; [reflexivity|].
    intros [K|K]; [congruence|contradiction].
Qed.
Lemma last_split : forall w, after_quote w (last (split_on (# "'") w) []).
Proof.
  intros w. assert (G : forall n w, (length w <= n)%nat -> after_quote w (last (split_on (# "'") w) [])).
  2:{ apply (G (length w)). lia. }
  induction n as [|n IH]; intros v Hv.
  - destruct v; [|cbn in Hv; lia]. split; [intros []|now left].
  - destruct (in_dec N.eq_dec (# "'") v) as [I|I].
    + destruct (in_split_first (# "'") v I) as (a & b & -> & A).
      rewrite split_on_app by assumption. destruct (IH b) as [H1 H2].
      { rewrite app_length in Hv. cbn in Hv. lia. }
      match goal with |- after_quote _ ?x => assert (E : x = last (split_on (# "'") b) []) end.
      { destruct (split_on (# "'") b) eqn:F; [now apply split_on_nonempty in F|reflexivity]. }
      rewrite E. split; [assumption|]. right. destruct H2 as [H2|(p & H2)].
      * exists a. apply (f_equal (fun z => a ++ # "'" :: z)). exact H2.
      * exists (a ++ # "'" :: p). rewrite <- app_assoc. apply (f_equal (fun z => a ++ # "'" :: z)). exact H2.
    + rewrite split_on_nosep by assumption. cbn. split; [assumption|now left].
Qed.
Lemma after_quote_unique : forall w a b, after_quote w a -> after_quote w b -> a = b.
Proof.
  assert (G : forall p q a b, ~ In (# "'") a -> ~ In (# "'") b -> p ++ # "'" :: a = q ++ # "'" :: b -> a = b).
  { induction p as [|x p IH]; intros [|y q] a b A B E; cbn in E; [injection E as E1|injection E as E1 E2|injection E as E1 E2|injection E as E1 E2].
    - assumption.
    - subst. exfalso. apply A. apply in_app_iff. right. now left.
    - subst. exfalso. apply B. apply in_app_iff. right. now left.
    - now apply (IH q). }
  intros w a b [A [->|(p & ->)]] [B [E|(q & E)]]; cbn [app] in *.
  - assumption.
  - subst a. exfalso. apply A. apply in_app_iff. right. now left.
  - subst b. exfalso. apply B. apply in_app_iff. right. now left.
  - now apply (G p q).
Qed.
Lemma dropped_mem : forall n w, ~ In 32 w -> n <> Generic -> (sset_mem w (name_prefixes n) = true <-> dropped n w).
Proof.
  intros n w N G. rewrite sset_mem_In. destruct n; [reflexivity|congruence|]. cbn [name_prefixes dropped]. unfold particles. cbn [app In].
  split; intros H; repeat (destruct H as [<-|H]; [first [tauto|exfalso; apply N; cbv; tauto]|]); destruct H.
Qed.
Lemma words2_kept : forall n ws ks, (forall w, In w ws -> ~ In 32 w) -> (words2 n ws = ks <-> kept n ws ks).
Proof.
  assert (Q : forall n w, kept_as n w (match n with Sephardic => last (split_on (# "'") w) [] | _ => w end)).
  { intros []; cbn; try reflexivity. apply last_split. }
  assert (U : forall n w a b, kept_as n w a -> kept_as n w b -> a = b).
  { intros []; cbn; intros; try congruence. eapply after_quote_unique; eassumption. }
  assert (D : forall n w s, kept_as n w s -> ~ In 32 w -> (match n with Generic => true | _ => negb (sset_mem s (name_prefixes n)) end = false <-> dropped n s)).
  { intros n w s K N. assert (N' : ~ In 32 s).
    { destruct n; cbn in K; [now subst|now subst|]. destruct K as [_ [->|(p & ->)]]; [assumption|]. intros I. apply N. apply in_app_iff. right. now right. }
    destruct n; [|split; [discriminate|intros []]|]; rewrite negb_false_iff; apply dropped_mem; (assumption || discriminate). }
  intros n. induction ws as [|w ws IH]; intros ks H.
  - cbn. split; [intros <-; constructor|intros K; now inversion K].
  - assert (H' : forall v, In v ws -> ~ In 32 v) by (intros v Hv; apply H; now right).
    specialize (fun k => IH k H'). pose proof (H w (or_introl eq_refl)) as N.
    set (s := match n with Sephardic => last (split_on (# "'") w) [] | _ => w end).
    pose proof (D n w s (Q n w) N) as Ds.
    assert (E0 : words2 n (w :: ws) = if match n with Generic => true | _ => negb (sset_mem s (name_prefixes n)) end then s :: words2 n ws else words2 n ws)
      by reflexivity. rewrite E0. clear E0.
    destruct (match n with Generic => true | _ => negb (sset_mem s (name_prefixes n)) end) eqn:E; cbv beta.
    + split.
      * intros <-. apply kp_keep; [apply Q| |now apply IH]. intros K. apply Ds in K. discriminate.
      * intros K. inversion K; subst.
        -- assert (s0 = s) as -> by (eapply U; [eassumption|apply Q]). f_equal. now apply IH.
        -- assert (s0 = s) as -> by (eapply U; [eassumption|apply Q]). match goal with X : dropped n s |- _ => apply Ds in X; discriminate end.
    + split.
      * intros E'. apply kp_drop with s; [apply Q|now apply Ds|now apply IH].
      * intros K. inversion K; subst.
        -- assert (s0 = s) as -> by (eapply U; [eassumption|apply Q]). match goal with X : ~ dropped n s |- _ => destruct X; now apply Ds end.
        -- now apply IH.
Qed.

(** ** Tables *)
Lemma language_used_iff : forall L l, language_used L l <-> rules_language L = l.
Proof.
  intros L l. unfold language_used, rules_language, ls_is_singleton, ls_any. split.
  - intros [->|[-> H]]; [reflexivity|]. destruct L as [| |ls]; try reflexivity. destruct ls as [|x [|y ls]]; try reflexivity. now destruct (H x).
  - intros <-. destruct L as [| |ls]; try (right; split; [reflexivity|intros x; discriminate]).
    destruct ls as [|x [|y ls]]; cbn; [right; split; [reflexivity|intros; discriminate]|now left|right; split; [reflexivity|intros; discriminate]].
Qed.
Lemma tables_iff : forall e L a b d, tables e L a b d <->
  rules_get (pe_rules e) (pe_name_type e, Rules_, rules_language L) = Some a
  /\ rules_get (pe_rules e) (pe_name_type e, pe_rule_type e, $ "common") = Some b
  /\ rules_get (pe_rules e) (pe_name_type e, pe_rule_type e, rules_language L) = Some d.
Proof.
  intros. unfold tables. split.
  - intros (l & H & K). apply language_used_iff in H. now subst l.
  - intros K. exists (rules_language L). split; [now apply language_used_iff|assumption].
Qed.
Definition tables_ok (e : PhoneticEngine) : Prop := forall k m, rules_get (pe_rules e) k = Some m -> table_ok m.

Section Engine.
Variable u : Unicode.
Variable rx : RegexEngine.
Hypothesis L : LowerOK u.

Lemma map_res_Forall2 : forall (f : ustr -> res ustr) ws cs, map_res f ws = Ok cs <-> Forall2 (fun w c => f w = Ok c) ws cs.
Proof.
  intros f. induction ws as [|w ws IH]; intros cs; cbn [map_res].
  - split; [intros H; apply Ok_inj in H; subst; constructor|intros H; now inversion H].
  - split.
    + intros H. destruct (f w) as [c| |] eqn:E; try discriminate. cbn [bind] in H. destruct (map_res f ws) as [r| |] eqn:F; try discriminate.
      cbn [bind] in H. apply Ok_inj in H. subst. constructor; [assumption|now apply IH].
    + intros H. inversion H as [|x y l l' H1 H2]; subst. rewrite H1. cbn [bind]. apply IH in H2. now rewrite H2.
Qed.
Lemma Forall2_ext_in : forall (A B : Type) (P Q : A -> B -> Prop) l m, (forall a b, In a l -> (P a b <-> Q a b)) ->
  (Forall2 P l m <-> Forall2 Q l m).
Proof.
  intros A B P Q. induction l as [|x l IH]; intros m H.
  - split; intros K; inversion K; constructor.
  - split; intros K; inversion K; subst; constructor; try (apply (H x); [now left|assumption]);
      (apply IH; [intros a b' I; apply H; now right|assumption]).
Qed.
Lemma encode_text_code : forall e LS text code, tables_ok e ->
  (text_code rx e LS text code <->
   (a <- unwrap (rules_get (pe_rules e) (pe_name_type e, Rules_, rules_language LS)) ;;
    b <- unwrap (rules_get (pe_rules e) (pe_name_type e, pe_rule_type e, $ "common")) ;;
    d <- unwrap (rules_get (pe_rules e) (pe_name_type e, pe_rule_type e, rules_language LS)) ;;
    encode_text rx e a b d LS text) = Ok code).
Proof.
  intros e LS text code T. split.
  - intros (a & b & d & w & H & W & ->). apply tables_iff in H as (H1 & H2 & H3). rewrite H1, H2, H3. cbn [unwrap bind].
    destruct (encode_text_spec rx e a b d LS text) as (w' & E & W'); eauto. rewrite E.
    now rewrite (word_phonemes_unique _ _ _ _ _ _ _ _ _ W W').
  - destruct (rules_get _ (_, Rules_, _)) as [a|] eqn:H1; [|discriminate]. destruct (rules_get _ (_, _, $ "common")) as [b|] eqn:H2; [|discriminate].
    destruct (rules_get _ (_, pe_rule_type e, rules_language LS)) as [d|] eqn:H3; [|discriminate]. cbn [unwrap bind].
    destruct (encode_text_spec rx e a b d LS text) as (w' & E & W'); eauto. rewrite E. intros K. apply Ok_inj in K. subst code.
    exists a, b, d, w'. split; [now apply tables_iff|]. now split.
Qed.

Theorem engine_computes : forall e, tables_ok e -> forall v LS code,
  bm_encode_with_languages u rx e v LS = Ok code <-> name_code u rx e LS v code.
Proof.
  intros e T. apply (part_induction u (fun v => forall LS code, bm_encode_with_languages u rx e v LS = Ok code <-> name_code u rx e LS v code)).
  intros v IH LS code. rewrite (encode_equation u rx L). unfold level. cbv zeta. rewrite prepared_looked_at.
  assert (PL : forall c r, prefixed (pe_name_type e) (looked_at u v) c r -> part u v c /\ part u v r).
  { intros c r H. apply generic_prefix_prefixed in H. apply generic_prefix_shorter in H as (G1 & G2 & G3 & G4).
    rewrite <- prepared_looked_at in *. split; (split; [eapply lowered_incl; [eassumption|now apply prepared_lowered]|assumption]). }
  assert (PW : forall ws w, words_of u (looked_at u v) ws -> length ws <> 1%nat -> In w ws -> part u v w).
  { intros ws w H N I. apply words_of_split in H. subst ws. rewrite <- prepared_looked_at in *. split; [|now apply words_shorter with u].
    intros c Hc. apply (prepared_lowered u L v). eapply words_chars; eassumption. }
  assert (NS : forall ws w, words_of u (looked_at u v) ws -> In w ws -> ~ In 32 w).
  { intros ws w H I K. apply (words_of_chars _ _ _ _ _ H I) in K. now rewrite space_ws in K. }
  split.
  - intros H. destruct (rules_get _ (_, Rules_, _)) as [a|] eqn:H1; [|discriminate]. destruct (rules_get _ (_, _, $ "common")) as [b|] eqn:H2; [|discriminate].
    destruct (rules_get _ (_, pe_rule_type e, rules_language LS)) as [d|] eqn:H3; [|discriminate]. cbn [unwrap bind] in H.
    assert (TB : tables e LS a b d) by now apply tables_iff.
    destruct (generic_prefix (pe_name_type e) (looked_at u v)) as [[c r]|] eqn:G.
    + apply generic_prefix_prefixed in G. destruct (PL _ _ G) as [P1 P2]. unfold bm_encode in H.
      destruct (bm_encode_with_languages u rx e c _) as [cc| |] eqn:E1; try discriminate. cbn [bind] in H.
      destruct (bm_encode_with_languages u rx e r _) as [rc| |] eqn:E2; try discriminate. cbn [bind] in H.
      apply Ok_inj in H. subst code. apply nc_prefixed with c r; [now exists a, b, d|assumption|now apply IH|now apply IH].
    + pose proof (proj1 (not_prefixed _ _) G) as NP. pose proof (split_words_of u (looked_at u v)) as W. destruct (pe_concat e) eqn:C; cbn [negb andb bind] in H.
      * apply nc_concat with (split_whitespace u (looked_at u v)) (words2 (pe_name_type e) (split_whitespace u (looked_at u v))); try assumption.
        -- apply words2_kept; [|reflexivity]. intros w I. now apply (NS _ w W).
        -- apply encode_text_code; [assumption|]. rewrite H1, H2, H3. assumption.
      * destruct (Nat.eqb_spec (length (split_whitespace u (looked_at u v))) 1) as [E|E]; cbn [negb] in H.
        -- destruct (split_whitespace u (looked_at u v)) as [|w [|x ws]] eqn:EW; try discriminate. cbn [hd_error unwrap bind] in H.
           apply nc_one_word with w; try assumption. apply encode_text_code; [assumption|]. rewrite H1, H2, H3. assumption.
        -- destruct (map_res _ _) as [cs| |] eqn:M; try discriminate. cbn [bind] in H. apply Ok_inj in H. subst code.
           apply nc_words with (split_whitespace u (looked_at u v)); try assumption; [now exists a, b, d|].
           apply map_res_Forall2 in M. eapply Forall2_ext_in; [|exact M]. intros w x I. unfold bm_encode. symmetry. apply IH. now apply (PW _ w W).
  - intros H.
    assert (TT : forall a b d, tables e LS a b d -> rules_get (pe_rules e) (pe_name_type e, Rules_, rules_language LS) = Some a
      /\ rules_get (pe_rules e) (pe_name_type e, pe_rule_type e, $ "common") = Some b
      /\ rules_get (pe_rules e) (pe_name_type e, pe_rule_type e, rules_language LS) = Some d) by (intros a b d; apply tables_iff).
    inversion H as [LS' v' c r cc rc (a & b & d & TB) P N1 N2|LS' v' ws cs (a & b & d & TB) P C W N F|LS' v' w code' P C W X|LS' v' ws ks code' P C W K X]; subst.
    + destruct (TT _ _ _ TB) as (-> & -> & ->). cbn [unwrap bind]. destruct (PL _ _ P) as [P1 P2].
      rewrite (proj2 (generic_prefix_prefixed _ _ _ _) P). unfold bm_encode.
      apply (proj2 (IH c P1 _ _)) in N1. apply (proj2 (IH r P2 _ _)) in N2. rewrite N1. cbn [bind]. rewrite N2. reflexivity.
    + destruct (TT _ _ _ TB) as (-> & -> & ->). cbn [unwrap bind]. rewrite (proj2 (not_prefixed _ _) P). rewrite (words_of_split _ _ _ W), C.
      apply Nat.eqb_neq in N. rewrite N. cbn [negb andb]. apply Nat.eqb_neq in N.
      assert (M : map_res (bm_encode u rx e) ws = Ok cs).
      { apply map_res_Forall2. eapply Forall2_ext_in; [|exact F]. intros w x I. unfold bm_encode. apply IH. now apply (PW _ w W). }
      rewrite M. reflexivity.
    + apply encode_text_code in X; [|assumption]. destruct (rules_get _ (_, Rules_, _)) as [a|]; [|discriminate]. destruct (rules_get _ (_, _, $ "common")) as [b|]; [|discriminate].
      destruct (rules_get _ (_, pe_rule_type e, rules_language LS)) as [d|]; [|discriminate]. cbn [unwrap bind] in *.
      rewrite (proj2 (not_prefixed _ _) P), (words_of_split _ _ _ W), C. exact X.
    + apply encode_text_code in X; [|assumption]. destruct (rules_get _ (_, Rules_, _)) as [a|]; [|discriminate]. destruct (rules_get _ (_, _, $ "common")) as [b|]; [|discriminate].
      destruct (rules_get _ (_, pe_rule_type e, rules_language LS)) as [d|]; [|discriminate]. cbn [unwrap bind] in *.
      rewrite (proj2 (not_prefixed _ _) P), (words_of_split _ _ _ W), C. cbn [negb andb bind].
      apply words2_kept in K; [now rewrite K|]. intros w I. now apply (NS _ w W).
Qed.

(** An encoding ends with a code or with a panic. *)
Theorem engine_ends : forall e, tables_ok e -> forall v LS, bm_encode_with_languages u rx e v LS <> NoFuel.
Proof.
  intros e T. apply (part_induction u (fun v => forall LS, bm_encode_with_languages u rx e v LS <> NoFuel)).
  intros v IH LS. rewrite (encode_equation u rx L). unfold level. cbv zeta.
  destruct (rules_get _ (_, Rules_, _)) as [a|] eqn:H1; [|discriminate]. destruct (rules_get _ (_, _, $ "common")) as [b|] eqn:H2; [|discriminate].
  destruct (rules_get _ (_, pe_rule_type e, rules_language LS)) as [d|] eqn:H3; [|discriminate]. cbn [unwrap bind].
  destruct (generic_prefix (pe_name_type e) (prepared u v)) as [[c r]|] eqn:G.
  - apply generic_prefix_shorter in G as (G1 & G2 & G3 & G4). unfold bm_encode.
    destruct (bm_encode_with_languages u rx e c _) eqn:E1; [cbn [bind]|discriminate|].
    + destruct (bm_encode_with_languages u rx e r _) eqn:E2; [discriminate|discriminate|]. exfalso. eapply (IH r); [|exact E2].
      split; [eapply lowered_incl; [eassumption|now apply prepared_lowered]|assumption].
    + exfalso. eapply (IH c); [|exact E1]. split; [eapply lowered_incl; [eassumption|now apply prepared_lowered]|assumption].
  - assert (X : forall text, encode_text rx e a b d LS text <> NoFuel).
    { intros text. destruct (encode_text_spec rx e a b d LS text) as (w' & E & W'); eauto. rewrite E. discriminate. }
    destruct (pe_concat e); cbn [negb andb bind]; [apply X|].
    destruct (Nat.eqb_spec (length (split_whitespace u (prepared u v))) 1) as [E|E]; cbn [negb].
    + destruct (hd_error _); [apply X|discriminate].
    + assert (M : forall ws, (forall w, In w ws -> part u v w) -> map_res (bm_encode u rx e) ws <> NoFuel).
      { induction ws as [|w ws IHw]; intros P; [discriminate|]. cbn [map_res]. unfold bm_encode at 1. pose proof (IH w (P w (or_introl eq_refl)) (guess_languages u rx (pe_lang e) w)) as Q.
        destruct (bm_encode_with_languages u rx e w _) eqn:EE; [cbn [bind]|discriminate|congruence].
        assert (IHw' := IHw (fun x Hx => P x (or_intror Hx))). destruct (map_res (bm_encode u rx e) ws); [discriminate|discriminate|congruence]. }
      destruct (map_res _ _) eqn:EE; [discriminate|discriminate|]. exfalso. eapply M; [|exact EE]. intros w I.
      split; [|now apply words_shorter with u]. intros x Hx. apply (prepared_lowered u L v). eapply words_chars; eassumption.
Qed.
End Engine.
