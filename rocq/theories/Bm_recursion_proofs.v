(** * Beider-Morse: the recursion over prefixes and words. *)
From Verif Require Import Base UnicodeM Lib Helper RulesParser DaitchMokotoff BmLanguages BmRegex BmRule BmEngine
  BaseLemmas Spec_common Lib_proofs Soundex_proofs UnicodeLemmas Cologne_proofs Dm_proofs Spec_bm Bm_set_proofs Spec_bm_engine Bm_engine_proofs.
Local Open Scope N_scope.

(** ** Lowercase texts *)
Definition lowered (u : Unicode) (s : ustr) : Prop := forall c, In c s -> to_lower u c = [c] /\ c <> 931.
Lemma lowered_fixed : forall u s, lowered u s -> str_lower u s = s.
Proof.
  intros u s H. unfold str_lower. rewrite str_lower_no_sigma.
  - induction s as [|c s IH]; [reflexivity|]. cbn [flat_map]. destruct (H c (or_introl eq_refl)) as [-> _]. cbn [app]. f_equal.
    apply IH. intros x Hx. apply H. now right.
  - intros K. now destruct (H _ K).
Qed.
Lemma str_lower_lowered : forall u s, LowerOK u -> lowered u (str_lower u s).
Proof.
  intros u s (L & L1 & L2). unfold str_lower. generalize (@nil N) as b. induction s as [|c s IH]; intros b x H; [destruct H|].
  cbn [str_lower_aux] in H. apply in_app_iff in H as [H|H]; [|now apply IH in H].
  destruct (c =? 931); [|now apply L in H]. destruct (_ && _) in H; destruct H as [<-|[]]; split; auto; discriminate.
Qed.
Lemma ascii_lowered : forall u c, c < 128 -> is_ascii_upper c = false -> to_lower u c = [c] /\ c <> 931.
Proof. intros u c H U. rewrite to_lower_ascii by assumption. unfold ascii_low. rewrite U. split; [reflexivity|lia]. Qed.
Definition hyphens (s : ustr) : ustr := replace $ "-" $ " " s.
Lemma hyphens_map : forall s, hyphens s = map (fun c => if c =? # "-" then # " " else c) s.
Proof. intros s. apply replace1_map. Qed.
Lemma hyphens_lowered : forall u s, lowered u s -> lowered u (hyphens s).
Proof.
  intros u s H c K. rewrite hyphens_map in K. apply in_map_iff in K as (x & <- & Hx). destruct (x =? # "-"); [|auto].
  now apply ascii_lowered.
Qed.
Lemma hyphens_length : forall s, length (hyphens s) = length s.
Proof. intros s. rewrite hyphens_map. apply map_length. Qed.

(** ** Splitting into words *)
Definition total (l : list ustr) : nat := fold_right (fun w n => (length w + n)%nat) 0%nat l.
Lemma split_ws_total : forall u s cur,
  (total (split_ws_aux u cur s) + (length (split_ws_aux u cur s) - 1) <= length cur + length s)%nat.
Proof.
  intros u. induction s as [|c s IH]; intros cur; cbn [split_ws_aux].
  - destruct cur as [|x cur]; cbn [total fold_right length]; rewrite ?rev_length; cbn [length]; lia.
  - destruct (is_whitespace u c).
    + destruct cur as [|x cur]; [specialize (IH []); cbn [length] in *; lia|].
      specialize (IH []). set (W := split_ws_aux u [] s) in *. cbn [total fold_right length]. fold (total W). rewrite rev_length. cbn [length] in *.
      destruct W as [|w W]; cbn [length total fold_right] in *; lia.
    + specialize (IH (c :: cur)). cbn [length] in *. lia.
Qed.
Lemma total_In : forall l w, In w l -> (length w <= total l)%nat.
Proof. induction l as [|x l IH]; intros w H; [destruct H|]. cbn [total fold_right]. fold (total l). destruct H as [->|H]; [lia|]. apply IH in H. lia. Qed.
Lemma words_shorter : forall u s w, In w (split_whitespace u s) -> length (split_whitespace u s) <> 1%nat ->
  (length w < length s)%nat.
Proof.
  intros u s w H N. unfold split_whitespace in *. pose proof (split_ws_total u s []) as T. apply total_In in H as L. cbn [length] in T.
  destruct (split_ws_aux u [] s) as [|x [|y W]]; [destruct H|now elim N|]. cbn [length] in T. lia.
Qed.
Lemma split_ws_In : forall u s cur w c, In w (split_ws_aux u cur s) -> In c w -> In c cur \/ In c s.
Proof.
  intros u. induction s as [|x s IH]; intros cur w c H K; cbn [split_ws_aux] in H.
  - destruct cur as [|y cur]; [destruct H|]. destruct H as [<-|[]]. left. now apply in_rev in K.
  - destruct (is_whitespace u x).
    + destruct cur as [|y cur].
      * destruct (IH _ _ _ H K) as [[]|H']. right. now right.
      * destruct H as [<-|H]; [left; now apply in_rev in K|]. destruct (IH _ _ _ H K) as [[]|H']. right. now right.
    + destruct (IH _ _ _ H K) as [[->|H']|H']; [right; now left|now left|right; now right].
Qed.
Lemma words_chars : forall u s w c, In w (split_whitespace u s) -> In c w -> In c s.
Proof. intros u s w c H K. destruct (split_ws_In u s [] w c H K) as [[]|]. assumption. Qed.
Lemma words_nonempty : forall u s w, In w (split_whitespace u s) -> w <> [].
Proof.
  intros u. unfold split_whitespace. assert (G : forall s cur w, In w (split_ws_aux u cur s) -> w <> []).
  { induction s as [|x s IH]; intros cur w H; cbn [split_ws_aux] in H.
    - destruct cur as [|y cur]; [destruct H|]. destruct H as [<-|[]]. cbn. intros C. apply app_eq_nil in C as [_ C]. discriminate.
    - destruct (is_whitespace u x); [|eauto]. destruct cur as [|y cur]; [eauto|]. destruct H as [<-|H]; [|eauto].
      cbn. intros C. apply app_eq_nil in C as [_ C]. discriminate. }
  intros s w. apply G.
Qed.

(** ** Prefixes *)
Lemma find_prefix_spec : forall l input p r, find_prefix l input = Some (p, r) -> In p l /\ input = p ++ $ " " ++ r.
Proof.
  induction l as [|q l IH]; intros input p r H; cbn [find_prefix] in H; [discriminate|].
  destruct (strip_prefix (q ++ $ " ") input) as [rem|] eqn:E.
  - injection H as <- <-. apply strip_prefix_spec in E. split; [now left|]. now rewrite <- app_assoc in E.
  - apply IH in H as [H1 H2]. split; [now right|assumption].
Qed.
Lemma generic_prefix_spec : forall n input c r, generic_prefix n input = Some (c, r) ->
  n = Generic /\ ((c = $ "d" ++ r /\ input = $ "d'" ++ r)
                  \/ exists p, In p (name_prefixes Generic) /\ c = p ++ r /\ input = p ++ $ " " ++ r).
Proof.
  intros n input c r H. unfold generic_prefix in H. destruct n; try discriminate. split; [reflexivity|].
  destruct (strip_prefix $ "d'" input) as [rem|] eqn:E.
  - injection H as <- <-. apply strip_prefix_spec in E. now left.
  - right. destruct (find_prefix (name_prefixes Generic) input) as [[p rem]|] eqn:F; [|discriminate]. injection H as <- <-.
    apply find_prefix_spec in F as [F1 F2]. now exists p.
Qed.
Lemma generic_prefix_shorter : forall n input c r, generic_prefix n input = Some (c, r) ->
  (length c < length input)%nat /\ (length r < length input)%nat /\ incl c input /\ incl r input.
Proof.
  intros n input c r H. apply generic_prefix_spec in H as [_ [[-> ->]|(p & _ & -> & ->)]].
  - rewrite !app_length. cbn [length]. split; [lia|]. split; [lia|]. split.
    + intros x [<-|H]; [now left|]. right. now right.
    + intros x H. right. now right.
  - rewrite !app_length. cbn [length]. split; [lia|]. split; [lia|]. split.
    + intros x H. apply in_app_iff in H as [H|H]; apply in_app_iff; [now left|]. right. now right.
    + intros x H. apply in_app_iff. right. now right.
Qed.
Lemma lowered_incl : forall u a b, incl a b -> lowered u b -> lowered u a.
Proof. intros u a b I H c K. apply H. now apply I. Qed.

Section Recursion.
Variable u : Unicode.
Variable rx : RegexEngine.
Hypothesis L : LowerOK u.

Definition prepared (value : ustr) : ustr := hyphens (str_lower u value).
Lemma prepared_lowered : forall v, lowered u (prepared v).
Proof. intros v. apply hyphens_lowered. now apply str_lower_lowered. Qed.
Lemma prepared_length : forall v, length (prepared v) = length (str_lower u v).
Proof. intros. apply hyphens_length. Qed.

(** One level of the recursion; [enc] encodes the parts. *)
Definition level (e : PhoneticEngine) (enc : ustr -> res ustr) (input : ustr) (languages : LanguageSet) : res ustr :=
  let l := rules_language languages in
  rules <- unwrap (rules_get (pe_rules e) (pe_name_type e, Rules_, l)) ;;
  final1 <- unwrap (rules_get (pe_rules e) (pe_name_type e, pe_rule_type e, $ "common")) ;;
  final2 <- unwrap (rules_get (pe_rules e) (pe_name_type e, pe_rule_type e, l)) ;;
  let input := prepared input in
  match generic_prefix (pe_name_type e) input with
  | Some (combined, remainder) =>
      c <- enc combined ;;
      r <- enc remainder ;;
      Ok ($ "(" ++ r ++ $ ")-(" ++ c ++ $ ")")
  | None =>
      let words := split_whitespace u input in
      if negb (pe_concat e) && negb (Nat.eqb (length words) 1) then
        codes <- map_res enc words ;;
        Ok (join $ "-" codes)
      else
        text <- (if pe_concat e then Ok (join $ " " (words2 (pe_name_type e) words))
                 else unwrap (hd_error words)) ;;
        encode_text rx e rules final1 final2 languages text
  end.
Lemma level_S : forall f e i l, encode_with_language_set u rx (S f) e i l
  = level e (fun s => encode_with_language_set u rx f e s (guess_languages u rx (pe_lang e) s)) i l.
Proof. reflexivity. Qed.
Lemma map_res_ext : forall (f g : ustr -> res ustr) l, (forall x, In x l -> f x = g x) -> map_res f l = map_res g l.
Proof.
  intros f g. induction l as [|x l IH]; intros H; [reflexivity|]. cbn [map_res]. rewrite (H x (or_introl eq_refl)).
  rewrite IH; [reflexivity|]. intros y Hy. apply H. now right.
Qed.
Definition part (value s : ustr) : Prop := lowered u s /\ (length s < length (prepared value))%nat.
Lemma level_ext : forall e f g i l, (forall s, part i s -> f s = g s) -> level e f i l = level e g i l.
Proof.
  intros e f g i l H. unfold level. destruct (rules_get _ (_, Rules_, _)) as [r0|]; [|reflexivity].
  destruct (rules_get _ (_, _, $ "common")) as [r1|]; [|reflexivity]. destruct (rules_get _ (_, pe_rule_type e, rules_language l)) as [r2|]; [|reflexivity].
  cbn [unwrap bind]. cbv zeta. destruct (generic_prefix (pe_name_type e) (prepared i)) as [[c r]|] eqn:G.
  - apply generic_prefix_shorter in G as (G1 & G2 & G3 & G4).
    rewrite (H c), (H r); [reflexivity| |]; (split; [eapply lowered_incl; [eassumption|apply prepared_lowered]|assumption]).
  - destruct (negb (pe_concat e)); cbn [andb]; [|reflexivity].
    destruct (Nat.eqb (length (split_whitespace u (prepared i))) 1) eqn:E; cbn [negb]; [reflexivity|]. apply Nat.eqb_neq in E.
    erewrite map_res_ext; [reflexivity|]. intros w Hw. apply H. split; [|now apply words_shorter with u].
    intros c Hc. apply (prepared_lowered i). eapply words_chars; eassumption.
Qed.
Lemma part_lower : forall i s, part i s -> (length (str_lower u s) < length (str_lower u i))%nat.
Proof. intros i s [H1 H2]. rewrite lowered_fixed by assumption. now rewrite prepared_length in H2. Qed.
Lemma fuel_irrelevant : forall f1 f2 e i l, (length (str_lower u i) < f1)%nat -> (length (str_lower u i) < f2)%nat ->
  encode_with_language_set u rx f1 e i l = encode_with_language_set u rx f2 e i l.
Proof.
  induction f1 as [|f1 IH]; intros f2 e i l H1 H2; [lia|]. destruct f2 as [|f2]; [lia|]. rewrite !level_S.
  apply level_ext. intros s P. apply part_lower in P. apply IH; lia.
Qed.
(** The recursion equation. *)
Lemma encode_equation : forall e i l, bm_encode_with_languages u rx e i l = level e (bm_encode u rx e) i l.
Proof.
  intros e i l. unfold bm_encode_with_languages, engine_fuel. rewrite level_S. apply level_ext.
  intros s P. apply part_lower in P. unfold bm_encode, bm_encode_with_languages, engine_fuel. apply fuel_irrelevant; lia.
Qed.

(** Induction over the parts of a value. *)
Lemma part_induction : forall (P : ustr -> Prop), (forall i, (forall s, part i s -> P s) -> P i) -> forall i, P i.
Proof.
  intros P H. assert (G : forall n i, (length (str_lower u i) < n)%nat -> P i).
  { induction n as [|n IH]; intros i Hi; [lia|]. apply H. intros s K. apply IH. apply part_lower in K. lia. }
  intros i. apply (G (S (length (str_lower u i)))). lia.
Qed.

(** ** Totality *)
Definition tables_for (e : PhoneticEngine) (l : ustr) : Prop :=
  exists r f1 f2, rules_get (pe_rules e) (pe_name_type e, Rules_, l) = Some r
    /\ rules_get (pe_rules e) (pe_name_type e, pe_rule_type e, $ "common") = Some f1
    /\ rules_get (pe_rules e) (pe_name_type e, pe_rule_type e, l) = Some f2
    /\ table_ok r /\ table_ok f1 /\ table_ok f2.
Lemma map_res_total : forall (f : ustr -> res ustr) l, (forall x, In x l -> exists r, f x = Ok r) ->
  exists rs, map_res f l = Ok rs /\ length rs = length l.
Proof.
  intros f. induction l as [|x l IH]; intros H; [now exists []|]. cbn [map_res].
  destruct (H x (or_introl eq_refl)) as (r & E). rewrite E. cbn [bind].
  destruct IH as (rs & E' & Ln); [intros y Hy; apply H; now right|]. rewrite E'. cbn [bind]. exists (r :: rs). split; [reflexivity|]. cbn. lia.
Qed.
Lemma level_total : forall e enc i l, tables_for e (rules_language l) ->
  (forall s, part i s -> exists r, enc s = Ok r) -> exists r, level e enc i l = Ok r.
Proof.
  intros e enc i l (r0 & r1 & r2 & E0 & E1 & E2 & T0 & T1 & T2) H. unfold level. rewrite E0, E1, E2. cbn [unwrap bind]. cbv zeta.
  destruct (generic_prefix (pe_name_type e) (prepared i)) as [[c r]|] eqn:G.
  - apply generic_prefix_shorter in G as (G1 & G2 & G3 & G4).
    destruct (H c) as (x & ->); [split; [eapply lowered_incl; [eassumption|apply prepared_lowered]|assumption]|].
    destruct (H r) as (y & ->); [split; [eapply lowered_incl; [eassumption|apply prepared_lowered]|assumption]|].
    cbn [bind]. eexists. reflexivity.
  - destruct (pe_concat e) eqn:C; cbn [negb andb].
    + cbn [bind]. destruct (encode_text_spec rx e r0 r1 r2 l (join $ " " (words2 (pe_name_type e) (split_whitespace u (prepared i)))) T0 T1 T2) as (b & E & _).
      rewrite E. eexists. reflexivity.
    + destruct (Nat.eqb (length (split_whitespace u (prepared i))) 1) eqn:E; cbn [negb].
      * destruct (split_whitespace u (prepared i)) as [|w ws]; [discriminate|]. cbn [hd_error unwrap bind].
        destruct (encode_text_spec rx e r0 r1 r2 l w T0 T1 T2) as (b & EE & _). rewrite EE. eexists. reflexivity.
      * apply Nat.eqb_neq in E. destruct (map_res_total enc (split_whitespace u (prepared i))) as (rs & EE & _).
        -- intros w Hw. apply H. split; [|now apply words_shorter with u].
           intros x Hx. apply (prepared_lowered i). eapply words_chars; eassumption.
        -- rewrite EE. cbn [bind]. eexists. reflexivity.
Qed.
Definition engine_ok (e : PhoneticEngine) : Prop :=
  tables_for e $ "any" /\ forall l, In l (lang_languages (pe_lang e)) -> tables_for e l.
Lemma guessed_tables : forall e s, engine_ok e -> tables_for e (rules_language (guess_languages u rx (pe_lang e) s)).
Proof.
  intros e s [A D]. unfold rules_language. destruct (ls_is_singleton _) eqn:S; [|assumption].
  unfold guess_languages in *. cbv zeta in *.
  assert (F : forall x, In x (fold_left (apply_lang_rule rx (str_lower u s)) (lang_rules (pe_lang e)) (lang_languages (pe_lang e))) ->
              In x (lang_languages (pe_lang e))).
  { generalize (lang_rules (pe_lang e)) as rs. generalize (lang_languages (pe_lang e)) as ls. intros ls rs. revert ls.
    induction rs as [|r rs IH]; intros ls x H; [assumption|]. cbn [fold_left] in H. apply IH in H. unfold apply_lang_rule in H.
    destruct (rx_match _ _ _); [|assumption]. destruct (lr_accept_on_match r); [apply sset_inter_In in H|apply sset_diff_In in H]; tauto. }
  destruct (fold_left _ _ _) as [|y ys]; [discriminate|]. cbn [ls_of_set ls_any hd_error]. apply D. apply F. now left.
Qed.
Lemma encode_total : forall e, engine_ok e -> forall v, exists r, bm_encode u rx e v = Ok r.
Proof.
  intros e O. apply part_induction. intros v IH. unfold bm_encode. rewrite encode_equation.
  apply level_total; [now apply guessed_tables|exact IH].
Qed.
Lemma encode_with_languages_total : forall e v l, engine_ok e -> tables_for e (rules_language l) ->
  exists r, bm_encode_with_languages u rx e v l = Ok r.
Proof.
  intros e v l O T. rewrite encode_equation. apply level_total; [assumption|]. intros s _. now apply encode_total.
Qed.
End Recursion.
