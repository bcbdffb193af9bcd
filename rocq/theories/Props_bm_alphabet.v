(** * C61, C83: the characters of a Beider-Morse code. *)
From Verif Require Import Base UnicodeM Lib RulesParser DaitchMokotoff BmLanguages BmRegex BmRule BmEngine BmEmbedded BmDefault MiniRegex UnicodeReal BaseLemmas
  Dm_proofs Spec_bm Spec_bm_engine Bm_engine_proofs Bm_recursion_proofs Spec_bm_file Bm_config_proofs Spec_bm_name Bm_name_proofs Props_bm_engine Props_bm_config
  Spec_bm_all Bm_all_proofs Props_bm_all Bm_standard_proofs Bm_depth_proofs Props_bm_standard Spec_bm_alphabet.
Local Open Scope N_scope.

Lemma final_scan_remains : forall rx rules max t i b b', final_scan rx rules max t i b b' ->
  let P c := writes rules c \/ (~ always_rewrites rx rules c /\ In c t) in
  (forall p c, In p b -> In c (ph_text p) -> P c) -> forall p c, In p b' -> In c (ph_text p) -> P c.
Proof.
  intros rx rules max t i b b' H P. induction H as [i b H|i b r b1 b' H1 H2 H3 H4 IH|i b x bk b' H1 H2 DK H3 IH]; intros B; [assumption| |].
  - apply IH. eapply (combined_chars P); [eassumption|assumption|].
    intros p c A C. left. exact (chosen_chars _ _ _ _ _ _ _ H2 A C).
  - apply IH. intros p c A C. apply distinct_of_iff in DK. subst bk. apply pset_of_list_In in A. apply in_map_iff in A as (q & <- & A). cbn [ph_text] in C.
    apply in_app_iff in C as [C|[<-|[]]]; [now apply (B q)|]. right. split; [|now apply nth_error_In with i].
    intros (l & r & E & R & Ep & CL & CR). inversion H2 as [|N]; subst. apply (N r).
    + unfold candidates. now rewrite H1, E.
    + apply nth_error_split in H1 as (bf & af & -> & Lb). exists bf, af. rewrite Ep. split; [reflexivity|]. split; [exact Lb|]. split; [apply CL|apply CR].
Qed.
Lemma final_step_remains : forall rx rules max b b', final_step rx rules max b b' ->
  forall p c, In p b' -> In c (ph_text p) -> writes rules c \/ (~ always_rewrites rx rules c /\ exists q, In q b /\ In c (ph_text q)).
Proof.
  intros rx rules max b b' [[-> ->]|(_ & _ & cs & C & H)] p c I J.
  { right. split; [|now exists p]. intros (l & r & E & _). discriminate E. }
  apply H in I. destruct (proj1 (collected_texts cs (ph_text p)) (ex_intro _ _ I)) as ([LS q] & Hq & E). cbn [snd] in E. rewrite <- E in J.
  clear H I E p. induction C as [|p ps q' cs F C IH]; [destruct Hq|]. apply in_app_iff in Hq as [Hq|Hq].
  - apply in_map_iff in Hq as (z & Z & Hq). injection Z as <- <-.
    destruct (final_scan_remains _ _ _ _ _ _ _ F) with (p := z) (c := c) as [K|[K1 K2]]; try assumption; [intros p0 c0 [<-|[]] []|now left|].
    right. split; [exact K1|]. exists p. split; [now left|assumption].
  - destruct (IH Hq) as [K|[K (z & A & B)]]; [now left|]. right. split; [exact K|]. exists z. split; [now right|assumption].
Qed.
(** A character remains in the code of a word only if the last rules that touch it write it. *)
Theorem C61_remaining : forall rx main f1 f2 max languages text b, word_phonemes rx main f1 f2 max languages text b ->
  forall p c, In p b -> In c (ph_text p) -> remains rx main f1 f2 c.
Proof.
  intros rx main f1 f2 max languages text b (b1 & b2 & A & B & C) p c I J.
  destruct (final_step_remains _ _ _ _ _ C p c I J) as [K|[N2 (q & Q1 & Q2)]]; [now left|]. right. split; [exact N2|].
  destruct (final_step_remains _ _ _ _ _ B q c Q1 Q2) as [K|[N1 (q' & Q3 & Q4)]]; [now left|]. right. split; [exact N1|].
  eapply main_scan_chars; [exact A| |exact Q3|exact Q4]. intros p0 c0 [<-|[]] [].
Qed.

Lemma in_join : forall sep l (x : N), In x (join sep l) -> In x sep \/ exists w, In w l /\ In x w.
Proof.
  intros sep l x. induction l as [|w l IH]; intros H; [destruct H|]. destruct l as [|w' l].
  - right. exists w. split; [now left|exact H].
  - cbn [join] in H. apply in_app_iff in H as [H|H]; [right; exists w; split; [now left|exact H]|].
    apply in_app_iff in H as [H|H]; [now left|]. destruct (IH H) as [K|(z & K1 & K2)]; [now left|]. right. exists z. split; [now right|exact K2].
Qed.
Lemma text_code_chars : forall rx e LS text code, text_code rx e LS text code -> forall x, In x code ->
  x = # "|" \/ exists m f1 f2, tables e LS m f1 f2 /\ remains rx m f1 f2 x.
Proof.
  intros rx e LS text code (m & f1 & f2 & b & T & W & ->) x H. apply in_join in H as [[<-|[]]|(w & Hw & Hx)]; [now left|].
  right. exists m, f1, f2. split; [exact T|]. apply in_map_iff in Hw as (p & <- & Hp). eapply C61_remaining; eassumption.
Qed.
(** The same for the code of a whole value: besides these characters there are only separators. *)
Theorem C61_code_characters : forall u rx e languages v code, name_code u rx e languages v code -> forall x, In x code ->
  In x (separators (pe_name_type e) (pe_concat e))
  \/ exists ls m f1 f2, tables e ls m f1 f2 /\ remains rx m f1 f2 x.
Proof.
  intros u rx e. fix IH 4. intros languages v code H. destruct H as [languages v c r cc rc T P Hc Hr|languages v ws codes T P C W Ln F|languages v w code P C W T|languages v ws ks code P C W K T]; intros x Hx.
  - assert (G : pe_name_type e = Generic) by (inversion P; reflexivity). 
    pose proof (IH _ _ _ Hc x) as I1. pose proof (IH _ _ _ Hr x) as I2. clear IH.
    repeat (apply in_app_iff in Hx as [Hx|Hx]); auto; left; rewrite G.
    all: destruct (pe_concat e); vm_compute in Hx |- *; intuition.
  - assert (IH' : forall x, (exists w, In w codes /\ In x w) -> In x (separators (pe_name_type e) (pe_concat e))
      \/ exists ls m f1 f2, tables e ls m f1 f2 /\ remains rx m f1 f2 x).
    { clear x Hx Ln W. induction F as [|w c ws codes N F IHF]; intros x (z & Hz & Hx); [destruct Hz|]. destruct Hz as [<-|Hz].
      - exact (IH _ _ _ N x Hx).
      - apply IHF. now exists z. }
    clear IH.
    apply in_join in Hx as [[<-|[]]|Hx]; [|now apply IH'].
    left. rewrite C. unfold separators. apply in_app_iff. right. apply in_app_iff. right. now left.
  - clear IH. apply (text_code_chars _ _ _ _ _ T) in Hx as [->|(m & f1 & f2 & A & B)]; [left; now left|right; now exists languages, m, f1, f2].
  - clear IH. apply (text_code_chars _ _ _ _ _ T) in Hx as [->|(m & f1 & f2 & A & B)]; [left; now left|right; now exists languages, m, f1, f2].
Qed.

(** ** The rules in the crate *)
Definition written (m : RuleMap) : ustr := flat_map (fun kv => flat_map (fun r => flat_map ph_text (bm_phoneme r)) (snd kv)) m.
Lemma written_iff : forall m c, writes m c <-> In c (written m).
Proof.
  intros m c. unfold writes, written. rewrite in_flat_map. split.
  - intros (k & l & r & p & A & B & C & D). exists (k, l). split; [exact A|]. apply in_flat_map. exists r. split; [exact B|]. apply in_flat_map. now exists p.
  - intros ([k l] & A & H). apply in_flat_map in H as (r & B & H). apply in_flat_map in H as (p & C & D). now exists k, l, r, p.
Qed.
Definition open_context (c : Context) : bool := match c with COptimized AllStringsMatcher => true | _ => false end.
Definition rewritten (m : RuleMap) (c : N) : bool :=
  match assoc c m with Some l => existsb (fun r => seq_eqb (bm_pattern r) [c] && open_context (bm_left r) && open_context (bm_right r)) l | None => false end.
Lemma rewritten_always : forall rx m c, rewritten m c = true -> always_rewrites rx m c.
Proof.
  intros rx m c H. unfold rewritten in H. destruct (assoc c m) as [l|] eqn:E; [|discriminate]. apply existsb_exists in H as (r & Hr & H).
  apply andb_true_iff in H as [H R]. apply andb_true_iff in H as [H L]. apply seq_eqb_eq in H. exists l, r. split; [exact E|]. split; [exact Hr|]. split; [exact H|].
  destruct (bm_left r) as [|[| | | | | | |]], (bm_right r) as [|[| | | | | | |]]; try discriminate. now split.
Qed.
Definition only_sounds (R : Rules) (n : NameType) (t : RuleType) : bool :=
  match rules_get R (n, Rules_, $ "any"), rules_get R (n, rt_private t, $ "common"), rules_get R (n, rt_private t, $ "any") with
  | Some m, Some f1, Some f2 =>
      forallb (fun c => isin c (sounds n t)) (written f2)
      && forallb (fun c => rewritten f2 c || isin c (sounds n t)) (written f1)
      && forallb (fun c => rewritten f2 c || rewritten f1 c || isin c (sounds n t)) (written m)
  | _, _, _ => false
  end.
Lemma only_sounds_spec : forall rx R n t m f1 f2, only_sounds R n t = true ->
  rules_get R (n, Rules_, $ "any") = Some m -> rules_get R (n, rt_private t, $ "common") = Some f1 -> rules_get R (n, rt_private t, $ "any") = Some f2 ->
  forall c, remains rx m f1 f2 c -> In c (sounds n t).
Proof.
  intros rx R n t m f1 f2 O Em E1 E2 c H. unfold only_sounds in O. rewrite Em, E1, E2 in O.
  apply andb_true_iff in O as [O Om]. apply andb_true_iff in O as [O2 O1]. rewrite forallb_forall in O2, O1, Om.
  destruct H as [H|[N2 [H|[N1 H]]]]; apply written_iff in H.
  - apply isin_In. now apply O2.
  - apply O1 in H. apply orb_true_iff in H as [H|H]; [elim N2; now apply rewritten_always|now apply isin_In].
  - apply Om in H. apply orb_true_iff in H as [H|H]; [|now apply isin_In]. apply orb_true_iff in H as [H|H]; [elim N2|elim N1]; now apply rewritten_always.
Qed.
Definition all_kinds : list (NameType * RuleType) :=
  [(Generic, RtApprox); (Generic, RtExact); (Ashkenazi, RtApprox); (Ashkenazi, RtExact); (Sephardic, RtApprox); (Sephardic, RtExact)].
Lemma all_kinds_In : forall n t, In (n, t) all_kinds.
Proof. intros [| |] [|]; cbn; tauto. Qed.
Lemma default_sounds : forall u c, config_default u plain_engine 2 = Ok c -> forall n t, only_sounds (cf_rules c) n t = true.
Proof.
  intros u c C n t.
  assert (T : match config_default u plain_engine 2 with Ok c => forallb (fun k => only_sounds (cf_rules c) (fst k) (snd k)) all_kinds | _ => true end = true)
    by (vm_compute; reflexivity).
  rewrite C in T. rewrite forallb_forall in T. exact (T (n, t) (all_kinds_In n t)).
Qed.
Lemma default_same : forall u rx depth c, standard rx -> config_default u rx depth = Ok c -> config_default u plain_engine 2 = Ok c.
Proof.
  intros u rx depth c S C. destruct (plain_default_loads u) as [c' P]. rewrite P. f_equal.
  pose proof (proj1 (config_default_ext u plain_engine rx (plain_extended rx S) 2 c' P)) as D.
  assert (D' : config_default u rx (Nat.max 2 depth) = Ok c')
    by (rewrite (config_default_deeper u rx 2); [exact D|apply Nat.le_max_l|rewrite D; discriminate]).
  rewrite (config_default_deeper u rx depth), C in D'; [now apply Ok_inj in D'|apply Nat.le_max_r|rewrite C; discriminate].
Qed.
(** "any" is the only language. *)
Lemma default_language : forall u rx depth c n l m, config_default u rx depth = Ok c -> rules_get (cf_rules c) (n, Rules_, l) = Some m -> l = $ "any".
Proof.
  intros u rx depth c n l m C G1. unfold config_default, rules_default in C.
  destruct (build_rules u rx embedded_resolver depth languages_default) as [[R|e]| |] eqn:ER; try discriminate. cbn [bind] in C. apply Ok_inj in C. subst c. cbn [cf_rules] in G1.
  destruct (build_rules_ok _ _ _ _ _ _ _ _ all_name_types_NoDup ER n) as [D _].
  destruct (D (all_name_types_In _)) as (set & S & K). assert (S' : set = [$ "any"]) by (destruct n; cbn in S; congruence). subst set.
  destruct (list_eq_dec N.eq_dec l ($ "any")) as [|NE]; [assumption|]. rewrite (proj2 (K Rules_ l)) in G1; [discriminate|].
  intros [[Q|[]]|[Q _]]; congruence.
Qed.
(** With the rules in the crate every value has a code, and its characters are these sounds and separators,
    whatever the value and whatever the settings. *)
Theorem C83_alphabet : forall u rx depth c s, LowerOK u -> standard rx -> config_default u rx depth = Ok c ->
  exists e, builder_build (told c s) = Ok e /\ forall v, exists code, bm_encode u rx e v = Ok code
    /\ forall x, In x code -> In x (sounds (s_name_type s) (s_rule_type s)) \/ In x (separators (s_name_type s) (s_concat s)).
Proof.
  intros u rx depth c s L S C. destruct (C51_default u rx L depth (told c s) C) as (e & E & Tot). exists e. split; [exact E|].
  intros v. destruct (Tot v) as (code & K). exists code. split; [exact K|]. intros x Hx.
  pose proof (default_tables_ok u rx depth c s e C E) as TO.
  pose proof (default_sounds u c (default_same u rx depth c S C) (s_name_type s) (s_rule_type s)) as O.
  assert (HE : pe_rules e = cf_rules c /\ pe_name_type e = s_name_type s /\ pe_rule_type e = rt_private (s_rule_type s) /\ pe_concat e = s_concat s).
  { unfold builder_build, told in E. cbn [bb_name_type bb_config bb_rule_type bb_concat bb_max_phonemes] in E.
    destruct (nt_assoc _ _); [|discriminate]. cbn [unwrap bind] in E. apply Ok_inj in E. subst e. cbn. tauto. }
  destruct HE as (E1 & E2 & E3 & E4). apply (C48_encode u rx L e TO) in K.
  apply (C61_code_characters u rx e _ _ _ K) in Hx as [Hx|(ls & m & f1 & f2 & (l & Lu & G1 & G2 & G3) & R)].
  { right. now rewrite E2, E4 in Hx. }
  left. rewrite E1, E2 in *. rewrite E3 in *.
  pose proof (default_language u rx depth c (s_name_type s) l m C G1) as LA.
  subst l. eapply only_sounds_spec; eassumption.
Qed.

(** ** Every one of the sounds occurs *)
Definition words_for (n : NameType) (t : RuleType) : list (ustr * ustr) :=
  match n, t with
  | Generic, RtApprox => [($ "D", $ "ae"); ($ "Q", [252]); ($ "S", $ "c"); ($ "Y", [228]); ($ "a", $ "a"); ($ "b", $ "vg"); ($ "d", $ "zi"); ($ "e", $ "eu"); ($ "f", $ "b"); ($ "g", $ "x"); ($ "i", $ "a"); ($ "j", $ "jnm"); ($ "k", $ "c"); ($ "l", $ "l"); ($ "m", $ "m"); ($ "n", $ "n"); ($ "o", $ "a"); ($ "p", $ "b"); ($ "r", $ "r"); ($ "s", $ "c"); ($ "t", $ "c"); ($ "u", $ "u"); ($ "v", $ "ua"); ($ "w", $ "w"); ($ "x", $ "h"); ($ "z", $ "ci")]
  | Generic, RtExact => [($ "Q", [252]); ($ "S", $ "c"); ($ "Y", [228]); ($ "Z", $ "ci"); ($ "a", $ "a"); ($ "b", $ "va"); ($ "d", $ "c"); ($ "e", $ "e"); ($ "f", $ "f"); ($ "g", $ "x"); ($ "h", $ "ge"); ($ "i", $ "a"); ($ "j", $ "e"); ($ "k", $ "c"); ($ "l", $ "l"); ($ "m", $ "m"); ($ "n", $ "n"); ($ "o", $ "o"); ($ "p", $ "b"); ($ "r", $ "r"); ($ "s", $ "c"); ($ "t", $ "c"); ($ "u", $ "u"); ($ "v", $ "ua"); ($ "w", $ "w"); ($ "x", $ "h"); ($ "z", $ "si")]
  | Ashkenazi, RtApprox => [($ "D", $ "ae"); ($ "Q", [252]); ($ "S", $ "z"); ($ "Y", [228]); ($ "a", $ "a"); ($ "b", $ "bn"); ($ "d", $ "dn"); ($ "f", $ "f"); ($ "g", $ "ge"); ($ "i", $ "a"); ($ "j", $ "jnmm"); ($ "k", $ "c"); ($ "l", $ "l"); ($ "m", $ "m"); ($ "n", $ "n"); ($ "o", $ "a"); ($ "p", $ "b"); ($ "r", $ "r"); ($ "s", $ "c"); ($ "t", $ "c"); ($ "u", $ "u"); ($ "v", $ "wz"); ($ "x", $ "h"); ($ "z", $ "ge")]
  | Ashkenazi, RtExact => [($ "Q", [252]); ($ "S", $ "ce"); ($ "Y", [228]); ($ "Z", $ "ge"); ($ "a", $ "a"); ($ "b", $ "pz"); ($ "d", $ "ge"); ($ "e", $ "e"); ($ "f", $ "f"); ($ "g", $ "ge"); ($ "h", $ "ge"); ($ "i", $ "a"); ($ "j", $ "e"); ($ "k", $ "c"); ($ "l", $ "l"); ($ "m", $ "m"); ($ "n", $ "n"); ($ "o", $ "o"); ($ "p", $ "b"); ($ "r", $ "r"); ($ "s", $ "c"); ($ "t", $ "c"); ($ "u", $ "u"); ($ "v", $ "wr"); ($ "x", $ "h"); ($ "z", $ "si")]
  | Sephardic, RtApprox => [($ "D", $ "ou"); ($ "S", $ "j"); ($ "a", $ "a"); ($ "b", $ "p"); ($ "d", $ "tg"); ($ "f", $ "f"); ($ "g", $ "x"); ($ "h", $ "j"); ($ "i", $ "e"); ($ "k", $ "c"); ($ "l", $ "l"); ($ "m", $ "m"); ($ "n", $ "m"); ($ "p", $ "b"); ($ "r", $ "r"); ($ "s", $ "s"); ($ "t", $ "d"); ($ "u", $ "o"); ($ "v", $ "b"); ($ "z", $ "gi")]
  | Sephardic, RtExact => [($ "S", $ "j"); ($ "Z", $ "gi"); ($ "a", $ "a"); ($ "b", $ "v"); ($ "d", $ "ch"); ($ "e", $ "e"); ($ "f", $ "f"); ($ "g", $ "x"); ($ "i", $ "i"); ($ "j", [241]); ($ "k", $ "c"); ($ "l", $ "l"); ($ "m", $ "m"); ($ "n", $ "m"); ($ "o", $ "o"); ($ "p", $ "b"); ($ "r", $ "r"); ($ "s", $ "s"); ($ "t", $ "d"); ($ "u", $ "u"); ($ "v", $ "b"); ($ "x", $ "j"); ($ "z", [122; 237])]
  end.

Definition separator_words : list (ustr * ustr) :=
  [($ "|", $ "ce"); ($ "(", $ "d'orn"); ($ ")", $ "d'orn"); ($ "-", $ "d'orn"); ($ "-", $ "c d")].
Definition setting (n : NameType) (t : RuleType) (concat : bool) : settings :=
  {| s_name_type := n; s_rule_type := t; s_concat := concat; s_max_phonemes := 20 |}.
Definition occurs_in (R : ConfigFiles) (n : NameType) (t : RuleType) (concat : bool) (x : N) : bool :=
  match builder_build (told R (setting n t concat)) with
  | Ok e => existsb (fun kw => if isin x (fst kw) then match bm_encode real_unicode mini_engine e (snd kw) with Ok code => isin x code | _ => false end else false)
              (words_for n t ++ separator_words)
  | _ => false
  end.
Lemma default_occurs : forall c, config_default real_unicode plain_engine 2 = Ok c ->
  forall n t concat x, In x (sounds n t ++ separators n concat) -> occurs_in c n t concat x = true.
Proof.
  intros c C n t concat x Hx.
  assert (T : match config_default real_unicode plain_engine 2 with
    | Ok c => forallb (fun k => forallb (fun cc => forallb (occurs_in c (fst k) (snd k) cc) (sounds (fst k) (snd k) ++ separators (fst k) cc)) [true; false]) all_kinds
    | _ => true end = true) by (vm_compute; reflexivity).
  rewrite C in T. rewrite forallb_forall in T. specialize (T (n, t) (all_kinds_In n t)). cbn [fst snd] in T. rewrite forallb_forall in T.
  assert (B : In concat [true; false]) by (destruct concat; cbn; tauto). specialize (T concat B). rewrite forallb_forall in T. now apply T.
Qed.
(** Each of these characters occurs in the code of some value. *)
Theorem C83_attained : forall rx depth c n t concat, standard rx -> config_default real_unicode rx depth = Ok c ->
  exists e, builder_build (told c (setting n t concat)) = Ok e
    /\ forall x, In x (sounds n t) \/ In x (separators n concat) -> exists v code, bm_encode real_unicode rx e v = Ok code /\ In x code.
Proof.
  intros rx depth c n t concat S C. pose proof (default_same _ rx depth c S C) as P.
  destruct (builder_build (told c (setting n t concat))) as [e| |] eqn:E.
  2-3: exfalso; assert (Z : In (# "|") (sounds n t ++ separators n concat)) by (apply in_app_iff; right; now left);
       pose proof (default_occurs c P n t concat _ Z) as Q; unfold occurs_in in Q; rewrite E in Q; discriminate Q.
  exists e. split; [reflexivity|]. intros x Hx. apply in_app_iff in Hx. pose proof (default_occurs c P n t concat _ Hx) as Q. unfold occurs_in in Q. rewrite E in Q.
  apply existsb_exists in Q as ([k v] & _ & Q). cbn [fst snd] in Q. destruct (isin x k); [|discriminate Q].
  assert (F : forall r : res ustr, match r with Ok code => isin x code | _ => false end = true -> exists code, r = Ok code /\ In x code)
    by (clear; intros [code| |] Z; [|discriminate Z|discriminate Z]; exists code; split; [reflexivity|now apply isin_In]).
  apply F in Q as (code & K & I). exists v, code. split; [|exact I].
  pose proof (proj1 (C78_default_codes real_unicode rx mini_engine S mini_plain depth (told c (setting n t concat)) e C E v)) as M.
  exact (eq_trans (eq_sym M) K).
Qed.

(** ** Example *)
Example C83_nonvacuous : standard mini_engine /\ LowerOK real_unicode
  /\ exists c, config_default real_unicode mini_engine 2 = Ok c
    /\ exists e, builder_build (told c (setting Generic RtExact true)) = Ok e
      /\ bm_encode real_unicode mini_engine e ($ "d'Orn") = Ok ($ "(orn)-(dorn)").
Proof.
  split; [exact mini_plain|]. split; [exact real_lower_ok|].
  assert (T : match config_default real_unicode mini_engine 2 with
    | Ok c => match builder_build (told c (setting Generic RtExact true)) with
              | Ok e => match bm_encode real_unicode mini_engine e ($ "d'Orn") with Ok code => seq_eqb code ($ "(orn)-(dorn)") | _ => false end
              | _ => false end
    | _ => false end = true) by (vm_compute; reflexivity).
  destruct (config_default real_unicode mini_engine 2) as [c| |]; [|discriminate T|discriminate T]. exists c. split; [reflexivity|].
  destruct (builder_build (told c (setting Generic RtExact true))) as [e| |]; [|discriminate T|discriminate T]. exists e. split; [reflexivity|].
  destruct (bm_encode real_unicode mini_engine e ($ "d'Orn")) as [code| |]; [|discriminate T|discriminate T]. apply seq_eqb_eq in T. now subst code.
Qed.
