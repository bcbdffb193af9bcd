(** * Daitch-Mokotoff: C34 to C41. *)
From Verif Require Import Base UnicodeM Lib Helper RulesParser DaitchMokotoff DmRules BaseLemmas Spec_common Spec_rules Spec_dm
  Spec_dm_file Spec_dm_any Rules_proofs Soundex_proofs UnicodeLemmas DoubleMetaphone_proofs Dm_proofs Dm_order_proofs Dm_build_proofs.
Local Open Scope N_scope.

(** ** C41: the builder *)

(** Every text has exactly one reading as a rule file. *)
Theorem C41_reading : forall text, exists items rem, dm_file text items rem
  /\ forall items' rem', dm_file text items' rem' -> items' = items /\ rem' = rem.
Proof.
  intros text. destruct (dm_file_exists (length text) text (le_n _)) as (items & rem & H). exists items, rem.
  split; [assumption|]. intros items' rem' H'. destruct (dm_file_unique _ _ _ H _ _ H') as [-> ->]. auto.
Qed.
(** The builder terminates on every text, with one of three outcomes: an encoder
    holding exactly the rules and foldings read, a parse error when some text
    cannot be read, a panic when a rule has an empty pattern. *)
Theorem C41_outcome : forall text flag items rem, dm_file text items rem ->
  ((exists i, In i items /\ empty_pattern i) /\ dms_build text flag = Panic)
  \/ ((forall i, In i items -> ~ empty_pattern i) /\ rem = [] /\
      exists d, dms_build text flag = Ok (inl d)
        /\ holds_table d (table_of items)
        /\ (forall c, assoc c (dms_folding_rules d) = folding_of items c)
        /\ dms_ascii_folding d = flag)
  \/ ((forall i, In i items -> ~ empty_pattern i) /\ rem <> [] /\
      exists e, dms_build text flag = Ok (inr e)).
Proof.
  intros text flag items rem H. destruct (dms_build_spec text flag items rem H) as [A|[A|(A1 & A2 & A3)]]; [auto|auto|].
  right. right. eauto.
Qed.
Theorem C41_terminates : forall text flag, dms_build text flag <> NoFuel.
Proof.
  intros text flag. destruct (C41_reading text) as (items & rem & H & _).
  destruct (C41_outcome text flag items rem H) as [[_ ->]|[(_ & _ & d & -> & _)|(_ & _ & e & ->)]]; discriminate.
Qed.
(** A success means the whole file was read. *)
Theorem C41_accepts : forall text flag d, dms_build text flag = Ok (inl d) ->
  exists items, dm_file text items []
    /\ (forall i, In i items -> ~ empty_pattern i)
    /\ holds_table d (table_of items)
    /\ (forall c, assoc c (dms_folding_rules d) = folding_of items c)
    /\ dms_ascii_folding d = flag.
Proof.
  intros text flag d B. destruct (C41_reading text) as (items & rem & H & _).
  destruct (C41_outcome text flag items rem H) as [[_ E]|[(H1 & H2 & d' & E & H3)|(_ & _ & e & E)]]; try congruence.
  rewrite E in B. injection B as ->. exists items. subst rem. tauto.
Qed.
(** Exactly the rules of the file: a rule is in the table under the first
    character of its pattern, with its three lists of alternatives. *)
Theorem C41_table : forall items c r, In r (table_of items c) <->
  exists p a b d, In (DmRule (c :: p) a b d) items
    /\ r_pattern r = c :: p
    /\ alternatives a (r_at_start r) /\ alternatives b (r_before_vowel r) /\ alternatives d (r_default r).
Proof.
  intros items c r. rewrite table_of_In. split.
  - intros (p & a & b & d & I & ->). exists p, a, b, d. split; [assumption|]. split; [reflexivity|].
    split; [|split]; now apply split_alternatives.
  - intros (p & a & b & d & I & E & A1 & A2 & A3). exists p, a, b, d. split; [assumption|].
    apply split_alternatives in A1, A2, A3. destruct r as [rp ra rb rd]. cbn in *. subst. reflexivity.
Qed.
(** Panic means an empty pattern, nothing else. *)
Theorem C41_panics_only_on_empty_pattern : forall text flag, dms_build text flag = Panic <->
  exists items rem i, dm_file text items rem /\ In i items /\ empty_pattern i.
Proof.
  intros text flag. split.
  - intros P. destruct (C41_reading text) as (items & rem & H & _).
    destruct (C41_outcome text flag items rem H) as [[(i & I1 & I2) E]|[(H1 & H2 & d' & E & H3)|(_ & _ & e & E)]]; try congruence.
    exists items, rem, i. auto.
  - intros (items & rem & i & H & I & E).
    destruct (C41_outcome text flag items rem H) as [[_ P]|[(H1 & _)|(H1 & _)]]; [assumption| |]; now elim (H1 i I).
Qed.
Example C41_nonvacuous :
  (exists d, dms_build $ "// t
""sch"" ""4"" ""4"" ""4|5""
ß=s" true = Ok (inl d) /\ assoc (# "ß") (dms_folding_rules d) = Some (# "s"))
  /\ dms_build $ """"" ""1"" ""1"" ""1""" true = Panic
  /\ (exists e, dms_build $ "ß=s
abc" true = Ok (inr e) /\ pe_line_number e = 2%nat /\ pe_line_content e = $ "abc").
Proof.
  split; [|split].
  - eexists. split; vm_compute; reflexivity.
  - vm_compute. reflexivity.
  - eexists. split; [vm_compute; reflexivity|]. split; reflexivity.
Qed.

(** ** C34: parse errors *)
Lemma until_lf_spec : forall s, first_line s (until_lf s).
Proof.
  induction s as [|c s [IH1 IH2]]; cbn [until_lf].
  - split; [intros []|now left].
  - destruct (c =? 10) eqn:E.
    + apply N.eqb_eq in E. subst c. split; [intros []|]. right. now exists s.
    + apply N.eqb_neq in E. split; [intros [K|K]; [now elim E|contradiction]|].
      destruct IH2 as [IH2|[rest IH2]]; [left; now rewrite <- IH2|right]. exists rest. cbn [app]. now rewrite <- IH2.
Qed.
Theorem C34_error : forall text flag e, dms_build text flag = Ok (inr e) ->
  exists items rem, dm_file text items rem /\ rem <> []
    /\ first_line rem (pe_line_content e)
    /\ pe_line_number e = (reported_lines items + 1)%nat.
Proof.
  intros text flag e B. destruct (C41_reading text) as (items & rem & H & _). exists items, rem.
  destruct (dms_build_spec text flag items rem H) as [[_ E]|[(H1 & H2 & d' & E & H3)|(_ & N & E)]]; try congruence.
  rewrite E in B. injection B as <-. split; [assumption|]. split; [assumption|]. split; [apply until_lf_spec|reflexivity].
Qed.
(** The number reported is too high by one per multi-line comment ... *)
Definition comments (items : list dm_item) : nat :=
  length (filter (fun i => match i with DmComment _ => true | _ => false end) items).
Theorem C34_off_by_comments : forall items, reported_lines items = (lines_read items + comments items)%nat.
Proof.
  unfold reported_lines, lines_read, comments. induction items as [|i items IH]; [reflexivity|].
  cbn [map list_sum fold_right filter]. unfold list_sum in IH. rewrite IH. destruct i; cbn [length]; lia.
Qed.
(** ... with respect to the lines really read, when no rule or folding contains a
    line feed: [lines_read] is the number of line feeds before the error. *)
Definition flat_item (i : dm_item) : Prop :=
  match i with
  | DmRule a b c d => ~ In LF a /\ ~ In LF b /\ ~ In LF c /\ ~ In LF d
  | DmFold x y => x <> LF /\ y <> LF
  | _ => True
  end.
Notation lfs s := (count_occ N.eq_dec s LF).
Lemma lfs_none : forall s, ~ In LF s -> lfs s = 0%nat.
Proof. intros s H. now apply count_occ_not_In. Qed.
Lemma lfs_blanks : forall b, blanks b -> lfs b = 0%nat.
Proof. intros b H. apply lfs_none. intros K. apply H in K as [K|K]; discriminate. Qed.
Lemma lfs_slash : forall c, slash_comment c -> lfs c = 0%nat.
Proof.
  intros c [|t H]; [reflexivity|]. rewrite count_occ_app, (lfs_none t H). reflexivity.
Qed.
Lemma line_end_lfs : forall s rest, line_end s rest -> rest <> [] -> exists c, s = c ++ rest /\ lfs c = 1%nat.
Proof.
  intros s rest [b c r Hb Hc|b r Hb|b c Hb Hc] N.
  - exists (b ++ c ++ [LF]). rewrite <- !app_assoc. split; [reflexivity|].
    rewrite !count_occ_app, (lfs_blanks b Hb), (lfs_slash c Hc). reflexivity.
  - exists (b ++ [CR; LF]). rewrite <- app_assoc. split; [reflexivity|].
    rewrite count_occ_app, (lfs_blanks b Hb). reflexivity.
  - congruence.
Qed.
Lemma lfs_quoted : forall t, ~ In LF t -> lfs (quoted t) = 0%nat.
Proof. intros t H. apply lfs_none. intros [K|K]; [discriminate|]. apply in_app_or in K as [K|[K|[]]]; [contradiction|discriminate]. Qed.
Lemma dm_line_lfs : forall s i r, dm_line s i r -> r <> [] -> flat_item i ->
  exists c, s = c ++ r /\ lfs c = match i with DmComment n => n | _ => 1%nat end.
Proof.
  intros s i r H N F. destruct H as [s a b c d rest H|s x y rest _ H|s rest _ _ _ H|s n rest _ _ _ H].
  - remember (a, b, c, d) as q. destruct H as [a' b' c' d' s1 s2 s3 e rest _ _ _ _ B1 _ B2 _ B3 _ E].
    injection Heqq as -> -> -> ->. destruct F as (F1 & F2 & F3 & F4).
    apply line_end_lfs in E as (t & -> & E); [|assumption].
    exists (quoted a ++ s1 ++ quoted b ++ s2 ++ quoted c ++ s3 ++ quoted d ++ t). split; [now rewrite <- !app_assoc|].
    rewrite !count_occ_app, !lfs_quoted, !lfs_blanks, E by assumption. reflexivity.
  - remember (x, y) as q. destruct H as [x' y' e rest E]. injection Heqq as -> ->. destruct F as [F1 F2].
    apply line_end_lfs in E as (t & -> & E); [|assumption].
    exists ([x; # "="; y] ++ t). split; [reflexivity|]. rewrite count_occ_app, E, lfs_none; [reflexivity|].
    intros [K|[K|[K|[]]]]; [congruence|discriminate|congruence].
  - now apply line_end_lfs.
  - destruct H as [text e rest C E]. apply line_end_lfs in E as (t & -> & E); [|assumption].
    exists ($ "/*" ++ text ++ $ "*/" ++ t). split; [now rewrite <- !app_assoc|]. rewrite !count_occ_app, E.
    change (lfs $ "/*") with 0%nat. change (lfs $ "*/") with 0%nat. cbn [Nat.add]. lia.
Qed.
Theorem C34_lines_read : forall text items rem, dm_file text items rem -> rem <> [] -> (forall i, In i items -> flat_item i) ->
  exists consumed, text = consumed ++ rem /\ count_occ N.eq_dec consumed LF = lines_read items.
Proof.
  intros text items rem H. induction H as [|s N S|s i r items rem L H IH]; intros NE F.
  - congruence.
  - exists []. split; reflexivity.
  - destruct (IH NE (fun j J => F j (or_intror J))) as (c & -> & C).
    assert (NR : c ++ rem <> []) by (intros K; apply app_eq_nil in K as [_ K]; congruence).
    destruct (dm_line_lfs _ _ _ L NR (F i (or_introl eq_refl))) as (c1 & -> & C1).
    exists (c1 ++ c). split; [now rewrite <- app_assoc|]. rewrite count_occ_app, C1, C.
    unfold lines_read. cbn [map list_sum fold_right]. unfold list_sum. lia.
Qed.
(** Refuted: the number reported is that of the line. *)
Theorem C34_line_number_refuted :
  exists e, dms_build $ "/* c */
?" true = Ok (inr e) /\ pe_line_number e = 3%nat /\ pe_line_content e = $ "?".
Proof. eexists. split; [vm_compute; reflexivity|split; reflexivity]. Qed.

(** ** C35: form of the codes *)

(** An encoder built from a file whose replacements are ASCII. *)
Definition built_from (text : ustr) (flag : bool) (items : list dm_item) (d : DMS) : Prop :=
  dm_file text items [] /\ dms_build text flag = Ok (inl d) /\ (forall i, In i items -> ascii_item i).
(** [c] occurs in some replacement. *)
Definition in_replacement (items : list dm_item) (c : N) : Prop :=
  exists p x y z, In (DmRule p x y z) items /\ In c (x ++ y ++ z).

Lemma built_holds : forall text flag items d, built_from text flag items d ->
  holds_table d (table_of items) /\ (forall c, assoc c (dms_folding_rules d) = folding_of items c)
  /\ dms_ascii_folding d = flag /\ table_ok (table_of items).
Proof.
  intros text flag items d (F & B & A). destruct (C41_accepts _ _ _ B) as (items' & F' & _ & H1 & H2 & H3).
  destruct (dm_file_unique _ _ _ F _ _ F') as [-> _]. split; [assumption|]. split; [assumption|]. split; [assumption|].
  now apply table_of_ok.
Qed.
Lemma built_chars : forall text flag items d, built_from text flag items d ->
  dms_chars (fun c => c < 128 /\ c <> # "|" /\ in_replacement items c) d /\ dms_total d.
Proof.
  intros text flag items d B. pose proof (built_holds _ _ _ _ B) as (H & _ & _ & T). destruct B as (_ & _ & A).
  pose proof (holds_ascii_total d _ H T) as [_ Tot]. split; [|assumption].
  intros c rules r x E I X k Hk. rewrite H in E. destruct (table_of items c) as [|y l] eqn:C; [discriminate|]. injection E as <-.
  apply (proj1 (sort_In (y :: l) r)) in I. rewrite <- C in I. apply table_of_In in I as (p & a & b & e & I & ->).
  destruct (A _ I _ _ _ _ eq_refl) as (A1 & A2 & A3). cbn [rule_of_parts r_at_start r_before_vowel r_default] in X.
  assert (K : forall s, (forall j, In j s -> In j (a ++ b ++ e)) -> ascii_str s -> In x (parse_branch s) ->
    k < 128 /\ k <> # "|" /\ in_replacement items k).
  { intros s Inc As Xs. unfold parse_branch in Xs.
    destruct (alternatives_incl s (split_on (# "|") s) ltac:(now apply split_alternatives)) as [_ Al].
    specialize (Al x Xs k Hk). split; [now apply As|]. split.
    - intros ->. now apply split_on_no_sep_inside in Xs.
    - exists (c :: p), a, b, e. auto. }
  apply in_app_or in X as [X|X]; [apply (K a)|apply in_app_or in X as [X|X]; [apply (K b)|apply (K e)]]; try assumption;
    intros j J; rewrite !in_app_iff; auto.
Qed.
Lemma inner_codes : forall u text flag items d value, built_from text flag items d ->
  exists codes, inner_soundex u d value true = Ok codes
    /\ codes <> []
    /\ split_on (# "|") (join $ "|" codes) = codes
    /\ forall code, In code codes -> length code = 6%nat
         /\ forall c, In c code -> c = # "0" \/ in_replacement items c.
Proof.
  intros u text flag items d value B. destruct (built_chars _ _ _ _ B) as [C T].
  unfold inner_soundex.
  destruct (dms_loop_total _ (fun c (H : c < 128 /\ c <> # "|" /\ in_replacement items c) => proj1 H) d true C T (dms_source u d value) 0 0 [branch_default])
    as (r & E & Fr & Nr).
  - constructor; [apply branch_ok_default|constructor].
  - discriminate.
  - rewrite E. cbn [bind]. exists (map br_finish r). split; [reflexivity|].
    assert (K : forall code, In code (map br_finish r) -> length code = 6%nat
         /\ forall c, In c code -> (c < 128 /\ c <> # "|" /\ in_replacement items c) \/ c = # "0").
    { intros code Hc. apply in_map_iff in Hc as (b & <- & Hb). rewrite Forall_forall in Fr.
      apply (br_finish_length _ (fun c (H : c < 128 /\ c <> # "|" /\ in_replacement items c) => proj1 H)). auto. }
    split; [destruct r; [congruence|discriminate]|]. split.
    + apply split_join; [destruct r; [congruence|discriminate]|]. intros s Hs Hbar. apply K in Hs as [_ Hs].
      apply Hs in Hbar as [(_ & Hbar & _)|Hbar]; [congruence|discriminate].
    + intros code Hc. apply K in Hc as [L Hc]. split; [assumption|]. intros c Ic.
      apply Hc in Ic as [(_ & _ & Ic)|Ic]; auto.
Qed.
(** For every text, ASCII or not: soundex succeeds and lists at least one code,
    separated by bars; each code has six characters, taken from the replacements
    or the filler 0. *)
Theorem C35_codes : forall u text flag items d value, built_from text flag items d ->
  exists codes, dms_soundex u d value = Ok (join $ "|" codes)
    /\ codes <> []
    /\ split_on (# "|") (join $ "|" codes) = codes
    /\ forall code, In code codes -> length code = 6%nat
         /\ forall c, In c code -> c = # "0" \/ in_replacement items c.
Proof.
  intros u text flag items d value B. destruct (inner_codes u _ _ _ _ value B) as (codes & E & H).
  exists codes. unfold dms_soundex. rewrite E. split; [reflexivity|exact H].
Qed.
(** Digits in, digits out. *)
Theorem C35_digits : forall u text flag items d value, built_from text flag items d ->
  (forall c, in_replacement items c -> c = # "|" \/ (# "0" <= c <= # "9")) ->
  exists codes, dms_soundex u d value = Ok (join $ "|" codes) /\ codes <> []
    /\ forall code, In code codes -> length code = 6%nat /\ forall c, In c code -> # "0" <= c <= # "9".
Proof.
  intros u text flag items d value B D. destruct (C35_codes u _ _ _ _ value B) as (codes & E & N & S & H).
  exists codes. split; [assumption|]. split; [assumption|]. intros code Hc. pose proof (H code Hc) as [L K]. split; [assumption|].
  intros c Ic. destruct (K c Ic) as [->|R]; [split; vm_compute; discriminate|]. apply D in R as [->|R]; [|assumption].
  exfalso. rewrite <- S in Hc. now apply split_on_no_sep_inside in Hc.
Qed.
(** The rules shipped with the crate satisfy the hypotheses. *)
Theorem C35_default : exists items, built_from dmrules_text true items dms_default
  /\ forall c, in_replacement items c -> c = # "|" \/ (# "0" <= c <= # "9").
Proof.
  destruct (C41_accepts _ _ _ dms_default_built) as (items & F & NE & _). exists items.
  assert (X : forall it, In it items -> forall p a b e, it = DmRule p a b e -> forall c, In c (a ++ b ++ e) -> c = # "|" \/ (# "0" <= c <= # "9")).
  { assert (Q : exists items', dm_file dmrules_text items' [] /\
      forallb (fun i => match i with DmRule p a b e => forallb (fun c => (c =? # "|") || ((# "0" <=? c) && (c <=? # "9"))) (a ++ b ++ e) | _ => true end) items' = true).
    { assert (RL : forall n s, match (fix go n s := match s with [] => Some [] | _ => match n with O => None | S n => match next_line s with Some (i, r) => match go n r with Some l => Some (i :: l) | None => None end | None => None end end end) n s
        with Some l => dm_file s l [] | None => True end).
      { clear. induction n as [|n IH]; intros s; [destruct s; [constructor|exact I]|].
        destruct s as [|x s]; [constructor|]. cbv beta iota. destruct (next_line (x :: s)) as [[i r]|] eqn:E; [|exact I].
        specialize (IH r). destruct (_ n r) as [l|]; [|exact I]. apply next_line_spec in E; [|discriminate]. econstructor; eassumption. }
      specialize (RL 2000%nat dmrules_text).
      match type of RL with match ?g with _ => _ end => let v := eval vm_compute in g in change g with v in RL end.
      cbv iota in RL. eexists. split; [exact RL|]. vm_compute. reflexivity. }
    destruct Q as (items' & F' & Q). destruct (dm_file_unique _ _ _ F _ _ F') as [<- _].
    rewrite forallb_forall in Q. intros it I p a b e -> c Hc. specialize (Q _ I). cbn in Q. rewrite forallb_forall in Q.
    specialize (Q c Hc). apply orb_true_iff in Q as [Q|Q]; [left; now apply N.eqb_eq|right].
    apply andb_true_iff in Q as [Q1 Q2]. apply N.leb_le in Q1, Q2. auto. }
  split; [split; [assumption|]; split; [exact dms_default_built|]|].
  - intros i I a b c e ->.
    assert (Y : forall k, In k (b ++ c ++ e) -> k < 128).
    { intros k Hk. destruct (X _ I _ _ _ _ eq_refl k Hk) as [->|[_ K]]; [vm_compute; reflexivity|]. change (k <= 57) in K. lia. }
    split; [|split]; intros k Hk; apply Y; rewrite !in_app_iff; auto.
  - intros c (p & x & y & z & I & Hc). exact (X _ I _ _ _ _ eq_refl c Hc).
Qed.
Corollary C35_default_codes : forall u value, exists codes,
  dms_soundex u dms_default value = Ok (join $ "|" codes) /\ codes <> []
  /\ forall code, In code codes -> length code = 6%nat /\ forall c, In c code -> # "0" <= c <= # "9".
Proof. intros u value. destruct C35_default as (items & B & D). eapply C35_digits; eassumption. Qed.
(** Refuted without the ASCII hypothesis: the cut at six bytes may fall inside a
    character, which panics. *)
Theorem C35_non_ascii_replacement_panics :
  exists d, dms_build $ """a"" ""12345é"" ""1"" ""1""" false = Ok (inl d) /\ dms_soundex latin1_only d $ "a" = Panic.
Proof. eexists. split; [vm_compute; reflexivity|vm_compute; reflexivity]. Qed.

(** ** C36: encode is the first code of soundex *)
Theorem C36_encode_is_first : forall u d value codes, inner_soundex u d value true = Ok codes ->
  dms_encode u d value = Ok (hd [] codes).
Proof.
  intros u d value codes H. unfold inner_soundex in H. apply bind_Ok in H as (bs & H & E). injection E as <-.
  unfold dms_encode, inner_soundex. eapply dms_loop_first in H as (bs1 & H1 & F); [|reflexivity].
  rewrite H1. cbn [bind]. unfold first_only in F. subst bs1. now destruct bs.
Qed.
Theorem C36_encode_soundex : forall u text flag items d value, built_from text flag items d ->
  exists out, dms_soundex u d value = Ok out /\ dms_encode u d value = Ok (hd [] (split_on (# "|") out)).
Proof.
  intros u text flag items d value B. destruct (inner_codes u _ _ _ _ value B) as (codes & E & N & S & _).
  exists (join $ "|" codes). unfold dms_soundex. rewrite E. split; [reflexivity|]. rewrite S.
  now apply C36_encode_is_first.
Qed.
Example C36_nonvacuous :
  dms_soundex latin1_only dms_default $ "Rosochowaciec"
    = Ok $ "944744|944745|944754|944755|945744|945745|945754|945755"
  /\ dms_encode latin1_only dms_default $ "Rosochowaciec" = Ok $ "944744".
Proof. split; vm_compute; reflexivity. Qed.

(** ** C37: the longest pattern wins, then file order *)
Theorem C37_choice : forall text flag d, dms_build text flag = Ok (inl d) ->
  exists items, dm_file text items [] /\ forall c s r,
    (exists rules, assoc c (dms_rules d) = Some rules /\ find (fun r => rule_matches r s) rules = Some r)
    <-> best_rule (table_of items c) s r.
Proof.
  intros text flag d B. destruct (C41_accepts _ _ _ B) as (items & F & _ & H & _). exists items. split; [assumption|].
  intros c s r. rewrite H. split.
  - intros (rules & E & K). destruct (table_of items c) as [|x l]; [discriminate|]. injection E as <-.
    now apply find_sorted_some.
  - intros K. pose proof (best_rule_In _ _ _ K) as I. pose proof (best_rule_find _ _ _ K) as E.
    destruct (table_of items c) as [|x l]; [destruct I|]. eauto.
Qed.
Theorem C37_choice_unique : forall l s r r', best_rule l s r -> best_rule l s r' -> r = r'.
Proof. exact best_rule_unique. Qed.
(** Some rule is chosen as soon as one matches. *)
Theorem C37_choice_exists : forall l s, (exists r, best_rule l s r) \/ no_rule l s.
Proof.
  intros l s. destruct (find (fun r => rule_matches r s) (sort_rules l)) as [r|] eqn:E.
  - left. exists r. now apply find_sorted_some.
  - right. now apply find_sorted_none.
Qed.
(** Observable consequence: two files with the same rules (distinct patterns) in
    any order give the same codes for every text. *)
Theorem C37_rule_order_irrelevant : forall u text text' flag d d' items items',
  dms_build text flag = Ok (inl d) -> dms_build text' flag = Ok (inl d') ->
  dm_file text items [] -> dm_file text' items' [] ->
  (forall i, In i items <-> In i items') ->
  (forall c, NoDup (map r_pattern (table_of items c))) -> (forall c, NoDup (map r_pattern (table_of items' c))) ->
  (forall c, folding_of items c = folding_of items' c) ->
  forall value, dms_soundex u d value = dms_soundex u d' value /\ dms_encode u d value = dms_encode u d' value.
Proof.
  intros u text text' flag d d' items items' B B' F F' I N N' Fo value.
  destruct (C41_accepts _ _ _ B) as (i1 & F1 & _ & H & Hf & Hg).
  destruct (C41_accepts _ _ _ B') as (i2 & F2 & _ & H' & Hf' & Hg').
  destruct (dm_file_unique _ _ _ F _ _ F1) as [<- _]. destruct (dm_file_unique _ _ _ F' _ _ F2) as [<- _].
  assert (P : forall c x, In x (table_of items c) <-> In x (table_of items' c)).
  { intros c x. rewrite !table_of_In. split; intros (p & a & b & e & J & ->); exists p, a, b, e; (split; [now apply I|reflexivity]). }
  assert (S : dms_source u d value = dms_source u d' value).
  { unfold dms_source. apply map_ext. intros c. unfold dms_char. rewrite Hg, Hg'. destruct (to_lower u c); [reflexivity|].
    destruct flag; [|reflexivity]. now rewrite Hf, Hf', Fo. }
  assert (L : forall br, inner_soundex u d value br = inner_soundex u d' value br).
  { intros br. unfold inner_soundex. rewrite S.
    rewrite (dms_loop_same_choice d d' (table_of items) (table_of items')); [reflexivity|assumption|assumption| |].
    - intros c. split; intros E.
      + destruct (table_of items' c) as [|x l] eqn:E'; [reflexivity|]. exfalso.
        assert (K : In x (table_of items c)) by (apply P; rewrite E'; now left). rewrite E in K. destruct K.
      + destruct (table_of items c) as [|x l] eqn:E'; [reflexivity|]. exfalso.
        assert (K : In x (table_of items' c)) by (apply P; rewrite E'; now left). rewrite E in K. destruct K.
    - intros c s r. split; apply best_rule_perm; auto. intros x. now rewrite P. }
  unfold dms_soundex, dms_encode. now rewrite !L.
Qed.
Example C37_nonvacuous :
  let d1 := dms_build $ """a"" ""1"" ""1"" ""1""
""ab"" ""2"" ""2"" ""2""" false in
  let d2 := dms_build $ """ab"" ""2"" ""2"" ""2""
""a"" ""1"" ""1"" ""1""" false in
  match d1, d2 with
  | Ok (inl d1), Ok (inl d2) => dms_encode latin1_only d1 $ "ab" = Ok $ "200000" /\ dms_encode latin1_only d2 $ "ab" = Ok $ "200000"
  | _, _ => False
  end.
Proof. vm_compute. split; reflexivity. Qed.

(** ** C38: cleanup *)
Theorem C38_whitespace : forall u d a b,
  filter (fun c => negb (is_whitespace u c)) a = filter (fun c => negb (is_whitespace u c)) b ->
  dms_soundex u d a = dms_soundex u d b /\ dms_encode u d a = dms_encode u d b.
Proof. intros u d a b E. unfold dms_soundex, dms_encode, inner_soundex, dms_source. now rewrite E. Qed.
Lemma dms_char_up : forall u d c, dms_char u d (ascii_up c) = dms_char u d c.
Proof.
  intros u d c. destruct (ascii_up_cases c) as [[R E]|[R E]]; rewrite E; [|reflexivity].
  unfold dms_char. rewrite !to_lower_ascii by lia.
  replace (ascii_low (c - 32)) with (ascii_low c); [reflexivity|].
  destruct (ascii_low_cases c) as [[R1 E1]|[R1 E1]]; [lia|].
  destruct (ascii_low_cases (c - 32)) as [[R2 E2]|[R2 E2]]; [|lia]. rewrite E1, E2. lia.
Qed.
Theorem C38_ascii_case : forall u d s,
  dms_soundex u d (map ascii_up s) = dms_soundex u d s /\ dms_encode u d (map ascii_up s) = dms_encode u d s.
Proof.
  intros u d s.
  assert (E : dms_source u d (map ascii_up s) = dms_source u d s).
  { unfold dms_source. induction s as [|c s IH]; [reflexivity|]. cbn [map filter]. rewrite is_whitespace_up.
    destruct (is_whitespace u c); cbn [negb]; [exact IH|]. cbn [map]. now rewrite IH, dms_char_up. }
  unfold dms_soundex, dms_encode, inner_soundex. now rewrite E.
Qed.
(** With folding, a character may be replaced by what it folds to, anywhere
    (when that one is not folded further); without, foldings have no effect. *)
Theorem C38_folding : forall u text d items x y a b,
  dms_build text true = Ok (inl d) -> dm_file text items [] ->
  folding_of items x = Some y -> (folding_of items y = None \/ folding_of items y = Some y) ->
  to_lower u x = [x] -> to_lower u y = [y] -> is_whitespace u x = false -> is_whitespace u y = false ->
  dms_soundex u d (a ++ x :: b) = dms_soundex u d (a ++ y :: b)
  /\ dms_encode u d (a ++ x :: b) = dms_encode u d (a ++ y :: b).
Proof.
  intros u text d items x y a b B F Fx Fy Lx Ly Wx Wy.
  destruct (C41_accepts _ _ _ B) as (i1 & F1 & _ & _ & Hf & Hg). destruct (dm_file_unique _ _ _ F _ _ F1) as [<- _].
  assert (E : dms_source u d (a ++ x :: b) = dms_source u d (a ++ y :: b)).
  { unfold dms_source. rewrite !filter_app, !map_app. f_equal. cbn [filter]. rewrite Wx, Wy. cbn [negb map]. f_equal.
    unfold dms_char. rewrite Lx, Ly, Hg, !Hf, Fx. now destruct Fy as [->| ->]. }
  unfold dms_soundex, dms_encode, inner_soundex. now rewrite E.
Qed.
Theorem C38_no_folding : forall u d d', dms_ascii_folding d = false -> dms_ascii_folding d' = false ->
  dms_rules d = dms_rules d' -> forall s, dms_soundex u d s = dms_soundex u d' s /\ dms_encode u d s = dms_encode u d' s.
Proof.
  intros u d d' F F' R s.
  assert (E : dms_source u d s = dms_source u d' s).
  { unfold dms_source. apply map_ext. intros c. unfold dms_char. now rewrite F, F'. }
  assert (L : forall br s k last bs, dms_loop d br k last bs s = dms_loop d' br k last bs s).
  { clear - R. intros br. induction s as [|c s IH]; intros k last bs; [reflexivity|]. cbn [dms_loop]. rewrite R.
    destruct k; [|apply IH]. destruct (assoc c (dms_rules d')); [|apply IH]. destruct (find _ _); [|apply IH].
    destruct (apply_to_branches _ _ _ _ _); cbn [bind]; [apply IH|reflexivity|reflexivity]. }
  unfold dms_soundex, dms_encode, inner_soundex. now rewrite E, !L.
Qed.
Lemma built_any : forall text flag items d, dms_build text flag = Ok (inl d) -> dm_file text items [] ->
  holds_table d (table_of items) /\ (forall c, assoc c (dms_folding_rules d) = folding_of items c) /\ dms_ascii_folding d = flag.
Proof.
  intros text flag items d B F. destruct (C41_accepts _ _ _ B) as (items' & F' & _ & H1 & H2 & H3).
  destruct (dm_file_unique _ _ _ F _ _ F') as [-> _]. now split.
Qed.
Lemma source_text : forall u text flag items d value, dms_build text flag = Ok (inl d) -> dm_file text items [] ->
  dms_source u d value = dm_text u items flag value.
Proof.
  intros u text flag items d value B F. destruct (built_any _ _ _ _ B F) as (_ & H2 & H3). unfold dms_source, dm_text.
  induction value as [|c s IH]; [reflexivity|]. cbn [filter flat_map]. destruct (is_whitespace u c); cbn [negb app map]; [exact IH|].
  rewrite IH. unfold dms_char, dm_folded. rewrite H3. destruct (to_lower u c) as [|l r]; [reflexivity|]. rewrite H2. destruct flag; reflexivity.
Qed.
(** Characters without rules are skipped at the beginning of the text. *)
Theorem C38_leading_unknown : forall u text flag d items c s,
  dms_build text flag = Ok (inl d) -> dm_file text items [] -> (forall x, In x (dm_text u items flag [c]) -> table_of items x = []) ->
  dms_soundex u d (c :: s) = dms_soundex u d s /\ dms_encode u d (c :: s) = dms_encode u d s.
Proof.
  intros u text flag d items c s B F T.
  destruct (C41_accepts _ _ _ B) as (i1 & F1 & _ & H & _). destruct (dm_file_unique _ _ _ F _ _ F1) as [<- _].
  assert (L : forall br, inner_soundex u d (c :: s) br = inner_soundex u d s br).
  { intros br. rewrite <- (source_text u text flag items d [c] B F) in T. unfold inner_soundex, dms_source in *. cbn [filter] in *.
    destruct (is_whitespace u c); [reflexivity|]. cbn [negb map dms_loop] in *. rewrite H, T by (now left). reflexivity. }
  unfold dms_soundex, dms_encode. now rewrite !L.
Qed.
(** Only the scanned text matters. *)
Theorem C38_same_text : forall u text flag d items a b,
  dms_build text flag = Ok (inl d) -> dm_file text items [] -> dm_text u items flag a = dm_text u items flag b ->
  dms_soundex u d a = dms_soundex u d b /\ dms_encode u d a = dms_encode u d b.
Proof.
  intros u text flag d items a b B F E. rewrite <- !(source_text u text flag items d _ B F) in E.
  unfold dms_soundex, dms_encode, inner_soundex. now rewrite E.
Qed.
Example C38_nonvacuous :
  dms_encode latin1_only dms_default $ " STRA ße " = dms_encode latin1_only dms_default $ "strasse"
  /\ dms_encode latin1_only dms_default $ "strasse" = Ok $ "294000".
Proof. split; vm_compute; reflexivity. Qed.

(** ** C39: what the codes are *)

(** When the cleaned text is ASCII, the codes listed by soundex are those of the
    selections of one replacement per step of the scan, and encode selects the
    first replacement at every step. *)
Theorem C39_codes : forall u text flag items d value ev, built_from text flag items d ->
  dm_scan_any (table_of items) 0 (dm_text u items flag value) ev ->
  exists sels, first_of_each indistinct (selections ev) sels
    /\ inner_soundex u d value true = Ok (map dm_code sels)
    /\ dms_soundex u d value = Ok (join $ "|" (map dm_code sels))
    /\ inner_soundex u d value false = Ok [dm_code (first_selection ev)]
    /\ dms_encode u d value = Ok (dm_code (first_selection ev)).
Proof.
  intros u text flag items d value ev B S. pose proof (built_holds _ _ _ _ B) as (H & _ & _ & T).
  rewrite <- (source_text u text flag items d value (proj1 (proj2 B)) (proj1 B)) in S.
  assert (A0 : forall sel, In sel [[]] -> sel_ascii sel) by (intros sel [<-|[]] r f []).
  destruct (loop_any d _ H T _ _ _ S [[]] A0) as (E & A & P).
  assert (X : fold_left extend ev [[]] = selections ev).
  { rewrite extend_all. cbn [flat_map]. rewrite app_nil_r. rewrite <- (map_id (selections ev)) at 2. now apply map_ext. }
  rewrite X in *. change (push_all [] (map branch_of [[]])) with [branch_default] in E.
  destruct (first_of_each_branches (selections ev)) as (sels & F & M). exists sels. split; [exact F|].
  assert (I1 : inner_soundex u d value true = Ok (map dm_code sels)).
  { unfold inner_soundex. rewrite E, <- M. cbn [bind]. f_equal. rewrite map_map. apply map_ext_in. intros sel I. apply br_finish_code.
    apply kept_ascii. apply A. eapply first_of_each_incl; eassumption. }
  assert (I2 : inner_soundex u d value false = Ok [dm_code (first_selection ev)]).
  { unfold inner_soundex. rewrite branch_of_nil, (loop_any_first d _ H T _ _ _ S []) by (intros r f []). cbn [bind map app].
    rewrite br_finish_code; [reflexivity|]. apply kept_ascii. eapply selection_ascii; [exact P|]. now apply first_selection_selection. }
  split; [exact I1|]. split; [unfold dms_soundex; now rewrite I1|]. split; [exact I2|]. unfold dms_encode. now rewrite I2.
Qed.
(** If the text is ASCII, the scan goes on just after the pattern it has matched. *)
Theorem C39_ascii_scan : forall tbl prev s ev, ascii_str s -> dm_scan tbl prev s ev -> dm_scan_any tbl prev s ev.
Proof. exact ascii_scan_any. Qed.
(** The codes as a set. *)
Theorem C39_codes_set : forall u text flag items d value ev, built_from text flag items d ->
  dm_scan_any (table_of items) 0 (dm_text u items flag value) ev ->
  exists codes, dms_soundex u d value = Ok (join $ "|" codes)
    /\ forall code, In code codes <-> exists sel, selection ev sel /\ code = dm_code sel.
Proof.
  intros u text flag items d value ev B S. destruct (C39_codes u _ _ _ _ value ev B S) as (sels & F & _ & E & _).
  exists (map dm_code sels). split; [exact E|]. intros code. rewrite in_map_iff. split.
  - intros (sel & <- & I). exists sel. split; [|reflexivity]. apply selections_iff. eapply first_of_each_incl; eassumption.
  - intros (sel & K & ->). apply selections_iff in K.
    assert (G : forall l k, first_of_each indistinct l k -> forall x, In x l -> exists y, In y k /\ indistinct y x).
    { clear. intros l k F. induction F as [|l k a F IH N|l k a x F IH I X]; intros y Hy; [destruct Hy| |].
      - apply in_app_or in Hy as [Hy|[<-|[]]].
        + destruct (IH y Hy) as (z & Z1 & Z2). exists z. split; [apply in_or_app; now left|assumption].
        + exists a. split; [apply in_or_app; right; now left|]. now split.
      - apply in_app_or in Hy as [Hy|[<-|[]]]; [now apply IH|]. now exists x. }
    destruct (G _ _ F sel K) as (y & Y1 & [Y2 _]). exists y. split; [|assumption]. unfold dm_code, pad_to.
    rewrite !firstn_app, Y2. f_equal. apply (f_equal (@length N)) in Y2. rewrite !firstn_length in Y2.
    destruct (Nat.le_gt_cases 6 (length (kept None y))) as [L|L].
    + replace (6 - length (kept None y))%nat with 0%nat by lia. replace (6 - length (kept None sel))%nat with 0%nat by lia. reflexivity.
    + replace (length (kept None sel)) with (length (kept None y)) by lia. reflexivity.
Qed.
(** Every text has exactly one scan. *)
Theorem C39_scan_exists : forall text flag items d s, built_from text flag items d ->
  exists ev, dm_scan_any (table_of items) 0 s ev /\ forall ev', dm_scan_any (table_of items) 0 s ev' -> ev' = ev.
Proof.
  intros text flag items d s B. pose proof (built_holds _ _ _ _ B) as (_ & _ & _ & T).
  destruct (scan_any_exists _ T (length s) s 0 (le_n _)) as [ev E]. exists ev. split; [assumption|].
  intros ev' E'. symmetry. eapply scan_any_unique; eassumption.
Qed.
Theorem C39_ascii_scan_exists : forall text flag items d s, built_from text flag items d -> ascii_str s ->
  exists ev, dm_scan (table_of items) 0 s ev /\ dm_scan_any (table_of items) 0 s ev.
Proof.
  intros text flag items d s B A. pose proof (built_holds _ _ _ _ B) as (_ & _ & _ & T).
  destruct (dm_scan_exists _ T (length s) s 0 (le_n _)) as [ev E]. exists ev. split; [assumption|]. now apply ascii_scan_any.
Qed.
(** Every list of selections has exactly one list of firsts. *)
Theorem C39_firsts_unique : forall (l a b : list (list (ustr * bool))), first_of_each indistinct l a -> first_of_each indistinct l b -> a = b.
Proof. intros l a b A B. eapply first_of_each_unique; eassumption. Qed.
(** ASCII names are covered, whatever the file, when folding maps to ASCII. *)
Theorem C39_ascii_source : forall u text flag items d value, built_from text flag items d ->
  (forall x y, folding_of items x = Some y -> y < 128) -> ascii_str value -> ascii_str (dm_text u items flag value).
Proof.
  intros u text flag items d value B F A c Hc. rewrite <- (source_text u text flag items d value (proj1 (proj2 B)) (proj1 B)) in Hc. pose proof (built_holds _ _ _ _ B) as (_ & Hf & Hg & _).
  unfold dms_source in Hc. apply in_map_iff in Hc as (x & <- & Hx). apply filter_In in Hx as [Hx _]. apply A in Hx.
  unfold dms_char. rewrite to_lower_ascii by assumption. destruct (dms_ascii_folding d).
  - rewrite Hf. destruct (folding_of items _) as [y|] eqn:E; [now apply F in E|now apply ascii_low_lt].
  - now apply ascii_low_lt.
Qed.
(** Refuted beyond ASCII: after a match the scan skips as many characters as the
    pattern has bytes, so that what follows a two-byte pattern is lost ("ţk" should
    give 3 for ţ and 5 for k). *)
Theorem C39_multibyte_pattern_skips_refuted :
  exists codes codes', dms_soundex latin1_only dms_default $ "ţk" = Ok codes
    /\ dms_soundex latin1_only dms_default $ "ţxk" = Ok codes'
    /\ codes = $ "300000|400000" /\ codes' = $ "350000|450000".
Proof. eexists. eexists. split; [vm_compute; reflexivity|]. split; [vm_compute; reflexivity|]. split; reflexivity. Qed.
Example C39_nonvacuous : exists items ev sels, built_from dmrules_text true items dms_default
  /\ dm_scan_any (table_of items) 0 (dm_text latin1_only items true $ "Auerbach") ev
  /\ first_of_each indistinct (selections ev) sels /\ map dm_code sels = [$ "097400"; $ "097500"].
Proof.
  destruct C35_default as (items & B & _).
  destruct (C39_scan_exists _ _ _ _ (dm_text latin1_only items true $ "Auerbach") B) as (ev & S & _).
  destruct (C39_codes latin1_only _ _ _ _ $ "Auerbach" ev B S) as (sels & F & E & _).
  exists items, ev, sels. repeat (split; [assumption|]).
  assert (V : inner_soundex latin1_only dms_default $ "Auerbach" true = Ok [$ "097400"; $ "097500"]) by (vm_compute; reflexivity).
  rewrite E in V. now apply Ok_inj in V.
Qed.

(** ** C40: repetitions *)

(** Files without alternatives give one code. *)
Theorem C40_single : forall u text flag items d value, built_from text flag items d ->
  (forall p a b c, In (DmRule p a b c) items -> ~ In (# "|") (a ++ b ++ c)) ->
  exists code, dms_soundex u d value = Ok code /\ dms_encode u d value = Ok code /\ length code = 6%nat.
Proof.
  intros u text flag items d value B NA. destruct (inner_codes u _ _ _ _ value B) as (codes & E & N & S & L).
  pose proof (built_holds _ _ _ _ B) as (H & _ & _ & T).
  assert (Sg : dms_single d).
  { intros c rules r A I. rewrite H in A. destruct (table_of items c) as [|x l] eqn:C; [discriminate|]. injection A as <-.
    apply (proj1 (sort_In (x :: l) r)) in I. rewrite <- C in I. apply table_of_In in I as (p & a & b & e & I & ->).
    specialize (NA _ _ _ _ I). rewrite !in_app_iff in NA. exists a, b, e.
    cbn [rule_of_parts r_at_start r_before_vowel r_default]. unfold parse_branch.
    rewrite !split_on_nosep by tauto. auto. }
  pose proof (C36_encode_is_first u d value codes E) as En.
  assert (O : (length codes <= 1)%nat).
  { unfold inner_soundex in E. rewrite dms_loop_single in E by assumption. apply bind_Ok in E as (bs & E & M).
    apply dms_loop_one in E. apply Ok_inj in M. subst codes. now rewrite map_length. }
  destruct codes as [|code [|c2 codes]]; [congruence| |cbn in O; lia].
  exists code. unfold dms_soundex. rewrite E. split; [reflexivity|]. split; [exact En|]. apply (L code). now left.
Qed.
(** A code listed twice comes from two selections that differ in the text kept
    (before filling) or in the last replacement. *)
Theorem C40_repeats : forall u text flag items d value ev, built_from text flag items d ->
  dm_scan_any (table_of items) 0 (dm_text u items flag value) ev ->
  exists codes, dms_soundex u d value = Ok (join $ "|" codes)
   /\ forall i j code, i <> j -> nth_error codes i = Some code -> nth_error codes j = Some code ->
      exists sel sel', selection ev sel /\ selection ev sel' /\ dm_code sel = code /\ dm_code sel' = code
       /\ (firstn 6 (kept None sel) <> firstn 6 (kept None sel') \/ hd_error (rev (map fst sel)) <> hd_error (rev (map fst sel'))).
Proof.
  intros u text flag items d value ev B S. destruct (C39_codes u _ _ _ _ value ev B S) as (sels & F & _ & E & _).
  exists (map dm_code sels). split; [exact E|]. intros i j code NE Hi Hj. rewrite nth_error_map in Hi, Hj.
  destruct (nth_error sels i) as [si|] eqn:Ei; [|discriminate]. destruct (nth_error sels j) as [sj|] eqn:Ej; [|discriminate].
  injection Hi as Hi. injection Hj as Hj. exists si, sj.
  split; [apply selections_iff; eapply first_of_each_incl; [exact F|eapply nth_error_In; exact Ei]|].
  split; [apply selections_iff; eapply first_of_each_incl; [exact F|eapply nth_error_In; exact Ej]|].
  split; [assumption|]. split; [assumption|].
  destruct (list_eq_dec N.eq_dec (firstn 6 (kept None si)) (firstn 6 (kept None sj))) as [Q|Q]; [right|left; assumption].
  intros Q2. apply (first_of_each_distinct _ _ F i j si sj NE Ei Ej). now split.
Qed.
(** Refuted: the codes listed by soundex are pairwise distinct. *)
Theorem C40_duplicates_refuted : dms_soundex latin1_only dms_default $ "bdbdbdc" = Ok $ "737373|737373".
Proof. vm_compute. reflexivity. Qed.
(** The same code, listed twice, because the branch remembers a replacement that
    no longer fits in the code. *)
Example C40_nonvacuous : exists d, dms_build $ """a"" ""1"" ""1"" ""1""" false = Ok (inl d)
  /\ dms_soundex latin1_only d $ "a" = Ok $ "100000".
Proof. eexists. split; vm_compute; reflexivity. Qed.
Example C34_nonvacuous : exists e, dms_build $ "a=b // ok
?bad" true = Ok (inr e) /\ pe_line_number e = 2%nat /\ pe_line_content e = $ "?bad".
Proof. eexists. split; [vm_compute; reflexivity|split; reflexivity]. Qed.
Example C35_nonvacuous :
  dms_soundex latin1_only dms_default $ "Rosochowaciec" = Ok $ "944744|944745|944754|944755|945744|945745|945754|945755".
Proof. vm_compute. reflexivity. Qed.
