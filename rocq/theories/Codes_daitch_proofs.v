(** * Which codes exist: Daitch-Mokotoff with the embedded rules. *)
From Verif Require Import Base UnicodeM Lib Helper RulesParser DaitchMokotoff DmRules BaseLemmas Spec_common Spec_codes
  Soundex_proofs UnicodeLemmas Props_caverphone Props_caverphone_spec Codes_proofs Dm_proofs Props_dm.
Local Open Scope N_scope.

Definition DD : ustr := $ "13456789".
Definition good (b : ustr) : Prop := exists front digits, In front [[]; $ "0"; $ "2"] /\ made_of DD digits /\ b = front ++ digits.
Definition goodb (b : ustr) : bool :=
  match b with [] => true | c :: r => isin c $ "0123456789" && forallb (fun x => isin x DD) r end.
Lemma made_b : forall set l, forallb (fun x => isin x set) l = true -> made_of set l.
Proof. intros set l H c Hc. rewrite forallb_forall in H. now apply isin_In, H. Qed.
Lemma good_b : forall b, goodb b = true -> good b.
Proof.
  intros [|c r] H; [exists [], []; split; [cbn; tauto|]; split; [intros c []|reflexivity]|].
  apply andb_true_iff in H as [H1 H2]. apply made_b in H2. apply isin_In in H1.
  assert (K : c = # "0" \/ c = # "2" \/ In c DD).
  { cbn in H1. repeat (destruct H1 as [<-|H1]; [cbn; tauto|]). destruct H1. }
  destruct K as [->|[->|K]].
  - exists $ "0", r. split; [cbn; tauto|]. now split.
  - exists $ "2", r. split; [cbn; tauto|]. now split.
  - exists [], (c :: r). split; [cbn; tauto|]. split; [|reflexivity]. intros x [<-|Hx]; auto.
Qed.
Lemma good_app : forall b r, good b -> made_of DD r -> good (b ++ r).
Proof.
  intros b r (f & ds & Hf & Hd & ->) Hr. exists f, (ds ++ r). split; [exact Hf|]. split; [|now rewrite app_assoc].
  intros c Hc. apply in_app_or in Hc as [Hc|Hc]; auto.
Qed.
Lemma good_prefix : forall a b, good (a ++ b) -> good a.
Proof.
  intros a b (f & ds & Hf & Hd & E). destruct a as [|c a]; [now apply good_b|].
  assert (Hr : forall x, In x (f ++ ds) -> In x $ "0123456789").
  { intros x Hx. apply in_app_or in Hx as [Hx|Hx]; [destruct Hf as [<-|[<-|[<-|[]]]]; cbn in Hx |- *; tauto|]. apply Hd in Hx.
    cbn in Hx |- *. tauto. }
  apply good_b. cbn [goodb]. apply andb_true_iff. split; [apply isin_In, Hr; rewrite <- E; now left|].
  apply forallb_forall. intros x Hx. apply isin_In. apply Hd.
  destruct Hf as [<-|[<-|[<-|[]]]]; cbn [app] in E; [rewrite <- E; right; apply in_or_app; now left|..];
    injection E as _ <-; apply in_or_app; now left.
Qed.
(** ** Forward *)
Definition fit (b : ustr) : Prop := good b /\ (blen b <= MAX_LENGTH)%nat.
Lemma process_good : forall b r f nb, process_next_replacement b r f = Ok nb -> fit (br_builder b) -> good (br_builder b ++ r) ->
  fit (br_builder nb).
Proof.
  intros b r f nb H [G1 L1] G2. unfold process_next_replacement in H. apply bind_Ok in H as (x & Hx & H). injection H as <-.
  cbn [br_builder]. destruct (_ && _); [|injection Hx as <-; now split].
  destruct (Nat.ltb _ _) eqn:L; [|injection Hx as <-; split; [exact G2|now apply Nat.ltb_ge]]. apply slice0_spec in Hx as (t & E & Lx).
  split; [|rewrite Lx; apply le_n]. apply (good_prefix x t). now rewrite <- E.
Qed.
Lemma push_in : forall l b x, In x (push_branch l b) -> x = b \/ In x l.
Proof. intros l b x H. unfold push_branch in H. destruct (existsb _ _); [now right|]. apply in_app_or in H as [H|[H|[]]]; auto. Qed.
Lemma replacements_good : forall br f b rs next out, apply_replacements br f b rs next = Ok out ->
  fit (br_builder b) -> (forall r, In r rs -> good (br_builder b ++ r)) -> (forall x, In x next -> fit (br_builder x)) ->
  forall x, In x out -> fit (br_builder x).
Proof.
  induction rs as [|r rs IH]; intros next out H Gb Gr Gn; [injection H as <-; exact Gn|].
  cbn [apply_replacements] in H. apply bind_Ok in H as (nb & Hn & H).
  assert (G : forall x, In x (push_branch next nb) -> fit (br_builder x)).
  { intros x Hx. apply push_in in Hx as [->|Hx]; [|auto]. apply (process_good b r f nb Hn Gb). apply Gr. now left. }
  destruct br; [|injection H as <-; exact G]. apply (IH _ _ H Gb); [|exact G]. intros r' Hr. apply Gr. now right.
Qed.
Lemma branches_good : forall br f bs rs next out, apply_to_branches br f bs rs next = Ok out ->
  (forall b, In b bs -> fit (br_builder b) /\ forall r, In r rs -> good (br_builder b ++ r)) ->
  (forall x, In x next -> fit (br_builder x)) -> forall x, In x out -> fit (br_builder x).
Proof.
  induction bs as [|b bs IH]; intros rs next out H Gb Gn; [injection H as <-; exact Gn|].
  cbn [apply_to_branches] in H. apply bind_Ok in H as (n1 & H1 & H).
  apply (IH rs n1 out H); [intros b' Hb; apply Gb; now right|].
  apply (replacements_good br f b rs next n1 H1); [apply Gb; now left|apply Gb; now left|exact Gn].
Qed.
Definition rules_good : bool := forallb (fun kv => negb (fst kv =? 0) && forallb (fun r =>
  forallb goodb (r_at_start r) && forallb (forallb (fun x => isin x DD)) (r_before_vowel r) && forallb (forallb (fun x => isin x DD)) (r_default r)) (snd kv))
  (dms_rules dms_default).
Lemma rules_are_good : rules_good = true. Proof. vm_compute. reflexivity. Qed.
Lemma assoc_In : forall A k (l : list (N * A)) v, assoc k l = Some v -> In (k, v) l.
Proof.
  induction l as [|[k' v'] l IH]; intros v H; [discriminate|]. cbn [assoc] in H. destruct (N.eqb_spec k' k) as [->|_].
  - injection H as ->. now left.
  - right. now apply IH.
Qed.
Lemma rule_good : forall c rules rule, assoc c (dms_rules dms_default) = Some rules -> In rule rules ->
  c <> 0 /\ (forall r, In r (r_at_start rule) -> good r)
  /\ (forall r, In r (r_before_vowel rule) \/ In r (r_default rule) -> made_of DD r).
Proof.
  intros c rules rule H Hr. apply assoc_In in H. assert (G := rules_are_good). unfold rules_good in G. rewrite forallb_forall in G.
  apply G in H. clear G. cbn [fst snd] in H. apply andb_true_iff in H as [H1 H2]. rewrite forallb_forall in H2. apply H2 in Hr.
  apply andb_true_iff in Hr as [Hr H5]. apply andb_true_iff in Hr as [H3 H4]. apply negb_true_iff, N.eqb_neq in H1.
  rewrite forallb_forall in H3, H4, H5. split; [exact H1|]. split; [intros r Hx; now apply good_b, H3|].
  intros r [Hx|Hx]; now apply made_b; auto.
Qed.
Lemma loop_good : forall br chars skip last bs out, dms_loop dms_default br skip last bs chars = Ok out ->
  (last = 0 -> bs = [branch_default]) -> (forall b, In b bs -> fit (br_builder b)) ->
  forall b, In b out -> fit (br_builder b).
Proof.
  induction chars as [|c r IH]; intros skip last bs out H H0 G; [injection H as <-; exact G|].
  cbn [dms_loop] in H. destruct skip as [|k]; [|now apply (IH k last bs out H)].
  destruct (assoc c (dms_rules dms_default)) as [rules|] eqn:E; [|now apply (IH _ last bs out H)].
  destruct (find _ rules) as [rule|] eqn:F.
  2:{ apply (IH _ c bs out H); [|exact G]. intros ->. vm_compute in E. discriminate. }
  apply find_some in F as [F _]. destruct (rule_good c rules rule E F) as (N0 & Ga & Gd).
  apply bind_Ok in H as (next & Hn & H). apply (IH _ c next out H); [contradiction|].
  apply (branches_good br _ bs _ [] next Hn); [|intros x []]. intros b Hb. split; [now apply G|]. intros x Hx.
  unfold get_replacements in Hx. destruct (N.eqb_spec last 0) as [Z|Z].
  - rewrite (H0 Z) in Hb. destruct Hb as [<-|[]]. now apply Ga.
  - apply good_app; [now apply G|]. apply Gd. destruct (Nat.ltb _ _ && _) in Hx; auto.
Qed.
Lemma good_ascii : forall b, good b -> ascii_str b.
Proof.
  intros b (f & ds & Hf & Hd & ->) c Hc. apply in_app_or in Hc as [Hc|Hc].
  - destruct Hf as [<-|[<-|[<-|[]]]]; cbn in Hc; repeat (destruct Hc as [<-|Hc]; [reflexivity|]); destruct Hc.
  - apply N.ltb_lt. apply (on_set (fun c => c <? 128) DD); [now apply Hd|reflexivity].
Qed.
Lemma inner_good : forall u br s codes, inner_soundex u dms_default s br = Ok codes -> forall code, In code codes ->
  exists b, good b /\ (length b <= 6)%nat /\ code = b ++ repeat (# "0") (6 - length b).
Proof.
  intros u br s codes H code Hc. unfold inner_soundex in H. apply bind_Ok in H as (bs & Hb & H). injection H as <-.
  apply in_map_iff in Hc as (b & <- & Hb'). exists (br_builder b).
  assert (G : fit (br_builder b)).
  { apply (loop_good br (dms_source u dms_default s) 0 0 [branch_default] bs Hb); [reflexivity| |exact Hb'].
    intros x [<-|[]]. split; [now apply good_b|cbn; lia]. }
  destruct G as [G L]. assert (A : ascii_str (br_builder b)) by now apply good_ascii. rewrite ascii_blen in L by exact A.
  split; [exact G|]. split; [exact L|]. unfold br_finish. now rewrite ascii_blen by exact A.
Qed.
(** ** Backward: a word for every form *)
Definition rule_for (c : N) (context : ustr) : option Rule :=
  match assoc c (dms_rules dms_default) with
  | Some rules => find (fun rule => rule_matches rule context) rules
  | None => None
  end.
Definition look (c : N) (last : N) (context : ustr) : option (nat * list ustr) :=
  match rule_for c context with
  | Some rule => Some (blen (r_pattern rule), get_replacements rule context (last =? 0))
  | None => None
  end.
Lemma step : forall br last b c r n x nb, look c last (c :: r) = Some (n, [x]) ->
  ((last =? # "m") && (c =? # "n")) || ((last =? # "n") && (c =? # "m")) = false ->
  process_next_replacement b x false = Ok nb ->
  dms_loop dms_default br 0 last [b] (c :: r) = dms_loop dms_default br (n - 1) c [nb] r.
Proof.
  intros br last b c r n x nb H HF HP. unfold look, rule_for in H. cbn [dms_loop].
  destruct (assoc c (dms_rules dms_default)) as [rules|]; [|discriminate].
  destruct (find _ rules) as [rule|]; [|discriminate]. injection H as <- E. rewrite E, HF.
  cbn [apply_to_branches apply_replacements]. rewrite HP. cbn [bind]. destruct br; reflexivity.
Qed.
Lemma proc_digit : forall b d, (blen (br_builder b) < 6)%nat -> (blen [d] = 1)%nat ->
  br_last b = None \/ (exists v, br_last b = Some v /\ ends_with v [d] = false) ->
  process_next_replacement b [d] false = Ok {| br_builder := br_builder b ++ [d]; br_last := Some [d] |}.
Proof.
  intros b d L Ld Hl. unfold process_next_replacement.
  assert (E : match br_last b with None => true | Some v => negb (ends_with v [d]) end || false = true).
  { destruct Hl as [->|(v & -> & ->)]; reflexivity. }
  assert (L2 : Nat.ltb (blen (br_builder b)) MAX_LENGTH = true) by now apply Nat.ltb_lt. rewrite E, L2. cbn [andb].
  assert (M : Nat.ltb MAX_LENGTH (blen (br_builder b ++ [d])) = false).
  { apply Nat.ltb_ge. rewrite blen_app, Ld. change MAX_LENGTH with 6%nat. lia. }
  now rewrite M.
Qed.
Lemma proc_empty : forall b, (blen (br_builder b) <= 6)%nat ->
  process_next_replacement b [] false = Ok {| br_builder := br_builder b; br_last := Some [] |}.
Proof.
  intros b L. unfold process_next_replacement. rewrite app_nil_r.
  destruct (_ && _) in |- *; [|reflexivity]. assert (M : Nat.ltb MAX_LENGTH (blen (br_builder b)) = false) by now apply Nat.ltb_ge.
  now rewrite M.
Qed.
Definition syllable (d : N) : ustr :=
  if d =? # "1" then $ "euo" else if d =? # "3" then $ "do" else if d =? # "4" then $ "so" else if d =? # "5" then $ "ko"
  else if d =? # "6" then $ "mo" else if d =? # "7" then $ "bo" else if d =? # "8" then $ "lo" else $ "ro".
Definition tail_ok (r : ustr) : Prop := match r with [] => True | c :: _ => In c $ "edskmblr" end.
Lemma o_step : forall br b r, tail_ok r -> (blen (br_builder b) <= 6)%nat -> forall last, In last $ "edskmblr" ->
  dms_loop dms_default br 0 last [b] (# "o" :: r)
  = dms_loop dms_default br 0 (# "o") [{| br_builder := br_builder b; br_last := Some [] |}] r.
Proof.
  intros br b r T L last Hl. rewrite (step br last b (# "o") r 1 [] {| br_builder := br_builder b; br_last := Some [] |}); [reflexivity| | |now apply proc_empty].
  - destruct r as [|c r].
    + cbn in Hl. repeat (destruct Hl as [<-|Hl]; [vm_compute; reflexivity|]). destruct Hl.
    + cbn [tail_ok] in T. assert (Z : last =? 0 = false).
      { apply N.eqb_neq. intros ->. revert Hl. apply (proj1 (isin_false _ _)). reflexivity. }
      unfold look. rewrite Z. clear Hl Z.
      cbn in T. repeat (destruct T as [<-|T]; [vm_compute; reflexivity|]). destruct T.
  - cbn in Hl. repeat (destruct Hl as [<-|Hl]; [reflexivity|]). destruct Hl.
Qed.
Lemma skip1 : forall br last bs c r k, dms_loop dms_default br (S k) last bs (c :: r) = dms_loop dms_default br k last bs r.
Proof. reflexivity. Qed.
Lemma syllable_step : forall br d last b r, In d DD -> In last [0; # "o"] -> tail_ok r -> (blen (br_builder b) < 6)%nat ->
  br_last b = None \/ (exists v, br_last b = Some v /\ ends_with v [d] = false) ->
  dms_loop dms_default br 0 last [b] (syllable d ++ r)
  = dms_loop dms_default br 0 (# "o") [{| br_builder := br_builder b ++ [d]; br_last := Some [] |}] r.
Proof.
  intros br d last b r Hd Hlast T L Hb.
  assert (Ld : blen [d] = 1%nat).
  { rewrite ascii_blen; [reflexivity|]. intros c [<-|[]]. apply N.ltb_lt. now apply (on_set (fun c => c <? 128) DD). }
  assert (HP := proc_digit b d L Ld Hb).
  assert (L2 : (blen (br_builder b ++ [d]) <= 6)%nat) by (rewrite blen_app, Ld; lia).
  set (nb := {| br_builder := br_builder b ++ [d]; br_last := Some [d] |}) in *.
  assert (O := fun last' (Hl : In last' $ "edskmblr") => o_step br nb r T L2 last' Hl). cbn [br_builder nb] in O.
  cbn in Hd. destruct Hd as [<-|Hd].
  { change (syllable (# "1")) with $ "euo". cbn [app].
    rewrite (step br last b (# "e") _ 2 [# "1"] nb); [|destruct Hlast as [<-|[<-|[]]]; vm_compute; reflexivity
      |destruct Hlast as [<-|[<-|[]]]; reflexivity|exact HP].
    cbn [Nat.sub]. rewrite skip1. exact (O (# "e") ltac:(cbn; tauto)). }
  repeat (destruct Hd as [<-|Hd]; [
    match goal with |- dms_loop _ _ _ _ _ (syllable ?d ++ _) = _ =>
      let s' := eval vm_compute in (syllable d) in change (syllable d) with s'; cbn [app];
      match s' with ?c :: _ =>
        rewrite (step br last b c _ 1 [d] nb); [apply (O c); cbn; tauto|destruct Hlast as [<-|[<-|[]]]; vm_compute; reflexivity
          |destruct Hlast as [<-|[<-|[]]]; vm_compute; reflexivity|exact HP] end end |]).
  destruct Hd.
Qed.
Definition spelled (digits : ustr) : ustr := flat_map syllable digits.
Lemma spelled_tail : forall digits, made_of DD digits -> tail_ok (spelled digits).
Proof.
  intros [|d ds] H; [exact I|]. assert (Hd : In d DD) by (apply H; now left). cbn [spelled flat_map].
  cbn in Hd. repeat (destruct Hd as [<-|Hd]; [cbn; tauto|]). destruct Hd.
Qed.
Lemma ends_nil : forall d, ends_with [] [d] = false. Proof. reflexivity. Qed.
Lemma spelled_run : forall br digits b last, made_of DD digits -> In last [0; # "o"] -> ascii_str (br_builder b) ->
  (length (br_builder b) + length digits <= 6)%nat -> 
  br_last b = None \/ (exists v, br_last b = Some v /\ forall d, In d DD -> ends_with v [d] = false) ->
  exists b', dms_loop dms_default br 0 last [b] (spelled digits) = Ok [b'] /\ br_builder b' = br_builder b ++ digits.
Proof.
  induction digits as [|d ds IH]; intros b last Hm Hlast A L Hb.
  - exists b. split; [reflexivity|now rewrite app_nil_r].
  - assert (Hd : In d DD) by (apply Hm; now left). assert (Hds : made_of DD ds) by (intros c Hc; apply Hm; now right).
    cbn [length] in L. cbn [spelled flat_map].
    fold (spelled ds). rewrite syllable_step; [|exact Hd|exact Hlast|now apply spelled_tail|rewrite ascii_blen by exact A; lia|].
    2:{ destruct Hb as [Hb|(v & Hb & Hv)]; [now left|right; exists v; auto]. }
    destruct (IH {| br_builder := br_builder b ++ [d]; br_last := Some [] |} (# "o") Hds) as (b' & E & E').
    + cbn. tauto.
    + cbn [br_builder]. intros c Hc. apply in_app_or in Hc as [Hc|[<-|[]]]; [now apply A|]. apply N.ltb_lt.
      now apply (on_set (fun c => c <? 128) DD).
    + cbn [br_builder]. rewrite app_length. cbn [length]. lia.
    + right. exists []. split; [reflexivity|]. intros x _. apply ends_nil.
    + exists b'. split; [exact E|]. rewrite E'. cbn [br_builder]. now rewrite <- app_assoc.
Qed.
Definition front_word (front : ustr) : ustr :=
  match front with [] => [] | c :: _ => if c =? # "0" then $ "o" else $ "sto" end.
Lemma all_run : forall br front digits, In front [[]; $ "0"; $ "2"] -> made_of DD digits -> (length (front ++ digits) <= 6)%nat ->
  exists b', dms_loop dms_default br 0 0 [branch_default] (front_word front ++ spelled digits) = Ok [b'] /\ br_builder b' = front ++ digits.
Proof.
  intros br front digits Hf Hd L. rewrite app_length in L.
  assert (P0 : forall d, In d $ "02" -> process_next_replacement branch_default [d] false = Ok {| br_builder := [d]; br_last := Some [d] |}).
  { intros d H. cbn in H. destruct H as [<-|[<-|[]]]; reflexivity. }
  destruct Hf as [<-|[<-|[<-|[]]]].
  - cbn [front_word app]. apply (spelled_run br digits branch_default 0); [exact Hd|cbn; tauto|intros c []|exact L|now left].
  - change (front_word $ "0") with $ "o". cbn [app].
    rewrite (step br 0 branch_default (# "o") _ 1 $ "0" {| br_builder := $ "0"; br_last := Some $ "0" |}); [| |reflexivity|apply P0; cbn; tauto].
    + cbn [Nat.sub].
      destruct (spelled_run br digits {| br_builder := $ "0"; br_last := Some $ "0" |} (# "o") Hd) as (b' & E & E').
      * cbn. tauto.
      * intros c [<-|[]]. reflexivity.
      * exact L.
      * right. exists $ "0". split; [reflexivity|]. intros d H. cbn in H. repeat (destruct H as [<-|H]; [reflexivity|]). destruct H.
      * exists b'. split; [exact E|exact E'].
    + assert (T := spelled_tail digits Hd). destruct (spelled digits) as [|c r]; [vm_compute; reflexivity|].
      cbn in T. repeat (destruct T as [<-|T]; [vm_compute; reflexivity|]). destruct T.
  - change (front_word $ "2") with $ "sto". cbn [app].
    rewrite (step br 0 branch_default (# "s") _ 2 $ "2" {| br_builder := $ "2"; br_last := Some $ "2" |});
      [|vm_compute; reflexivity|reflexivity|apply P0; cbn; tauto].
    cbn [Nat.sub]. rewrite skip1. rewrite o_step; [|now apply spelled_tail|cbn; lia|cbn; tauto].
    destruct (spelled_run br digits {| br_builder := $ "2"; br_last := Some [] |} (# "o") Hd) as (b' & E & E').
    + cbn. tauto.
    + intros c [<-|[]]. reflexivity.
    + exact L.
    + right. exists []. split; [reflexivity|]. intros d _. apply ends_nil.
    + exists b'. split; [exact E|exact E'].
Qed.
Definition plain : ustr := $ "eudskmblrot".
Lemma plain_source : forall u s, (forall c, In c s -> In c plain) -> dms_source u dms_default s = s.
Proof.
  intros u s H. unfold dms_source.
  assert (W : forall c, In c plain -> is_whitespace u c = false /\ dms_char u dms_default c = c).
  { intros c Hc. assert (A : c < 128) by (apply N.ltb_lt; now apply (on_set (fun c => c <? 128) plain)).
    rewrite is_whitespace_ascii by exact A. unfold dms_char. rewrite to_lower_ascii by exact A. clear A.
    cbn in Hc. repeat (destruct Hc as [<-|Hc]; [split; vm_compute; reflexivity|]). destruct Hc. }
  induction s as [|c s IH]; [reflexivity|].
  destruct (W c (H c (or_introl eq_refl))) as [W1 W2]. cbn [filter]. rewrite W1. cbn [negb map]. rewrite W2. f_equal. apply IH.
  intros x Hx. apply H. now right.
Qed.
Lemma word_plain : forall front digits, In front [[]; $ "0"; $ "2"] -> made_of DD digits ->
  forall c, In c (front_word front ++ spelled digits) -> In c plain.
Proof.
  intros front digits Hf Hd c Hc. apply in_app_or in Hc as [Hc|Hc].
  - destruct Hf as [<-|[<-|[<-|[]]]]; cbn in Hc |- *; tauto.
  - apply in_flat_map in Hc as (d & H & Hc). apply Hd in H. cbn in H.
    repeat (destruct H as [<-|H]; [cbn in Hc |- *; tauto|]). destruct H.
Qed.
Lemma run_inner : forall u br front digits, In front [[]; $ "0"; $ "2"] -> made_of DD digits -> (length (front ++ digits) <= 6)%nat ->
  inner_soundex u dms_default (front_word front ++ spelled digits) br
  = Ok [(front ++ digits) ++ repeat (# "0") (6 - length (front ++ digits))].
Proof.
  intros u br front digits Hf Hd L. unfold inner_soundex. rewrite plain_source by (now apply word_plain).
  destruct (all_run br front digits Hf Hd L) as (b' & -> & E). cbn [bind map]. unfold br_finish. rewrite E.
  rewrite ascii_blen; [reflexivity|]. apply good_ascii. now exists front, digits.
Qed.
Lemma inner_nonempty : forall u br s codes, inner_soundex u dms_default s br = Ok codes -> forall code, In code codes -> daitch_form code.
Proof.
  intros u br s codes H code Hc. destruct (inner_good u br s codes H code Hc) as (b & (f & ds & Hf & Hd & ->) & L & ->).
  exists f, ds. split; [exact Hf|]. split; [exact Hd|]. now split.
Qed.
Lemma default_codes : forall u s, exists codes, inner_soundex u dms_default s true = Ok codes /\ codes <> []
  /\ split_on (# "|") (join $ "|" codes) = codes.
Proof.
  intros u s. destruct C35_default as (items & B & _). destruct (inner_codes u _ _ _ _ s B) as (codes & E & Ne & Sp & _).
  now exists codes.
Qed.
Lemma daitch_soundex_codes : forall u code,
  (exists s out, dms_soundex u dms_default s = Ok out /\ In code (split_on (# "|") out)) <-> daitch_form code.
Proof.
  intros u code. split.
  - intros (s & out & H & Hc). destruct (default_codes u s) as (codes & E & _ & Sp). unfold dms_soundex in H. rewrite E in H.
    injection H as <-. rewrite Sp in Hc. now apply (inner_nonempty u true s codes E).
  - intros (f & ds & Hf & Hd & L & ->). exists (front_word f ++ spelled ds).
    destruct (default_codes u (front_word f ++ spelled ds)) as (codes & E & _ & Sp). exists (join $ "|" codes).
    unfold dms_soundex. rewrite E. split; [reflexivity|]. rewrite Sp. rewrite run_inner in E by assumption. injection E as <-. now left.
Qed.
Lemma daitch_encode_codes : forall u code, (exists s, dms_encode u dms_default s = Ok code) <-> daitch_form code.
Proof.
  intros u code. split.
  - intros (s & H). destruct (default_codes u s) as (codes & E & Ne & _). rewrite (C36_encode_is_first u dms_default s codes E) in H.
    destruct codes as [|x codes]; [contradiction|]. injection H as <-. apply (inner_nonempty u true s _ E). now left.
  - intros (f & ds & Hf & Hd & L & ->). exists (front_word f ++ spelled ds). unfold dms_encode.
    rewrite run_inner by assumption. reflexivity.
Qed.
