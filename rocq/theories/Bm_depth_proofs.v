(** * The bound on the nesting of includes changes nothing once it is large enough. *)
From Verif Require Import Base BaseLemmas UnicodeM Lib Helper RulesParser DaitchMokotoff Dm_proofs
  BmLanguages BmRegex BmRule BmEngine BmEmbedded BmDefault.
Local Open Scope N_scope.

Section Depth.
Variable u : Unicode.
Variable rx : RegexEngine.
Lemma parse_rule_text_deeper : forall inc1 inc2 f, (forall name, inc1 name <> NoFuel -> inc2 name = inc1 name) ->
  forall fuel acc n text, parse_rule_text u rx inc1 f fuel acc n text <> NoFuel ->
  parse_rule_text u rx inc2 f fuel acc n text = parse_rule_text u rx inc1 f fuel acc n text.
Proof.
  intros inc1 inc2 f INC. induction fuel as [|fuel IH]; intros acc n text H; destruct text as [|c text]; try reflexivity.
  cbn [parse_rule_text] in *. destruct (quadruplet (c :: text)) as [[q rm]|].
  - destruct (make_rule rx f (S n) q) as [[[ch rule]|e]| |]; try reflexivity. cbn [bind] in *. now apply IH.
  - destruct (end_of_line (c :: text)) as [[k rm]|]; [now apply IH|].
    destruct (include u (c :: text)) as [[name rm]|].
    + rewrite INC by (intros Q; rewrite Q in H; now apply H).
      destruct (inc1 name) as [[rules|e]| |]; try reflexivity. cbn [bind] in *. now apply IH.
    + destruct (multiline_comment (c :: text)) as [[k rm]|]; [now apply IH|reflexivity].
Qed.
Lemma parse_rule_deeper : forall rs n m name, (n <= m)%nat -> parse_rule u rx rs n name <> NoFuel ->
  parse_rule u rx rs m name = parse_rule u rx rs n name.
Proof.
  intros rs. induction n as [|n IH]; intros m name L H; [now elim H|]. destruct m as [|m]; [now apply Nat.nle_succ_0 in L|].
  cbn [parse_rule] in *. destruct (resolve rs name) as [content|e]; [|reflexivity]. apply parse_rule_text_deeper; [|assumption].
  intros x Q. apply IH; [now apply le_S_n|assumption].
Qed.
Lemma load_files_deeper : forall rs n m keys acc, (n <= m)%nat -> load_files u rx rs n keys acc <> NoFuel ->
  load_files u rx rs m keys acc = load_files u rx rs n keys acc.
Proof.
  intros rs n m keys acc L. revert acc. induction keys as [|[[nt t] l] keys IH]; intros acc H; [reflexivity|]. cbn [load_files] in *.
  rewrite (parse_rule_deeper rs n m) by (try assumption; intros Q; rewrite Q in H; now apply H).
  destruct (parse_rule u rx rs n (rule_filename nt t l)) as [[x|e]| |]; try reflexivity. cbn [bind] in *. now apply IH.
Qed.
Lemma build_rules_deeper : forall rs n m languages, (n <= m)%nat -> build_rules u rx rs n languages <> NoFuel ->
  build_rules u rx rs m languages = build_rules u rx rs n languages.
Proof.
  intros rs n m languages L. unfold build_rules. generalize all_name_types (@nil (RuleKey * RuleMap)).
  induction l as [|nt l IH]; intros acc H; [reflexivity|]. cbn [build_rules_for] in *.
  destruct (nt_assoc nt languages) as [x|]; [|reflexivity].
  rewrite (load_files_deeper rs n m) by (try assumption; intros Q; rewrite Q in H; now apply H).
  destruct (load_files u rx rs n (files_for nt x) acc) as [[y|e]| |]; try reflexivity. cbn [bind] in *. now apply IH.
Qed.
Lemma config_new_deeper : forall d n m, (n <= m)%nat -> config_new u rx d n <> NoFuel -> config_new u rx d m = config_new u rx d n.
Proof.
  intros d n m L H. unfold config_new in *. destruct (languages_try_from d) as [[x|e]| |]; try reflexivity. cbn [bind] in *.
  destruct (build_langs rx d x) as [[y|e]| |]; try reflexivity. cbn [bind] in *.
  rewrite (build_rules_deeper (dir_resolver d) n m); [reflexivity|assumption|]. intros Q. rewrite Q in H. now apply H.
Qed.
Lemma config_default_deeper : forall n m, (n <= m)%nat -> config_default u rx n <> NoFuel -> config_default u rx m = config_default u rx n.
Proof.
  intros n m L H. unfold config_default, rules_default in *.
  rewrite (build_rules_deeper embedded_resolver n m); [reflexivity|assumption|]. intros Q. rewrite Q in H. now apply H.
Qed.
End Depth.
