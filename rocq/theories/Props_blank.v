(** * C88: names without a code, and the letters that guarantee one. *)
From Verif Require Import Base UnicodeM Lib Helper Cologne Phonex Nysiis MatchRating Metaphone DoubleMetaphone Caverphone DaitchMokotoff DmRules
  BaseLemmas Spec_common Spec_cologne Spec_rewrite Spec_phonex Spec_mra Spec_metaphone Spec_double_metaphone Spec_caverphone Spec_blank
  UnicodeLemmas Soundex_proofs Cologne_proofs Props_phonex_spec Props_mra Upper_ok Nysiis_spec_proofs Props_nysiis_spec Rewrite_proofs
  Props_metaphone_spec Props_double_metaphone_spec Caverphone_spec_proofs Props_caverphone_spec Caverphone_proofs
  Blank_nysiis_proofs Blank_metaphone_proofs Blank_double_metaphone_proofs Blank_caverphone_proofs Blank_daitch_proofs.
Local Open Scope N_scope.

Definition AtoZ : ustr := $ "ABCDEFGHIJKLMNOPQRSTUVWXYZ".
Lemma AtoZ_iff : forall c, In c AtoZ <-> # "A" <= c <= # "Z".
Proof.
  intros c. split; [cbn; lia|]. intros H. cbn in H. assert (E : c = N.of_nat (65 + (N.to_nat c - 65))%nat) by lia.
  assert (L : (N.to_nat c - 65 < 26)%nat) by lia. rewrite E. generalize (N.to_nat c - 65)%nat L. clear. intros n L.
  do 26 (destruct n as [|n]; [cbn; tauto|]). lia.
Qed.
Lemma two_sets : forall set comp, forallb (fun c => isin c set || isin c comp) AtoZ = true ->
  forall x, # "A" <= x <= # "Z" -> In x set \/ In x comp.
Proof.
  intros set comp K x H. apply AtoZ_iff in H. rewrite forallb_forall in K. specialize (K x H).
  apply orb_true_iff in K as [K|K]; apply isin_In in K; auto.
Qed.

(** ** Cologne phonetic: no letter but H. *)
Lemma codes_blank : forall text before, (forall c, In c (cologne_codes before text) -> c = # "-") <->
  (forall c, In c text -> In c AtoZ -> c = # "H").
Proof.
  intros text. induction text as [|c r IH]; intros before; [cbn; split; intros _ c []|]. cbn [cologne_codes].
  change (isin c $ "ABCDEFGHIJKLMNOPQRSTUVWXYZ") with (isin c AtoZ). destruct (isin c AtoZ) eqn:E.
  - split.
    + intros H x Hx Ax. destruct (N.eq_dec c (# "H")) as [->|Nh].
      * destruct Hx as [<-|Hx]; [reflexivity|]. apply (IH (# "H" :: before)); auto. intros y Hy. apply H, in_or_app. now right.
      * exfalso. destruct (table_not_H (forallb (fun l => l =? # "H") before) (hd_error before) (hd_error r) c E Nh) as (d & ds & T & Nd & _).
        apply Nd, H. rewrite T. now left.
    + intros H y Hy. assert (c = # "H") as ->. { apply H; [now left|now apply isin_In]. }
      rewrite table_H in Hy. apply in_app_or in Hy as [[<-|[]]|Hy]; [reflexivity|].
      apply (proj2 (IH (# "H" :: before))); [|exact Hy]. intros x Hx. apply H. now right.
  - rewrite (IH before). split; intros H x Hx.
    + destruct Hx as [<-|Hx]; [|now apply H]. intros Ax. apply isin_In in Ax. congruence.
    + apply H. now right.
Qed.
Theorem C88_cologne : forall u s, cologne_encode u s = Ok [] <->
  forall c, In c (str_upper u s) -> ~ In c $ "ÄÖÜ" /\ (# "A" <= c <= # "Z" -> c = # "H").
Proof.
  intros u s. rewrite encode_codes.
  assert (X : (Ok (cologne_reduce (cologne_codes [] (map fold_upper (str_upper u s)))) = Ok []) <->
    cologne_reduce (cologne_codes [] (map fold_upper (str_upper u s))) = []).
  { split; [intros H; now injection H|now intros ->]. }
  rewrite X, reduce_nil_iff, codes_blank. clear X. split.
  - intros H c Hc. specialize (H (fold_upper c) (in_map _ _ _ Hc)). split.
    + intros [<-|[<-|[<-|[]]]]; vm_compute in H; assert (K := H ltac:(tauto)); discriminate K.
    + intros R. assert (E : fold_upper c = c).
      { unfold fold_upper. cbn in R. repeat match goal with |- context [?a =? ?b] => destruct (N.eqb_spec a b); [lia|] end. reflexivity. }
      rewrite E in H. apply H. now apply AtoZ_iff.
  - intros H c Hc A. apply in_map_iff in Hc as (x & <- & Hx). destruct (H x Hx) as [Nu K].
    assert (E : fold_upper x = x).
    { unfold fold_upper. repeat match goal with |- context [x =? ?b] => destruct (N.eqb_spec x b) as [->|];
        [elim Nu; cbn; tauto|] end. reflexivity. }
    rewrite E in *. apply K. now apply AtoZ_iff.
Qed.
Lemma In_letters : forall s c, In c (ascii_letters s) <-> In c (map ascii_up s) /\ # "A" <= c <= # "Z".
Proof.
  intros s c. unfold ascii_letters. rewrite !in_map_iff. split.
  - intros (x & <- & Hx). apply filter_In in Hx as [Hx Ax]. split; [now exists x|]. apply is_ascii_alpha_iff in Ax.
    destruct (ascii_up_cases x) as [[Q E]|[Q E]]; rewrite E; cbn; lia.
  - intros [(x & E & Hx) R]. exists x. split; [exact E|]. apply filter_In. split; [exact Hx|]. apply is_ascii_alpha_iff.
    destruct (ascii_up_cases x) as [[Q E']|[Q E']]; rewrite E' in E; cbn in R; lia.
Qed.
Theorem C88_cologne_ascii : forall u s, ascii_str s ->
  (cologne_encode u s = Ok [] <-> forall c, In c (ascii_letters s) -> c = # "H").
Proof.
  intros u s A. rewrite C88_cologne, (str_upper_ascii u s A). split; intros H c Hc.
  - apply In_letters in Hc as [Hc R]. now apply (H c Hc).
  - split; [|intros R; apply H, In_letters; now split]. intros K.
    assert (c < 128) by exact (ascii_str_map_up s A c Hc). cbn in K. lia.
Qed.

(** ** Phonex: only a run of S, or an H before one. *)
Lemma padded_blank : forall max f ds, f <> # "0" -> (1 <= max)%nat -> pad_to max (# "0") (f :: ds) <> repeat (# "0") max.
Proof. intros [|n] f ds H L E; [lia|]. cbn in E. injection E as E _. congruence. Qed.
Lemma rw_cases : forall t s s', start_rewritten t s s' -> s' = s \/ exists p q r, In (p, q) t /\ s = p ++ r /\ s' = q ++ r.
Proof.
  intros t s s' [(p & q & r & (t1 & t2 & -> & -> & _) & ->)|[_ ->]]; [right|now left].
  exists p, q, r. split; [apply in_or_app; right; now left|now split].
Qed.
Lemma rw_AtoZ : forall t s s', forallb (fun e => forallb (fun c => isin c AtoZ) (snd e)) t = true -> start_rewritten t s s' ->
  (forall c, In c s -> In c AtoZ) -> forall c, In c s' -> In c AtoZ.
Proof.
  intros t s s' K R H c Hc. apply rw_cases in R as [->|(p & q & r & I & -> & ->)]; [now apply H|].
  apply in_app_or in Hc as [Hc|Hc]; [|apply H, in_or_app; now right].
  rewrite forallb_forall in K. specialize (K _ I). cbn [snd] in K. rewrite forallb_forall in K. now apply isin_In, K.
Qed.
Lemma rw_nil : forall t s, forallb (fun e => match snd e with [] => false | _ => true end) t = true -> start_rewritten t s [] -> s = [].
Proof.
  intros t s K R. apply rw_cases in R as [->|(p & q & r & I & -> & E)]; [reflexivity|].
  rewrite forallb_forall in K. specialize (K _ I). cbn [snd] in K. destruct q; [discriminate K|discriminate E].
Qed.
Theorem C88_phonex : forall u max s, (2 <= max)%nat -> letters_are_ascii (is_alphabetic u) s ->
  (phonex_encode u max s = Ok (repeat (# "0") max) <->
   exists k, ascii_letters s = repeat (# "S") k \/ ascii_letters s = # "H" :: repeat (# "S") k).
Proof.
  intros u max s Hm HA. rewrite (C66_phonex_is_its_definition u max s Hm HA). split.
  - intros (t & code & (a & b & c & (k & W1 & W2) & P1 & P2 & P3) & Co & E). exists k.
    assert (At : forall x, In x t -> In x AtoZ).
    { apply (rw_AtoZ phonex_initials c t eq_refl P3), (rw_AtoZ phonex_silent_h b c eq_refl P2), (rw_AtoZ phonex_pairs a b eq_refl P1). intros x Hx.
      assert (I : In x (ascii_letters s)) by (rewrite W1; apply in_or_app; now left). apply AtoZ_iff. now apply In_letters in I. }
    assert (Z : forall f r, t = f :: r -> f <> # "0").
    { intros f r -> ->. specialize (At (# "0") (or_introl eq_refl)). cbn in At. lia. }
    assert (Ht : t = []).
    { destruct Co as [|f r ds _ _|f n r ds _ _]; [reflexivity|exfalso..].
      - apply (padded_blank max f ds); [exact (Z _ _ eq_refl)|lia|now symmetry].
      - apply (padded_blank max f (# "5" :: ds)); [exact (Z _ _ eq_refl)|lia|now symmetry]. }
    subst t. apply rw_nil in P3; [subst c|reflexivity].
    apply rw_cases in P2 as [<-|(p & q & r & [I|[]] & -> & E2)].
    + apply rw_nil in P1; [subst a|reflexivity]. left. exact W1.
    + injection I as <- <-. cbn in E2. subst r. apply rw_cases in P1 as [<-|(p & q & r & I & -> & E3)]; [right; exact W1|].
      cbn in I. destruct I as [I|[I|[I|[]]]]; injection I as <- <-; discriminate E3.
  - assert (Pn : forall m, pad_to m (# "0") [] = repeat (# "0") m).
    { intros m. unfold pad_to. cbn [app]. rewrite <- (repeat_length (# "0") m) at 1. apply firstn_all. }
    intros (k & [E|E]); exists [], []; (split; [|split; [constructor|now rewrite Pn]]); rewrite E.
    + exists [], [], []. split; [|split; [|split]].
      * exists k. split; [reflexivity|]. intros [|x b] H; discriminate H.
      * right. split; [|reflexivity]. intros p q r I H. cbn in I. repeat destruct I as [I|I]; try (injection I as <- <-; discriminate H); destruct I.
      * right. split; [|reflexivity]. intros p q r I H. cbn in I. repeat destruct I as [I|I]; try (injection I as <- <-; discriminate H); destruct I.
      * right. split; [|reflexivity]. intros p q r I H. cbn in I. repeat destruct I as [I|I]; try (injection I as <- <-; discriminate H); destruct I.
    + exists $ "H", $ "H", []. split; [|split; [|split]].
      * exists k. split; [reflexivity|]. intros [|x [|y b]] H; discriminate H.
      * right. split; [|reflexivity]. intros p q r [I|[I|[I|[]]]] H; injection I as <- <-; discriminate H.
      * left. exists $ "H", [], []. split; [|reflexivity]. exists [], []. split; [reflexivity|]. split; [reflexivity|]. intros p q r [].
      * right. split; [|reflexivity]. intros p q r I H. cbn in I. repeat destruct I as [I|I]; try (injection I as <- <-; discriminate H); destruct I.
Qed.

(** ** NYSIIS *)
Theorem C88_nysiis : forall u strict s, letters_are_ascii (is_alphabetic u) s ->
  (nysiis_encode u strict s = Ok [] <-> nysiis_keyless (ascii_letters s)).
Proof.
  intros u strict s H. rewrite <- (clean_ascii u s H). apply nysiis_blank. rewrite (clean_ascii u s H).
  apply uppers_nolower, ascii_letters_uppers.
Qed.
Theorem C88_nysiis_any : forall u strict s, UpperOK u ->
  (nysiis_encode u strict s = Ok [] <-> nysiis_keyless (flat_map (to_upper u) (filter (is_alphabetic u) s))).
Proof. intros u strict s H. apply nysiis_blank. now apply letters_upper_nolower. Qed.

Lemma ascii_letters_ascii : forall P s, ascii_str s -> letters_are_ascii P s.
Proof. intros P s A c Hc _. now apply A. Qed.
Lemma lit_ascii : forall s, forallb (fun c => c <? 128) s = true -> ascii_str s.
Proof. intros s K c Hc. rewrite forallb_forall in K. now apply N.ltb_lt, K. Qed.
(** [wit s]: [s] is a blank name with the letter at hand. *)
Ltac wit H s := exfalso; apply (H s); [apply lit_ascii; vm_compute; reflexivity|vm_compute; tauto|vm_compute; reflexivity].

(** The letters that are enough for a key, whatever stands around them. *)
Theorem C88_nysiis_letters : forall u strict x, # "A" <= x <= # "Z" ->
  ((forall s, ascii_str s -> In x (map ascii_up s) -> nysiis_encode u strict s <> Ok []) <-> In x $ "BDFGJKLMNPQRTVXY").
Proof.
  intros u strict x R. split.
  - intros H. destruct (two_sets $ "BDFGJKLMNPQRTVXY" $ "ACEHIOSUWZ" eq_refl x R) as [I|I]; [exact I|].
    destruct I as [<-|[<-|[<-|[<-|[<-|[<-|[<-|[<-|[<-|[<-|[]]]]]]]]]]]; destruct strict.
    all: match type of H with context [In ?c (map ascii_up _)] => idtac end.
    all: first [wit H $ "As" | wit H $ "Asch" | wit H $ "Aes" | wit H $ "Ais" | wit H $ "Aos" | wit H $ "Aus" | wit H $ "Aws" | wit H $ "Az"].
  - intros I s A Hx E. apply C88_nysiis in E; [|now apply ascii_letters_ascii].
    assert (K : In x (ascii_letters s)) by now apply In_letters. destruct E as [E|(r & E & O)]; rewrite E in K; [destruct K|].
    destruct K as [<-|K]; [cbn in I; lia|]. apply (only_letters _ O) in K. cbn in I, K. lia.
Qed.

(** ** Match rating *)
Theorem C88_match_rating : forall u s, ascii_str s ->
  (mra_encode u s = Ok [] <-> (length (trim u s) <= 1)%nat \/ forall c, In c s -> mra_noise c = true).
Proof.
  intros u s A. rewrite (C29_code u s A). destruct (Nat.leb_spec (length (trim u s)) 1) as [L|L].
  - split; [intros _; now left|reflexivity].
  - assert (X : Ok (mra_code s) = Ok [] <-> filter (fun c => negb (mra_noise c)) (map ascii_up s) = []).
    { unfold mra_code. destruct (filter (fun c => negb (mra_noise c)) (map ascii_up s)) as [|x r]; [now split|].
      cbn [drop_inner_vowels]. split; [|discriminate]. intros E. exfalso. assert (E' := f_equal (fun o => match o with Ok l => l | _ => [] end) E).
      cbn beta iota in E'.
      assert (Y : forall l, halve_runs upper_consonant (x :: l) <> []).
      { intros [|y l]; [discriminate|]. cbn [halve_runs]. destruct (_ && _); discriminate. }
      unfold first3_last3 in E'. destruct (Nat.ltb_spec 6 (length (halve_runs upper_consonant (x :: filter (fun c => negb (upper_vowel c)) r)))) as [G|G].
      - apply app_eq_nil in E' as [E' _]. destruct (halve_runs _ _) as [|z l] eqn:Q; [cbn in G; lia|discriminate E'].
      - exact (Y _ E'). }
    rewrite X. clear X. split.
    + intros E. right. intros c Hc. destruct (mra_noise c) eqn:Nc; [reflexivity|exfalso].
      assert (I : In (ascii_up c) (filter (fun c => negb (mra_noise c)) (map ascii_up s))).
      { apply filter_In. split; [now apply in_map|]. apply negb_true_iff. destruct (ascii_up_cases c) as [[Q E']|[Q E']]; rewrite E'; [|exact Nc].
        apply isin_false. cbn. lia. }
      rewrite E in I. destruct I.
    + intros [H|H]; [lia|]. destruct (filter _ (map ascii_up s)) as [|x r] eqn:E; [reflexivity|exfalso].
      assert (I : In x (filter (fun c => negb (mra_noise c)) (map ascii_up s))) by (rewrite E; now left).
      apply filter_In in I as [I Nx]. apply in_map_iff in I as (c & <- & Hc). specialize (H c Hc).
      destruct (ascii_up_cases c) as [[Q E']|[Q E']].
      * apply isin_In in H. cbn in H. lia.
      * rewrite E', H in Nx. discriminate Nx.
Qed.

(** ** Metaphone *)
Lemma cut_nil : forall max full, max <> Some 0%nat -> cut max full = [] -> full = [].
Proof. intros [[|n]|] [|c full] H E; cbn in *; congruence. Qed.
Theorem C88_metaphone : forall u max s, ascii_str s -> max <> Some 0%nat ->
  (metaphone_encode u max s = Ok [] <->
   length s <> 1%nat /\ exists text, start_rewritten metaphone_beginnings (map ascii_up s) text
     /\ forall i c, nth_error text i = Some c -> metaphone_quiet text i c).
Proof.
  intros u max s A M. rewrite (C68_metaphone_is_its_definition u max s [] A). unfold metaphone_code. rewrite map_length. split.
  - intros [[L E]|(L & t & full & St & Rd & E)].
    + exfalso. destruct s as [|c [|d s]]; cbn in L, E; discriminate.
    + split; [exact L|]. symmetry in E. apply (cut_nil max full M) in E. subst full. exists t. split; [exact St|]. now apply reads_nil_iff.
  - intros [L (t & St & H)]. right. split; [exact L|]. exists t, []. split; [exact St|]. split; [now apply reads_nil_iff|].
    destruct max as [[|n]|]; reflexivity.
Qed.
Theorem C88_metaphone_letters : forall u max x, max <> Some 0%nat -> # "A" <= x <= # "Z" ->
  ((forall s, ascii_str s -> In x (map ascii_up s) -> metaphone_encode u max s <> Ok []) <-> In x $ "BCDFJKLMNPQRSTVXZ").
Proof.
  intros u max x M R. split.
  - intros H. destruct (two_sets $ "BCDFJKLMNPQRSTVXZ" $ "AEGHIOUWY" eq_refl x R) as [I|I]; [exact I|].
    destruct I as [<-|[<-|[<-|[<-|[<-|[<-|[<-|[<-|[<-|[]]]]]]]]]]; destruct max as [[|n]|]; try congruence.
    all: first [wit H $ "gh" | wit H $ "hw" | wit H $ "hy" | wit H $ "hha" | wit H $ "hhe" | wit H $ "hhi" | wit H $ "hho" | wit H $ "hhu"].
  - intros I s A Hx E. apply (C88_metaphone u max s A M) in E as [L (t & St & H)].
    assert (K : exists y, In y t /\ In y loud).
    { apply rw_cases in St as [->|(p & q & r & Ie & E1 & ->)]; [exists x; split; [exact Hx|exact I]|].
      rewrite E1 in Hx. apply in_app_or in Hx as [Hx|Hx]; [|exists x; split; [apply in_or_app; now right|exact I]].
      cbn in Ie. destruct Ie as [Ie|[Ie|[Ie|[Ie|[Ie|[Ie|[Ie|[]]]]]]]]; injection Ie as <- <-.
      1-3: exists (# "N"); cbn; tauto. 2: exists (# "R"); cbn; tauto. 3: exists (# "S"); cbn; tauto.
      all: exfalso; cbn in Hx, I; lia. }
    destruct K as (y & Hy & Ly). apply In_nth_error in Hy as [k Hk]. exact (quiet_not_loud t k y (H k y Hk) Ly).
Qed.

(** ** Double Metaphone *)
Lemma dm_cut_nil : forall max full, max <> Some 0%nat -> dm_cut max full = [] -> full = [].
Proof. intros [[|n]|] [|c full] H E; cbn in *; congruence. Qed.
Lemma dm_blank : forall u max s p a x, ascii_str s -> max <> Some 0%nat -> # "A" <= x <= # "Z" -> In x (map ascii_up s) ->
  double_metaphone u max s = Ok {| dm_primary := p; dm_alternate := a |} ->
  (p = [] -> ~ In x loud_p) /\ (a = [] -> ~ In x loud_a).
Proof.
  intros u max s p a x A M R Hx E. assert (T : trimmed s (trim u s)) by now apply (trimmed_iff u).
  apply (C69_double_metaphone_is_its_definition u max s _ p a A T) in E as (i & ps & als & St & Rd & Ep & Ea).
  assert (Hc : In x (map ascii_up (trim u s))).
  { destruct T as (w & w' & E & Hw & Hw' & _). apply in_map_iff in Hx as (y & Ey & Hy). apply in_map_iff. exists y. split; [exact Ey|].
    rewrite E in Hy. assert (B : ~ blank y). { intros [B|B]; destruct (ascii_up_cases y) as [[Q E']|[Q E']]; rewrite E' in Ey; cbn in R; lia. }
    apply in_app_or in Hy as [Hy|Hy]; [elim (B (Hw y Hy))|]. apply in_app_or in Hy as [Hy|Hy]; [exact Hy|elim (B (Hw' y Hy))]. }
  destruct (start_silent _ i ps als St Rd) as [S1 S2]. split; intros ->.
  - apply S1; [|exact Hc]. now apply (dm_cut_nil max).
  - apply S2; [|exact Hc]. now apply (dm_cut_nil max).
Qed.
Lemma dm_with_limit : forall u max s p a, ascii_str s -> double_metaphone u None s = Ok {| dm_primary := p; dm_alternate := a |} ->
  double_metaphone u max s = Ok {| dm_primary := dm_cut max p; dm_alternate := dm_cut max a |}.
Proof.
  intros u max s p a A E. assert (T : trimmed s (trim u s)) by now apply (trimmed_iff u).
  apply (C69_double_metaphone_is_its_definition u None s _ p a A T) in E as (i & ps & als & St & Rd & -> & ->).
  apply (C69_double_metaphone_is_its_definition u max s _ _ _ A T). exists i, ps, als. repeat (split; [assumption|]). now split.
Qed.
Lemma dm_cut_empty : forall max, dm_cut max [] = [].
Proof. intros [[|n]|]; reflexivity. Qed.
Ltac witd H s := exfalso; eapply (H s); [apply lit_ascii; vm_compute; reflexivity|vm_compute; tauto|
  apply dm_with_limit; [apply lit_ascii; vm_compute; reflexivity|vm_compute; reflexivity]|apply dm_cut_empty].
Theorem C88_double_metaphone_letters : forall u max x, max <> Some 0%nat -> # "A" <= x <= # "Z" ->
  ((forall s r, ascii_str s -> In x (map ascii_up s) -> double_metaphone u max s = Ok r -> dm_primary r <> [])
    <-> In x $ "BCDFJKLMNPQTVZ")
  /\ ((forall s r, ascii_str s -> In x (map ascii_up s) -> double_metaphone u max s = Ok r -> dm_alternate r <> [])
    <-> In x $ "BCDFJKMNPQRSTVZ").
Proof.
  intros u max x M R. split; split.
  - intros H. destruct (two_sets $ "BCDFJKLMNPQTVZ" $ "AEGHIORSUWXY" eq_refl x R) as [I|I]; [exact I|].
    destruct I as [<-|[<-|[<-|[<-|[<-|[<-|[<-|[<-|[<-|[<-|[<-|[<-|[]]]]]]]]]]]]].
    all: first [witd H $ "hha" | witd H $ "hhois" | witd H $ "hweigh" | witd H $ "wwwaux" | witd H $ "hheiyuier"].
  - intros I s [p a] A Hx E. cbn [dm_primary]. intros P. exact (proj1 (dm_blank u max s p a x A M R Hx E) P I).
  - intros H. destruct (two_sets $ "BCDFJKMNPQRSTVZ" $ "AEGHILOUWXY" eq_refl x R) as [I|I]; [exact I|].
    destruct I as [<-|[<-|[<-|[<-|[<-|[<-|[<-|[<-|[<-|[<-|[<-|[]]]]]]]]]]]].
    all: first [witd H $ "hhaghe" | witd H $ "wweeeuoux" | witd H $ "wwillo" | witd H $ "wwaweigh" | witd H $ "hhy"].
  - intros I s [p a] A Hx E. cbn [dm_alternate]. intros P. exact (proj2 (dm_blank u max s p a x A M R Hx E) P I).
Qed.

(** ** Caverphone *)
Lemma low_in_letters : forall u s x, ascii_str s -> # "A" <= x <= # "Z" -> In x (map ascii_up s) -> In (x + 32) (letters_of u s).
Proof.
  intros u s x A R Hx. change (In (x + 32) (remove_all_non_letter u (str_lower u s))). rewrite (cleaned_ascii u s A).
  apply in_map_iff in Hx as (y & E & Hy). apply in_map_iff. exists y. split.
  - destruct (ascii_up_cases y) as [[Q E']|[Q E']]; rewrite E' in E; destruct (ascii_low_cases y) as [[Q2 E2]|[Q2 E2]]; rewrite E2; cbn in R; lia.
  - apply filter_In. split; [exact Hy|]. apply is_ascii_alpha_iff. destruct (ascii_up_cases y) as [[Q E']|[Q E']]; rewrite E' in E; cbn in R; lia.
Qed.
Lemma letters_low : forall u s, ascii_str s -> forall c, In c (letters_of u s) -> c < 128.
Proof.
  intros u s A c Hc. change (In c (remove_all_non_letter u (str_lower u s))) in Hc. rewrite (cleaned_ascii u s A) in Hc.
  apply in_map_iff in Hc as (y & <- & Hy). apply filter_In in Hy as [Hy _]. apply ascii_low_lt. now apply A.
Qed.
Lemma not_ones : forall n t, t <> [] -> (forall c, In c t -> In c final_set) -> (1 <= n)%nat -> pad_to n (# "1") t <> repeat (# "1") n.
Proof.
  intros [|n] [|c t] H K L E; [lia|lia|congruence|]. cbn in E. injection E as E _. specialize (K c (or_introl eq_refl)). rewrite E in K.
  cbn in K. lia.
Qed.
Theorem C88_caverphone1_letters : forall u x, # "A" <= x <= # "Z" ->
  ((forall s, ascii_str s -> In x (map ascii_up s) -> caverphone1_encode u s <> Ok $ "111111") <-> In x $ "BCFKMNPQSTVXZ").
Proof.
  intros u x R. split.
  - intros H. destruct (two_sets $ "BCFKMNPQSTVXZ" $ "ADEGHIJLORUWY" eq_refl x R) as [I|I]; [exact I|].
    destruct I as [<-|[<-|[<-|[<-|[<-|[<-|[<-|[<-|[<-|[<-|[<-|[<-|[<-|[]]]]]]]]]]]]]].
    all: first [wit H $ "dgh" | wit H $ "j" | wit H $ "l" | wit H $ "r" | wit H $ "w" | wit H $ "y"
               | wit H $ "gha" | wit H $ "ghe" | wit H $ "ghi" | wit H $ "gho" | wit H $ "ghu"].
  - intros I s A Hx E. apply (C67_caverphone1_is_its_definition u s _ (letters_low u s A)) in E as (t & P & E).
    symmetry in E. revert E. apply (not_ones 6); [|intros c Hc|lia].
    + apply (blank1 _ _ P). exists (x + 32). split; [cbn in I |- *; lia|now apply low_in_letters].
    + apply (passes_compute _ _ rules1) in P. subst t. revert c Hc.
      apply only_False, passes1_only, letters_only, letters_low, A.
Qed.
Theorem C88_caverphone2_letters : forall u x, # "A" <= x <= # "Z" ->
  ((forall s, ascii_str s -> In x (map ascii_up s) -> caverphone2_encode u s <> Ok $ "1111111111") <-> In x $ "ABCFIJKMNOPQSTUVXYZ").
Proof.
  intros u x R. split.
  - intros H. destruct (two_sets $ "ABCFIJKMNOPQSTUVXYZ" $ "DEGHLRW" eq_refl x R) as [I|I]; [exact I|].
    destruct I as [<-|[<-|[<-|[<-|[<-|[<-|[<-|[]]]]]]]].
    all: first [wit H $ "dgh" | wit H $ "e" | wit H $ "lh" | wit H $ "rh" | wit H $ "wh"].
  - intros I s A Hx E. apply (C67_caverphone2_is_its_definition u s _ (letters_low u s A)) in E as (t & P & E).
    symmetry in E. revert E. apply (not_ones 10); [|intros c Hc|lia].
    + apply (blank2 _ _ P). exists (x + 32). split; [cbn in I |- *; lia|now apply low_in_letters].
    + apply (passes_compute _ _ rules2) in P. subst t. revert c Hc.
      apply only_False, passes2_only, letters_only, letters_low, A.
Qed.

(** ** Daitch-Mokotoff, with its own rules: the letters that keep the blank code out. *)
Theorem C88_daitch_mokotoff_letters : forall u x, # "A" <= x <= # "Z" ->
  ((forall s, ascii_str s -> In x (map ascii_up s) -> dms_encode u dms_default s <> Ok $ "000000") <-> In x $ "BCDFGKLMNPQRSTVWXZ").
Proof.
  intros u x R. split.
  - intros H. destruct (two_sets $ "BCDFGKLMNPQRSTVWXZ" $ "AEHIJOUY" eq_refl x R) as [I|I]; [exact I|].
    destruct I as [<-|[<-|[<-|[<-|[<-|[<-|[<-|[<-|[]]]]]]]]].
    all: first [wit H $ "a" | wit H $ "e" | wit H $ "i" | wit H $ "o" | wit H $ "u" | wit H $ "ah" | wit H $ "aj" | wit H $ "ay"].
  - intros I s A Hx E. destruct (daitch_codes u s A) as (codes & _ & Ne & Nb & E2).
    + exists (x + 32). split; [|cbn in I |- *; lia]. apply in_map_iff in Hx as (y & Ey & Hy). apply in_map_iff. exists y. split; [|exact Hy].
      destruct (ascii_up_cases y) as [[Q E']|[Q E']]; rewrite E' in Ey; destruct (ascii_low_cases y) as [[Q2 E3]|[Q2 E3]]; rewrite E3; cbn in R; lia.
    + rewrite E2 in E. destruct codes as [|c codes]; [congruence|]. injection E as E. apply Nb. left. exact E.
Qed.
(** And then no code of the branching form is blank either. *)
Theorem C88_daitch_mokotoff_branches : forall u s x, ascii_str s -> In x (map ascii_up s) -> In x $ "BCDFGKLMNPQRSTVWXZ" ->
  exists codes, dms_soundex u dms_default s = Ok (join $ "|" codes) /\ codes <> [] /\ ~ In $ "000000" codes.
Proof.
  intros u s x A Hx I. destruct (daitch_codes u s A) as (codes & E & Ne & Nb & _).
  - exists (x + 32). split; [|cbn in I |- *; lia]. apply in_map_iff in Hx as (y & Ey & Hy). apply in_map_iff. exists y. split; [|exact Hy].
    destruct (ascii_up_cases y) as [[Q E']|[Q E']]; rewrite E' in Ey; destruct (ascii_low_cases y) as [[Q2 E3]|[Q2 E3]]; rewrite E3; cbn in I; lia.
  - exists codes. now split.
Qed.

Example C88_nonvacuous :
  cologne_encode latin1_only $ "Hhh!" = Ok [] /\ cologne_encode latin1_only $ "Ha" = Ok $ "0"
  /\ phonex_encode latin1_only 4 $ "Hss" = Ok $ "0000" /\ phonex_encode latin1_only 4 $ "Hass" <> Ok $ "0000"
  /\ nysiis_encode latin1_only false $ "Ausch" = Ok [] /\ nysiis_encode latin1_only false $ "Susch" = Ok $ "S"
  /\ mra_encode latin1_only $ "-.-" = Ok [] /\ metaphone_encode latin1_only None $ "Whaoua" <> Ok []
  /\ metaphone_encode latin1_only (Some 4%nat) $ "Hhaway" = Ok $ "W" /\ metaphone_encode latin1_only (Some 4%nat) $ "Hhigh" = Ok []
  /\ caverphone1_encode latin1_only $ "Edgho" = Ok $ "A11111" /\ dms_encode latin1_only dms_default $ "Aye" = Ok $ "000000".
Proof. vm_compute. repeat split; try reflexivity; discriminate. Qed.
