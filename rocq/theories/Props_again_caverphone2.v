(** * C95: the code of a Caverphone 2 code. *)
From Verif Require Import Base UnicodeM Lib Helper Caverphone BaseLemmas Spec_common Spec_rewrite Spec_caverphone
  Spec_codes Soundex_proofs UnicodeLemmas Nysiis_proofs Caverphone_proofs Caverphone_spec_proofs Props_caverphone Props_caverphone_spec
  Codes_proofs Codes_caverphone_proofs Props_codes Spec_doubled Props_again Props_again_caverphone.
Local Open Scope N_scope.

(** ** Single passes *)
Lemma all_same : forall p q s, (forall a b, s <> a ++ p ++ b) -> all_replaced p q s s.
Proof.
  intros p q. induction s as [|c s IH]; intros H; [constructor|]. apply ar_skip.
  - intros x E. apply (H [] x). exact E.
  - apply IH. intros a b E. apply (H (c :: a) b). cbn [app]. now rewrite E.
Qed.
Lemma one_three : forall (Y a b : ustr), ~ In (# "3") Y -> a ++ # "3" :: b = Y ++ $ "3" -> a = Y.
Proof.
  induction Y as [|y Y IH]; intros a b N E.
  - destruct a as [|x a]; [reflexivity|]. cbn [app] in E. injection E as _ E. destruct a; discriminate E.
  - destruct a as [|x a]; cbn [app] in E; injection E as E1 E; [destruct N; now left|]. subst x. f_equal. apply (IH a b); [|exact E]. intros K. apply N. now right.
Qed.
Lemma no_three_same : forall c q s, ~ In (# "3") s -> all_replaced [c; # "3"] q s s.
Proof. intros c q s N. apply all_same. intros a b E. apply N. rewrite E. apply in_or_app. right. right. now left. Qed.
Lemma other_same : forall c q Y, ~ In (# "3") Y -> (forall Z, Y <> Z ++ [c]) -> all_replaced [c; # "3"] q (Y ++ $ "3") (Y ++ $ "3").
Proof.
  intros c q Y N H. apply all_same. intros a b E. cbn [app] in E. change (a ++ c :: # "3" :: b) with (a ++ [c] ++ # "3" :: b) in E. rewrite app_assoc in E. symmetry in E.
  apply one_three in E; [|exact N]. now apply (H a).
Qed.
Lemma heard_once : forall c C Z, c <> # "3" -> ~ In (# "3") Z -> all_replaced [c; # "3"] [C; # "3"] (Z ++ [c; # "3"]) (Z ++ [C; # "3"]).
Proof.
  intros c C. induction Z as [|z Z IH]; intros Nc N.
  - apply (ar_hit [c; # "3"] [C; # "3"] [] []). constructor.
  - cbn [app]. apply ar_skip; [|apply IH; [exact Nc|intros K; apply N; now right]].
    intros x E. destruct Z as [|y Z]; cbn [app] in E; injection E as _ E _; [now apply Nc|]. apply N. right. now left.
Qed.
Lemma all_sub : forall x y s, pass_done (All [x] [y]) s (map (sub x y) s).
Proof.
  intros x y s. constructor. induction s as [|c s IH]; [constructor|]. cbn [map]. unfold sub at 1. destruct (N.eqb_spec c x) as [->|D].
  - apply (ar_hit [x] [y]). exact IH.
  - apply ar_skip; [|exact IH]. intros z E. injection E as E _. now apply D.
Qed.
Lemma ends_same : forall p q s, (forall r, s <> r ++ p) -> pass_done (Ends p q) s s.
Proof. intros p q s H. constructor. right. split; [|reflexivity]. intros p' q' r [E|[]]. injection E as <- <-. apply H. Qed.
Lemma ends_at : forall p q r, pass_done (Ends p q) (r ++ p) (r ++ q). Proof. exact ends_pass. Qed.

(** ** A final vowel, and the letter before it *)
Definition tails : list ustr := [[]; $ "W"; $ "R"; $ "L"].
(** The text stands before the passes for w, r and l, or between them. *)
Definition standing (set f X m e : ustr) : Prop :=
  (f = [] \/ f = $ "A") /\ made_of set X /\ In m tails /\ (e = [] /\ m = [] \/ e = $ "3").
Lemma block : forall c C set f X m e, In (c, C) [(# "w", # "W"); (# "r", # "R"); (# "l", # "L")] ->
  forallb (fun x => isin x $ "FKMNPST2lrw") set = true -> standing set f X m e ->
  exists m1 m2 X' m' e', pass_done (All [c; # "3"] [C; # "3"]) (f ++ X ++ m ++ e) m1 /\ pass_done (Ends [c] $ "3") m1 m2
    /\ pass_done (All [c] $ "2") m2 (f ++ X' ++ m' ++ e')
    /\ standing (# "2" :: filter (fun x => negb (x =? c)) set) f X' m' e' /\ (length (X' ++ m' ++ e') <= length (X ++ m ++ e))%nat.
Proof.
  intros c C set f X m e Hc Hset (Hf & HX & Hm & He).
  assert (Cc : isin c $ "lrw" = true /\ In [C] tails) by (cbn in Hc; destruct Hc as [E|[E|[E|[]]]]; injection E as <- <-; split; [reflexivity|cbn; tauto|reflexivity|cbn; tauto|reflexivity|cbn; tauto]).
  destruct Cc as [Cl CT].
  assert (C3 : c <> # "3") by (intros ->; discriminate Cl).
  assert (HX' : made_of $ "FKMNPST2lrw" X) by (now apply (made_more set)).
  assert (Nm : forall m0, In m0 tails -> made_of $ "WRL" m0).
  { intros m0 [<-|[<-|[<-|[<-|[]]]]] x Hx; cbn in *; tauto. }
  assert (NF : made_of $ "A" f) by (destruct Hf as [->| ->]; [intros x []|intros x Hx; exact Hx]).
  assert (N3 : forall Z m0, made_of $ "FKMNPST2lrw" Z -> In m0 tails -> ~ In (# "3") (f ++ Z ++ m0)).
  { intros Z m0 HZ H0 K. apply in_app_or in K as [K|K]; [apply NF in K; revert K; now apply isin_false|]. apply in_app_or in K as [K|K].
    - apply HZ in K. revert K. now apply isin_false.
    - apply (Nm m0 H0) in K. revert K. now apply isin_false. }
  assert (SubF : map (sub c (# "2")) f = f).
  { apply (map_fixed $ "A"); [|exact NF]. cbn [forallb]. unfold sub. destruct (N.eqb_spec 65 c) as [<-|_]; [discriminate Cl|reflexivity]. }
  assert (SubM : forall m0, In m0 tails -> map (sub c (# "2")) m0 = m0).
  { intros m0 H0. apply (map_fixed $ "WRL"); [|now apply Nm]. apply forallb_forall. intros x Hx. apply N.eqb_eq. unfold sub. destruct (N.eqb_spec x c) as [->|_]; [|reflexivity].
    exfalso. cbn in Hx. intuition (subst; discriminate Cl). }
  assert (SubE : map (sub c (# "2")) $ "3" = $ "3") by (cbn [map]; unfold sub; destruct (N.eqb_spec 51 c) as [<-|_]; [discriminate Cl|reflexivity]).
  assert (SubX : forall Z, made_of set Z -> made_of (# "2" :: filter (fun x => negb (x =? c)) set) (map (sub c (# "2")) Z)).
  { intros Z HZ x Hx. apply in_map_iff in Hx as (y & <- & Hy). unfold sub. destruct (y =? c) eqn:E; [now left|]. right. apply filter_In. split; [now apply HZ|]. now rewrite E. }
  destruct He as [[-> ->]| ->].
  - (* no vowel at the end *)
    rewrite !app_nil_r. assert (S0 : ~ In (# "3") (f ++ X)) by (specialize (N3 X [] HX' (or_introl eq_refl)); now rewrite app_nil_r in N3).
    destruct (snoc_cases X) as [->|(X0 & x & ->)].
    + exists f, f, [], [], []. rewrite !app_nil_r in *. split; [constructor; now apply no_three_same|]. split.
      { apply ends_same. intros r E. assert (K : In c f) by (rewrite E; apply in_or_app; right; now left). apply NF in K. cbn in K. intuition (subst; discriminate Cl). }
      split; [rewrite <- SubF at 2; apply all_sub|]. split; [|cbn; lia]. split; [exact Hf|]. split; [intros x []|]. split; [now left|]. left. now split.
    + assert (HX0 : made_of set X0) by (intros y Hy; apply HX, in_or_app; now left).
      destruct (N.eq_dec x c) as [->|D].
      * exists (f ++ X0 ++ [c]), (f ++ X0 ++ $ "3"), (map (sub c (# "2")) X0), [], $ "3".
        split; [constructor; now apply no_three_same|]. split; [rewrite !app_assoc; apply ends_at|].
        split; [rewrite <- SubF at 2; cbn [app]; rewrite <- SubE at 2; rewrite <- !map_app; apply all_sub|].
        split; [|rewrite !app_length, map_length; cbn [length]; lia]. split; [exact Hf|]. split; [now apply SubX|]. split; [now left|]. now right.
      * exists (f ++ X0 ++ [x]), (f ++ X0 ++ [x]), (map (sub c (# "2")) (X0 ++ [x])), [], []. rewrite !app_nil_r.
        split; [constructor; now apply no_three_same|]. split.
        { apply ends_same. intros r E. rewrite app_assoc in E. apply app_inj_tail in E as [_ E]. now apply D. }
        split; [rewrite <- SubF at 2; rewrite <- map_app; apply all_sub|].
        split; [|rewrite map_length; lia]. split; [exact Hf|]. split; [now apply SubX|]. split; [now left|]. left. now split.
  - (* a vowel at the end *)
    assert (Still : forall Z, pass_done (Ends [c] $ "3") (Z ++ $ "3") (Z ++ $ "3")).
    { intros Z. apply ends_same. intros r E. apply app_inj_tail in E as [_ E]. now apply C3. }
    assert (Sub : forall Z m0, In m0 tails -> map (sub c (# "2")) (f ++ Z ++ m0 ++ $ "3") = f ++ map (sub c (# "2")) Z ++ m0 ++ $ "3").
    { intros Z m0 H0. rewrite !map_app. now rewrite SubF, (SubM m0 H0), SubE. }
    assert (Kept : (forall Z, f ++ X ++ m <> Z ++ [c]) -> exists m1 m2 X' m' e', pass_done (All [c; # "3"] [C; # "3"]) (f ++ X ++ m ++ $ "3") m1 /\ pass_done (Ends [c] $ "3") m1 m2
      /\ pass_done (All [c] $ "2") m2 (f ++ X' ++ m' ++ e') /\ standing (# "2" :: filter (fun x => negb (x =? c)) set) f X' m' e' /\ (length (X' ++ m' ++ e') <= length (X ++ m ++ $ "3"))%nat).
    { intros H. exists (f ++ X ++ m ++ $ "3"), (f ++ X ++ m ++ $ "3"), (map (sub c (# "2")) X), m, $ "3".
      assert (As : f ++ X ++ m ++ $ "3" = (f ++ X ++ m) ++ $ "3") by now rewrite <- !app_assoc.
      split; [constructor; rewrite As; apply other_same; [now apply N3|exact H]|]. split; [rewrite As; apply Still|].
      split; [rewrite <- (Sub X m Hm); apply all_sub|]. split; [|rewrite !app_length, map_length; lia]. split; [exact Hf|]. split; [now apply SubX|]. split; [exact Hm|now right]. }
    destruct (list_eq_dec N.eq_dec m []) as [->|Nem].
    + destruct (snoc_cases X) as [->|(X0 & x & ->)].
      * apply Kept. cbn [app]. rewrite app_nil_r. intros Z E. assert (K : In c f) by (rewrite E; apply in_or_app; right; now left). apply NF in K. cbn in K. intuition (subst; discriminate Cl).
      * destruct (N.eq_dec x c) as [->|D].
        -- assert (HX0 : made_of set X0) by (intros y Hy; apply HX, in_or_app; now left).
           exists (f ++ X0 ++ [C] ++ $ "3"), (f ++ X0 ++ [C] ++ $ "3"), (map (sub c (# "2")) X0), [C], $ "3".
           split.
           { constructor. rewrite <- app_assoc. cbn [app]. rewrite !app_assoc. apply heard_once; [exact C3|]. specialize (N3 X0 [] (fun y Hy => HX' y (in_or_app _ _ _ (or_introl Hy))) (or_introl eq_refl)). now rewrite app_nil_r in N3. }
           split; [assert (As : f ++ X0 ++ [C] ++ $ "3" = (f ++ X0 ++ [C]) ++ $ "3") by (now rewrite <- !app_assoc); rewrite As; apply Still|].
           split; [rewrite <- (Sub X0 [C] CT); apply all_sub|]. split; [|rewrite !app_length, map_length; cbn [length]; lia]. split; [exact Hf|]. split; [now apply SubX|]. split; [exact CT|now right].
        -- apply Kept. rewrite app_nil_r. intros Z E. rewrite app_assoc in E. apply app_inj_tail in E as [_ E]. now apply D.
    + apply Kept. intros Z E. destruct (snoc_cases m) as [->|(m0 & y & ->)]; [now apply Nem|]. rewrite !app_assoc in E. apply app_inj_tail in E as [_ E]. subst y.
      assert (K : In c (m0 ++ [c])) by (apply in_or_app; right; now left). apply (Nm _ Hm) in K. cbn in K. intuition (subst; discriminate Cl).
Qed.
(** ** From the runs to the code *)
Definition endings : list ustr := [[]; $ "A"; $ "WA"; $ "RA"; $ "LA"].
Lemma standing_made : forall set f X m e, standing set f X m e -> made_of (set ++ $ "AWRL3") (f ++ X ++ m ++ e).
Proof.
  intros set f X m e (Hf & HX & Hm & He). assert (R : forall l, made_of $ "AWRL3" l -> made_of (set ++ $ "AWRL3") l) by (intros l H c Hc; apply in_or_app; right; now apply H).
  apply made_app; [apply R; destruct Hf as [->| ->]; [intros c []|intros c [<-|[]]; now left]|].
  apply made_app; [intros c Hc; apply in_or_app; left; now apply HX|]. apply R. apply made_app.
  - destruct Hm as [<-|[<-|[<-|[<-|[]]]]]; intros c Hc; cbn in *; tauto.
  - destruct He as [[-> _]| ->]; [intros c []|]. intros c Hc. cbn in *. tauto.
Qed.
Lemma standing_filter : forall set f X m e, standing set f X m e -> forallb (fun x => isin x $ "FKMNPST2") set = true ->
  exists X' e', passes_done [All $ "2" []; Ends $ "3" $ "A"; All $ "3" []] (f ++ X ++ m ++ e) (f ++ X' ++ m ++ e')
    /\ made_of quiet X' /\ In (m ++ e') endings /\ (length (X' ++ m ++ e') <= length (X ++ m ++ e))%nat.
Proof.
  intros set f X m e (Hf & HX & Hm & He) Hs. apply (made_more _ _ _ Hs) in HX.
  set (g := fun c => negb (c =? # "2")). assert (Gf : filter g f = f) by (destruct Hf as [->| ->]; reflexivity).
  assert (Gm : filter g m = m) by (destruct Hm as [<-|[<-|[<-|[<-|[]]]]]; reflexivity).
  assert (Ge : filter g e = e) by (destruct He as [[-> _]| ->]; reflexivity).
  assert (D1 : pass_done (All $ "2" []) (f ++ X ++ m ++ e) (f ++ filter g X ++ m ++ e)).
  { rewrite <- Gf at 2. rewrite <- Gm at 2. rewrite <- Ge at 2. rewrite <- !filter_app. apply (drop_pass (# "2")). }
  assert (Q : made_of quiet (filter g X)).
  { intros c Hc. apply filter_In in Hc as [Hc G]. apply HX in Hc. cbn in Hc. unfold g in G. apply negb_true_iff, N.eqb_neq in G. cbn. intuition (subst; try tauto). }
  assert (L : (length (filter g X) <= length X)%nat) by (clear; induction X as [|c X IH]; [cbn; lia|]; cbn [filter length]; destruct (g c); cbn [length]; lia).
  assert (N3 : forall Z, made_of $ "AFKMNPSTWRL" Z -> passes_done [All $ "3" []] Z Z).
  { intros Z HZ. econstructor; [apply (pass_absent $ "AFKMNPSTWRL"); [reflexivity|exact HZ]|constructor]. }
  assert (MZ : forall e', made_of $ "A" e' -> made_of $ "AFKMNPSTWRL" (f ++ filter g X ++ m ++ e')).
  { intros e' H'. apply made_app; [destruct Hf as [->| ->]; [intros c []|intros c [<-|[]]; now left]|]. apply made_app; [now apply (made_more quiet)|]. apply made_app.
    - destruct Hm as [<-|[<-|[<-|[<-|[]]]]]; intros c Hc; cbn in *; tauto.
    - now apply (made_more $ "A"). }
  destruct He as [[-> ->]| ->].
  - exists (filter g X), []. split; [|split; [exact Q|split; [now left|rewrite !app_length in *; lia]]].
    econstructor; [exact D1|]. econstructor; [|apply N3, MZ; intros c []].
    apply (pass_absent $ "AFKMNPSTWRL"); [reflexivity|]. apply MZ. intros c [].
  - exists (filter g X), $ "A". split; [|split; [exact Q|split; [|rewrite !app_length in *; cbn [length] in *; lia]]].
    + econstructor; [exact D1|]. econstructor; [|apply N3, MZ; intros c Hc; exact Hc]. rewrite !app_assoc. apply ends_at.
    + destruct Hm as [<-|[<-|[<-|[<-|[]]]]]; cbn; tauto.
Qed.
Lemma closing : forall f X e, (f = [] \/ f = $ "A") -> made_of $ "FKMNPSTlrw" X -> (e = [] \/ e = $ "3") ->
  exists X' tail, passes_done (skipn 35 caverphone2_rules) (f ++ X ++ e) (f ++ X' ++ tail)
    /\ made_of quiet X' /\ In tail endings /\ (length (X' ++ tail) <= length (X ++ e))%nat.
Proof.
  intros f X e Hf HX He.
  assert (S0 : standing $ "FKMNPSTlrw" f X [] e).
  { split; [exact Hf|]. split; [exact HX|]. split; [now left|]. destruct He as [->| ->]; [left; now split|now right]. }
  destruct (block (# "w") (# "W") $ "FKMNPSTlrw" f X [] e (or_introl eq_refl) eq_refl S0) as (m1 & m2 & X1 & t1 & e1 & A1 & A2 & A3 & S1 & L1).
  set (set1 := # "2" :: filter (fun x => negb (x =? # "w")) $ "FKMNPSTlrw") in S1.
  destruct (block (# "r") (# "R") set1 f X1 t1 e1 (or_intror (or_introl eq_refl)) eq_refl S1) as (m3 & m4 & X2 & t2 & e2 & B1 & B2 & B3 & S2 & L2).
  set (set2 := # "2" :: filter (fun x => negb (x =? # "r")) set1) in S2.
  destruct (block (# "l") (# "L") set2 f X2 t2 e2 (or_intror (or_intror (or_introl eq_refl))) eq_refl S2) as (m5 & m6 & X3 & t3 & e3 & C1 & C2 & C3 & S3 & L3).
  set (set3 := # "2" :: filter (fun x => negb (x =? # "l")) set2) in S3.
  destruct (standing_filter set3 f X3 t3 e3 S3) as (X4 & e4 & D & Q & T & L4); [vm_compute; reflexivity|].
  cbn [app] in L1. exists X4, (t3 ++ e4). split; [|split; [exact Q|split; [exact T|lia]]].
  cbn [app] in A1.
  assert (Mw : made_of $ "FKMNPSTlrwWAL3R" m1).
  { intros c Hc. destruct (pass_in _ _ _ A1 c Hc) as [K|K]; [cbn in K; cbn; tauto|]. apply (standing_made _ _ _ _ _ S0) in K. cbn in K. cbn. tauto. }
  assert (M1 := standing_made _ _ _ _ _ S1).
  change (skipn 35 caverphone2_rules) with ([All $ "w3" $ "W3"; All $ "wh3" $ "Wh3"; Ends $ "w" $ "3"; All $ "w" $ "2"; Starts $ "h" $ "A"; All $ "h" $ "2";
    All $ "r3" $ "R3"; Ends $ "r" $ "3"; All $ "r" $ "2"; All $ "l3" $ "L3"; Ends $ "l" $ "3"; All $ "l" $ "2"] ++ [All $ "2" []; Ends $ "3" $ "A"; All $ "3" []]).
  cbn [app].
  econstructor; [exact A1|]. apply (skip_passes 1 $ "FKMNPSTlrwWAL3R"); [reflexivity|exact Mw|]. cbn [skipn].
  econstructor; [exact A2|]. econstructor; [exact A3|]. apply (skip_passes 2 (set1 ++ $ "AWRL3")); [reflexivity|exact M1|]. cbn [skipn].
  econstructor; [exact B1|]. econstructor; [exact B2|]. econstructor; [exact B3|].
  econstructor; [exact C1|]. econstructor; [exact C2|]. econstructor; [exact C3|]. exact D.
Qed.
(** ** The opening *)
Definition consonants : ustr := $ "fklmnprstw".
Lemma runs_some : forall set l, exists X, runs_raised set l X /\ (length X <= length l)%nat.
Proof.
  intros set. assert (G : forall n l, (length l <= n)%nat -> exists X, runs_raised set l X /\ (length X <= length l)%nat).
  { induction n as [|n IH]; intros l L; [destruct l; [exists []; split; [constructor|cbn; lia]|cbn in L; lia]|].
    destruct l as [|c l]; [exists []; split; [constructor|cbn; lia]|]. cbn [length] in L.
    destruct (isin c set) eqn:E.
    - apply isin_In in E. assert (K : exists k r, l = repeat c k ++ r /\ (forall x, r <> c :: x)).
      { clear. induction l as [|d l (k & r & -> & H)]; [exists 0%nat, []; split; [reflexivity|discriminate]|].
        destruct (N.eq_dec d c) as [->|D]; [exists (S k), r; split; [reflexivity|exact H]|].
        exists 0%nat, (d :: repeat c k ++ r). split; [reflexivity|]. intros x Q. injection Q as Q _. now apply D. }
      destruct K as (k & r & -> & H). rewrite app_length in L. destruct (IH r ltac:(lia)) as (X & R & LX).
      exists (c - 32 :: X). split; [apply (rr_run set c k r X E H R)|]. cbn [length]. rewrite app_length. lia.
    - apply isin_false in E. destruct (IH l ltac:(lia)) as (X & R & LX). exists (c :: X). split; [now apply rr_other|cbn [length]; lia]. }
  intros l. apply (G (length l)). lia.
Qed.
Lemma runs_then : forall set l X e, runs_raised set l X -> ~ In e set -> runs_raised set (l ++ [e]) (X ++ [e]).
Proof.
  intros set l X e R Ne. induction R as [|c r r' Nc R IH|c k r r' Hc Nr R IH]; cbn [app].
  - apply rr_other; [exact Ne|constructor].
  - apply rr_other; [exact Nc|exact IH].
  - rewrite <- app_assoc. apply rr_run; [exact Hc| |exact IH]. intros x E. destruct r as [|y r]; cbn [app] in E; [injection E as -> _; contradiction|].
    injection E as -> _. now apply (Nr r).
Qed.
Lemma starts_same : forall p q s, (forall r, s <> p ++ r) -> pass_done (Starts p q) s s.
Proof. intros p q s H. constructor. right. split; [|reflexivity]. intros p' q' r [E|[]]. injection E as <- <-. apply H. Qed.
Lemma starts_at : forall p q r, pass_done (Starts p q) (p ++ r) (q ++ r).
Proof.
  intros p q r. constructor. left. exists p, q, r. split; [|reflexivity]. exists [], []. split; [reflexivity|]. split; [reflexivity|]. intros p' q' r' [].
Qed.
Lemma from_runs : forall f l e, (f = [] \/ f = $ "A") -> made_of consonants l -> (e = [] \/ e = $ "3") ->
  exists X' tail, passes_done (skipn 30 caverphone2_rules) (f ++ l ++ e) (f ++ X' ++ tail)
    /\ made_of quiet X' /\ In tail endings /\ (length (X' ++ tail) <= length (l ++ e))%nat.
Proof.
  intros f l e Hf Hl He. destruct (runs_some $ "stpkfmn" l) as (X & R & LX).
  assert (HX : made_of $ "FKMNPSTlrw" X).
  { intros c Hc. destruct (raised_in _ _ _ R c Hc) as (d & Hd & ->). apply isin_In. apply (on_set (fun d => isin (raise $ "stpkfmn" d) $ "FKMNPSTlrw") consonants); [now apply Hl|reflexivity]. }
  destruct (closing f X e Hf HX He) as (X' & tail & P & Q & T & L). exists X', tail. split; [|split; [exact Q|split; [exact T|rewrite !app_length in *; lia]]].
  apply (skip_passes 4 $ "Afklmnprstw3"); [reflexivity| |].
  - apply made_app; [destruct Hf as [->| ->]; [intros c []|intros c [<-|[]]; now left]|]. apply made_app; [now apply (made_more consonants)|].
    destruct He as [->| ->]; [intros c []|intros c [<-|[]]; cbn; tauto].
  - change (skipn 4 (skipn 30 caverphone2_rules)) with (Runs $ "stpkfmn" :: skipn 35 caverphone2_rules). econstructor; [|exact P].
    constructor. apply runs_front; [destruct Hf as [->| ->]; [intros c []|intros c [<-|[]]; now apply isin_false]|].
    destruct He as [->| ->]; [now rewrite !app_nil_r|]. apply (runs_then _ _ _ (# "3")); [exact R|now apply isin_false].
Qed.
Definition shaped (w : ustr) : Prop :=
  exists f X tail, (f = [] \/ f = $ "A") /\ made_of quiet X /\ In tail endings /\ w = f ++ X ++ tail /\ (f = [] -> X = [] -> tail <> $ "A") /\ (length w <= 10)%nat.
Lemma shape_of : forall f X tail, (f = [] \/ f = $ "A") -> made_of quiet X -> In tail endings -> (length (f ++ X ++ tail) <= 10)%nat -> shaped (f ++ X ++ tail).
Proof.
  intros f X tail Hf HX HT L.
  destruct (list_eq_dec N.eq_dec f []) as [->|Nf]; [|exists f, X, tail; repeat split; [exact Hf|exact HX|exact HT|now intros|exact L]].
  destruct (list_eq_dec N.eq_dec X []) as [->|NX]; [|exists [], X, tail; repeat split; [exact Hf|exact HX|exact HT|now intros|exact L]].
  destruct (list_eq_dec N.eq_dec tail $ "A") as [->|NT]; [|exists [], [], tail; repeat split; [exact Hf|exact HX|exact HT|intros _ _; exact NT|exact L]].
  exists $ "A", [], []. split; [now right|]. split; [intros c []|]. split; [now left|]. split; [reflexivity|]. split; [discriminate|cbn; lia].
Qed.
Lemma no_initial : forall c r, isin c $ "aeiou" = false -> pass_done InitialVowel (c :: r) (c :: r).
Proof.
  intros c r H. apply pd_no_initial. intros d r' E V. injection E as -> _. unfold lower_vowel in V. apply isin_In in V. congruence.
Qed.
Lemma opened : forall g l e, (g = [] \/ g = $ "a" \/ g = $ "y") -> made_of consonants l -> (e = [] \/ e = $ "a") -> ~ (g = $ "y" /\ l = [] /\ e = $ "a") ->
  (length (g ++ l ++ e) <= 10)%nat -> exists t, passes_done caverphone2_rules (g ++ l ++ e) t /\ shaped t.
Proof.
  intros g l e Hg Hl He NY L.
  assert (Hl2 : forall set, forallb (fun c => isin c set) consonants = true -> made_of set l) by (intros set H; now apply (made_more consonants)).
  assert (Vl : map vow l = l) by (apply (map_fixed consonants); [reflexivity|exact Hl]).
  assert (Done : forall f e1, (f = [] \/ f = $ "A") -> (e1 = [] \/ e1 = $ "3") -> (length (f ++ l ++ e1) <= length (g ++ l ++ e))%nat ->
    forall ps, (forall t, passes_done (skipn 30 caverphone2_rules) (f ++ l ++ e1) t -> passes_done ps (g ++ l ++ e) t) -> exists t, passes_done ps (g ++ l ++ e) t /\ shaped t).
  { intros f e1 Hf He1 Le ps H. destruct (from_runs f l e1 Hf Hl He1) as (X & tail & P & Q & T & L2). exists (f ++ X ++ tail). split; [now apply H|].
    apply shape_of; [exact Hf|exact Q|exact T|]. rewrite !app_length in *. lia. }
  assert (M0 : made_of $ "afklmnprstwy" (g ++ l ++ e)).
  { apply made_app; [destruct Hg as [->|[->| ->]]; intros c Hc; cbn in *; tauto|]. apply made_app; [now apply Hl2|]. destruct He as [->| ->]; intros c Hc; cbn in *; tauto. }
  assert (Start : forall m t, pass_done InitialVowel (g ++ l ++ e) m -> passes_done (skipn 26 caverphone2_rules) m t -> passes_done caverphone2_rules (g ++ l ++ e) t).
  { intros m t P1 P2. apply (skip_passes 25 $ "afklmnprstwy"); [reflexivity|exact M0|]. change (skipn 25 caverphone2_rules) with (InitialVowel :: skipn 26 caverphone2_rules). econstructor; [exact P1|exact P2]. }
  assert (Mid : forall f e1 t, (f = [] \/ f = $ "A") -> (e1 = [] \/ e1 = $ "a") -> passes_done (skipn 30 caverphone2_rules) (f ++ l ++ map vow e1) t -> passes_done (skipn 26 caverphone2_rules) (f ++ l ++ e1) t).
  { intros f e1 t Hf He1 P. change (skipn 26 caverphone2_rules) with (Vowels :: skipn 27 caverphone2_rules).
    econstructor; [apply vowels_pass|]. rewrite !map_app, Vl. assert (Vf : map vow f = f) by (destruct Hf as [->| ->]; reflexivity). rewrite Vf.
    apply (skip_passes 3 $ "Afklmnprstw3"); [reflexivity| |exact P].
    apply made_app; [destruct Hf as [->| ->]; [intros c []|intros c [<-|[]]; now left]|]. apply made_app; [now apply Hl2|]. destruct He1 as [->| ->]; intros c Hc; cbn in *; tauto. }
  assert (V3 : forall e1, e1 = [] \/ e1 = $ "a" -> map vow e1 = [] \/ map vow e1 = $ "3") by (intros e1 [->| ->]; [now left|now right]).
  destruct Hg as [->|[->| ->]].
  - destruct l as [|c l].
    + destruct He as [->| ->].
      * apply (Done [] []); [now left|now left|lia|]. intros t P. apply (Start []); [apply pd_no_initial; intros c r E; discriminate E|]. apply (Mid [] []); [now left|now left|exact P].
      * apply (Done $ "A" []); [now right|now left|cbn; lia|]. intros t P. apply (Start $ "A"); [apply (pd_initial (# "a")); now left|]. apply (Mid $ "A" []); [now right|now left|exact P].
    + apply (Done [] (map vow e)); [now left|now apply V3|rewrite !app_length, map_length; lia|]. intros t P. apply (Start (c :: l ++ e)).
      * cbn [app]. apply no_initial. apply negb_true_iff. apply (on_set (fun c => negb (isin c $ "aeiou")) consonants); [apply Hl; now left|reflexivity].
      * apply (Mid []); [now left|exact He|exact P].
  - apply (Done $ "A" (map vow e)); [now right|now apply V3|rewrite !app_length, map_length; cbn; lia|]. intros t P. apply (Start ($ "A" ++ l ++ e)); [apply (pd_initial (# "a")); now left|].
    apply (Mid $ "A"); [now right|exact He|exact P].
  - apply (Done $ "A" (map vow e)); [now right|now apply V3|rewrite !app_length, map_length; cbn; lia|]. intros t P. apply (Start ($ "y" ++ l ++ e)); [now apply no_initial|].
    change (skipn 26 caverphone2_rules) with (Vowels :: All $ "j" $ "y" :: Starts $ "y3" $ "Y3" :: Starts $ "y" $ "A" :: skipn 30 caverphone2_rules).
    econstructor; [apply vowels_pass|]. rewrite !map_app, Vl. change (map vow $ "y") with $ "y".
    assert (M : made_of $ "fklmnprstwy3" ($ "y" ++ l ++ map vow e)).
    { apply made_app; [intros c [<-|[]]; cbn; tauto|]. apply made_app; [now apply Hl2|]. destruct He as [->| ->]; intros c Hc; cbn in *; tauto. }
    apply (skip_passes 1 $ "fklmnprstwy3"); [reflexivity|exact M|]. cbn [skipn].
    econstructor; [|econstructor; [apply starts_at|exact P]]. apply starts_same. intros r E. destruct l as [|c l].
    + destruct He as [->| ->]; [discriminate E|]. apply NY. now repeat split.
    + cbn [app] in E. injection E as E _. assert (K : In c consonants) by (apply Hl; now left). rewrite E in K. revert K. now apply isin_false.
Qed.
(** ** Again *)
(** The text after the vowels, by its ending. *)
Definition ending_of (t1 tail : ustr) : Prop := In (t1, tail) [([], []); ($ "3", $ "A"); ($ "w3", $ "WA"); ($ "r3", $ "RA"); ($ "l3", $ "LA")].
Lemma finish2 : forall Z t1 tail, made_of $ "AFKMNPST" Z -> ending_of t1 tail -> passes_done (skipn 35 caverphone2_rules) (Z ++ t1) (Z ++ tail).
Proof.
  intros Z t1 tail HZ H.
  assert (N3 : ~ In (# "3") Z) by (intros K; apply HZ in K; revert K; now apply isin_false).
  assert (Fin : forall m, made_of $ "WRL" m -> passes_done (skipn 48 caverphone2_rules) (Z ++ m ++ $ "3") (Z ++ m ++ $ "A")).
  { intros m Hm. change (skipn 48 caverphone2_rules) with [Ends $ "3" $ "A"; All $ "3" []]. rewrite !app_assoc. econstructor; [apply ends_at|].
    econstructor; [|constructor]. apply (pass_absent $ "AFKMNPSTWRL"); [reflexivity|]. apply made_app; [apply made_app; [now apply (made_more $ "AFKMNPST")|now apply (made_more $ "WRL")]|intros c [<-|[]]; now left]. }
  assert (M3 : forall l, made_of $ "WRLwrl3" l -> made_of $ "AFKMNPSTWRLwrl3" (Z ++ l)) by (intros l Hl; apply made_app; [now apply (made_more $ "AFKMNPST")|now apply (made_more $ "WRLwrl3")]).
  cbn in H. destruct H as [E|[E|[E|[E|[E|[]]]]]]; injection E as <- <-.
  - rewrite app_nil_r. apply (skip_passes 15 $ "AFKMNPST"); [reflexivity|exact HZ|constructor].
  - apply (skip_passes 13 $ "AFKMNPST3"); [reflexivity| |exact (Fin [] (fun c K => match K with end))]. apply made_app; [now apply (made_more $ "AFKMNPST")|intros c [<-|[]]; cbn; tauto].
  - change (skipn 35 caverphone2_rules) with (All $ "w3" $ "W3" :: skipn 36 caverphone2_rules). econstructor; [constructor; apply (heard_once (# "w") (# "W") Z); [discriminate|exact N3]|].
    apply (skip_passes 12 $ "AFKMNPSTW3"); [reflexivity| |exact (Fin $ "W" ltac:(intros c Hc; cbn in *; tauto))].
    apply made_app; [now apply (made_more $ "AFKMNPST")|]. intros c Hc. cbn in *. tauto.
  - apply (skip_passes 6 $ "AFKMNPSTr3"); [reflexivity|apply made_app; [now apply (made_more $ "AFKMNPST")|intros c Hc; cbn in *; tauto]|].
    change (skipn 6 (skipn 35 caverphone2_rules)) with (All $ "r3" $ "R3" :: skipn 42 caverphone2_rules). econstructor; [constructor; apply (heard_once (# "r") (# "R") Z); [discriminate|exact N3]|].
    apply (skip_passes 6 $ "AFKMNPSTR3"); [reflexivity| |exact (Fin $ "R" ltac:(intros c Hc; cbn in *; tauto))].
    apply made_app; [now apply (made_more $ "AFKMNPST")|]. intros c Hc. cbn in *. tauto.
  - apply (skip_passes 9 $ "AFKMNPSTl3"); [reflexivity|apply made_app; [now apply (made_more $ "AFKMNPST")|intros c Hc; cbn in *; tauto]|].
    change (skipn 9 (skipn 35 caverphone2_rules)) with (All $ "l3" $ "L3" :: skipn 45 caverphone2_rules). econstructor; [constructor; apply (heard_once (# "l") (# "L") Z); [discriminate|exact N3]|].
    apply (skip_passes 3 $ "AFKMNPSTL3"); [reflexivity| |exact (Fin $ "L" ltac:(intros c Hc; cbn in *; tauto))].
    apply made_app; [now apply (made_more $ "AFKMNPST")|]. intros c Hc. cbn in *. tauto.
Qed.
Lemma raised_quiet : forall X, made_of quiet X -> runs_raised $ "stpkfmn" (map low X) (collapse X).
Proof. intros X HX. assert (P := runs_done [] X (or_introl eq_refl) HX). now inversion P. Qed.
Lemma shaped_again : forall f X tail, (f = [] \/ f = $ "A") -> made_of quiet X -> In tail endings -> (f = [] -> X = [] -> tail <> $ "A") ->
  passes_done caverphone2_rules (map low (f ++ X ++ tail)) (f ++ collapse X ++ tail).
Proof.
  intros f X tail Hf HX HT HN.
  assert (HXl : made_of $ "fkmnpst" (map low X)) by (intros c Hc; apply (made_map quiet low X HX c) in Hc; exact Hc).
  assert (Hends : In tail endings -> exists t1, ending_of t1 tail /\ map vow (map low tail) = t1 /\ (t1 = [] \/ t1 = $ "3" \/ exists c, In c $ "wrl" /\ t1 = [c; # "3"])).
  { intros [<-|[<-|[<-|[<-|[<-|[]]]]]]; [exists []|exists $ "3"|exists $ "w3"|exists $ "r3"|exists $ "l3"]; (split; [cbn; tauto|]; split; [reflexivity|]).
    - now left.
    - right. now left.
    - right. right. exists (# "w"). split; [cbn; tauto|reflexivity].
    - right. right. exists (# "r"). split; [cbn; tauto|reflexivity].
    - right. right. exists (# "l"). split; [cbn; tauto|reflexivity]. }
  destruct (Hends HT) as (t1 & E1 & V1 & T1). rewrite !map_app.
  assert (MT : made_of $ "awrl" (map low tail)) by (destruct HT as [<-|[<-|[<-|[<-|[<-|[]]]]]]; intros c Hc; cbn in *; tauto).
  assert (Mt1 : made_of $ "wrl3" t1).
  { destruct T1 as [->|[->|(c & Hc & ->)]]; [intros x []|intros x [<-|[]]; cbn; tauto|]. intros x [<-|[<-|[]]]; [cbn in *; tauto|cbn; tauto]. }
  apply (skip_passes 25 $ "afkmnpstwrl"); [reflexivity| |].
  { apply made_app; [destruct Hf as [->| ->]; intros c Hc; cbn in *; tauto|]. apply made_app; [now apply (made_more $ "fkmnpst")|now apply (made_more $ "awrl")]. }
  change (skipn 25 caverphone2_rules) with (InitialVowel :: Vowels :: skipn 27 caverphone2_rules).
  econstructor.
  { assert (K : pass_done InitialVowel (map low f ++ map low X ++ map low tail) (f ++ map low X ++ map low tail)); [|exact K].
    destruct Hf as [->| ->]; [|apply (pd_initial (# "a")); now left]. cbn [map app]. destruct X as [|x X].
    - cbn [map app]. specialize (HN eq_refl eq_refl). destruct HT as [<-|[<-|[<-|[<-|[<-|[]]]]]]; [apply pd_no_initial; intros c r E; discriminate E|congruence|now apply no_initial..].
    - cbn [map app]. apply no_initial. apply negb_true_iff. apply (on_set (fun c => negb (isin (low c) $ "aeiou")) quiet); [apply HX; now left|reflexivity]. }
  econstructor; [apply vowels_pass|]. rewrite !map_app, V1.
  assert (Vf : map vow f = f) by (destruct Hf as [->| ->]; reflexivity). assert (Vx : map vow (map low X) = map low X) by (apply (map_fixed $ "fkmnpst"); [reflexivity|exact HXl]).
  rewrite Vf, Vx. apply (skip_passes 7 $ "Afkmnpstwrl3"); [reflexivity| |].
  { apply made_app; [destruct Hf as [->| ->]; intros c Hc; cbn in *; tauto|]. apply made_app; [now apply (made_more $ "fkmnpst")|now apply (made_more $ "wrl3")]. }
  change (skipn 7 (skipn 27 caverphone2_rules)) with (Runs $ "stpkfmn" :: skipn 35 caverphone2_rules).
  assert (R : runs_raised $ "stpkfmn" (map low X ++ t1) (collapse X ++ t1)).
  { assert (R := raised_quiet X HX). destruct T1 as [->|[->|(c & Hc & ->)]].
    - now rewrite !app_nil_r.
    - apply (runs_then _ _ _ (# "3")); [exact R|now apply isin_false].
    - change [c; # "3"] with ([c] ++ [# "3"]). rewrite !app_assoc. apply runs_then; [|now apply isin_false]. apply runs_then; [exact R|].
      intros K. cbn in Hc, K. intuition (subst; discriminate). }
  econstructor.
  { constructor. apply runs_front; [|exact R]. destruct Hf as [->| ->]; [intros c []|intros c [<-|[]]; now apply isin_false]. }
  rewrite (app_assoc f), (app_assoc f). apply finish2; [|exact E1].
  apply made_app; [destruct Hf as [->| ->]; intros c Hc; cbn in *; tauto|]. intros c Hc. apply collapse_incl in Hc. right. now apply HX.
Qed.
Lemma encode2_of : forall u w t, made_of capitals w -> (length w <= 10)%nat -> passes_done caverphone2_rules (map low w) t ->
  caverphone2_encode u (pad_to 10 (# "1") w) = Ok (pad_to 10 (# "1") t).
Proof.
  intros u w t M L P.
  assert (E : letters_of u (pad_to 10 (# "1") w) = map low w) by (rewrite pad_to_alt, firstn_all2 by exact L; now apply letters_of_code).
  apply C67_caverphone2_is_its_definition.
  - intros c Hc. rewrite E in Hc. apply in_map_iff in Hc as (x & <- & Hx). apply N.ltb_lt. apply (on_set (fun c => low c <? 128) capitals); [now apply M|reflexivity].
  - exists t. split; [now rewrite E|reflexivity].
Qed.
Lemma shaped_capitals : forall w, shaped w -> made_of capitals w.
Proof.
  intros w (f & X & tail & Hf & HX & HT & -> & _). apply made_app; [destruct Hf as [->| ->]; intros c Hc; cbn in *; tauto|]. apply made_app; [now apply (made_more quiet)|].
  destruct HT as [<-|[<-|[<-|[<-|[<-|[]]]]]]; intros c Hc; cbn in *; tauto.
Qed.
Lemma YA : forall u, caverphone2_encode u $ "YA11111111" = Ok $ "YA11111111".
Proof. intros u. vm_compute. reflexivity. Qed.
Theorem C95_caverphone2_settles : forall u s, (forall c, In c (letters_of u s) -> c < 128) ->
  exists final, encoded (caverphone2_encode u) 3 s = Ok final /\ caverphone2_encode u final = Ok final.
Proof.
  intros u s H.
  assert (T : exists code, caverphone2_encode u s = Ok code).
  { exists (pad_to 10 (# "1") (run_passes caverphone2_passes (letters_of u s))). apply (C67_caverphone2_is_its_definition u s _ H).
    exists (run_passes caverphone2_passes (letters_of u s)). split; [now apply (passes_compute _ _ rules2)|reflexivity]. }
  destruct T as (code & E1). assert (F : caverphone2_form code) by (apply (C81_caverphone2 u); exists s; now split).
  destruct F as (front & body & back & Hf & Hb & Hk & Hc & _). assert (L := proj1 Hc). apply filled_pad_to in Hc. subst code. cbn [encoded]. rewrite E1. cbn [bind].
  destruct (list_eq_dec N.eq_dec (front ++ body ++ back) $ "YA") as [E|NY].
  { rewrite E. exists $ "YA11111111". change (pad_to 10 (# "1") $ "YA") with $ "YA11111111". rewrite (YA u). cbn [bind]. rewrite (YA u). now split. }
  assert (Mc : made_of capitals (front ++ body ++ back)).
  { apply made_app; [destruct Hf as [<-|[<-|[<-|[]]]]; intros c Hx; cbn in *; tauto|]. apply made_app; [now apply (made_more $ "FKLMNPRSTW")|]. destruct Hk as [<-|[<-|[]]]; intros c Hx; cbn in *; tauto. }
  destruct (opened (map low front) (map low body) (map low back)) as (t & P & (f & X & tail & Sf & SX & ST & -> & SN & SL)).
  - destruct Hf as [<-|[<-|[<-|[]]]]; [now left|right; now left|right; now right].
  - intros c Hx. apply (made_map _ low body Hb c) in Hx. exact Hx.
  - destruct Hk as [<-|[<-|[]]]; [now left|now right].
  - intros (A & B & C). apply NY. apply map_eq_nil in B. subst body. destruct Hf as [<-|[<-|[<-|[]]]]; try discriminate A. destruct Hk as [<-|[<-|[]]]; [discriminate C|reflexivity].
  - rewrite <- !map_app, map_length. exact L.
  - rewrite <- !map_app in P. rewrite (encode2_of u _ _ Mc L P). cbn [bind].
    assert (MX : made_of capitals (f ++ X ++ tail)) by (apply shaped_capitals; exists f, X, tail; now repeat split).
    rewrite (encode2_of u _ _ MX SL (shaped_again f X tail Sf SX ST SN)). cbn [bind]. eexists. split; [reflexivity|].
    assert (MC : made_of quiet (collapse X)) by (intros c Hx; apply SX; now apply collapse_incl in Hx).
    assert (NC : f = [] -> collapse X = [] -> tail <> $ "A").
    { intros A B. apply (SN A). destruct X as [|x X]; [reflexivity|]. exfalso. rewrite collapse_cons in B. discriminate B. }
    assert (LC : (length (f ++ collapse X ++ tail) <= 10)%nat) by (rewrite !app_length in *; pose proof (collapse_length X); lia).
    assert (MCc : made_of capitals (f ++ collapse X ++ tail)) by (apply shaped_capitals; exists f, (collapse X), tail; now repeat split).
    rewrite (encode2_of u _ _ MCc LC (shaped_again f (collapse X) tail Sf MC ST NC)). now rewrite (collapse_nae_id _ (collapse_nae X)).
Qed.
Theorem C95_caverphone2_three : forall u, encoded (caverphone2_encode u) 2 $ "grog" = Ok $ "KK11111111" /\ encoded (caverphone2_encode u) 3 $ "grog" = Ok $ "K111111111".
Proof. intros u. split; vm_compute; reflexivity. Qed.
Example C95_caverphone_nonvacuous : ascii_text $ "grog" /\ encoded (caverphone1_encode latin1_only) 4 $ "grog" = Ok $ "K11111"
  /\ encoded (caverphone2_encode latin1_only) 3 $ "Grow" = Ok $ "KRA1111111".
Proof. split; [intros c Hc; cbn in Hc; intuition (subst; reflexivity)|]. split; vm_compute; reflexivity. Qed.
