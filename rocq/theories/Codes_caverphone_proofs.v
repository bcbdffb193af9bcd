(** * Which codes exist: Caverphone 1 and 2. *)
From Verif Require Import Base UnicodeM Lib Helper Caverphone BaseLemmas Spec_common Spec_rewrite Spec_caverphone
  Spec_codes Soundex_proofs UnicodeLemmas Caverphone_proofs Caverphone_spec_proofs Props_caverphone Props_caverphone_spec
  Codes_proofs.
Local Open Scope N_scope.

(** ** Passes and invariants *)
Definition keeps (p : pass) (I J : ustr -> Prop) : Prop := forall s t, pass_done p s t -> I s -> J t.
Lemma passes_keep : forall ps (I : ustr -> Prop), (forall p, In p ps -> keeps p I I) ->
  forall s t, passes_done ps s t -> I s -> I t.
Proof.
  intros ps I H s t P. induction P as [s|p ps s m t P1 P2 IH]; intros HI; [exact HI|].
  apply IH; [intros p' Hp; apply H; now right|]. apply (H p (or_introl eq_refl) s m P1 HI).
Qed.
Lemma passes_split : forall a b s t, passes_done (a ++ b) s t -> exists m, passes_done a s m /\ passes_done b m t.
Proof.
  induction a as [|p a IH]; intros b s t H.
  - exists s. split; [constructor|exact H].
  - inversion H as [|p0 ps0 s0 m0 t0 H1 H2]; subst. apply IH in H2 as (m & M1 & M2).
    exists m. split; [|exact M2]. econstructor; eassumption.
Qed.
(** The words a pass looks for, and the characters it may write. *)
Definition pattern (p : pass) : ustr := match p with Starts a _ | Ends a _ | All a _ => a | _ => [] end.
Definition writes (p : pass) : ustr :=
  match p with
  | Starts _ b | Ends _ b | All _ b => b
  | InitialVowel => $ "A" | Vowels => $ "3" | Runs l => map (fun c => c - 32) l
  end.
Definition is_rewriting (p : pass) : bool := match p with Starts (_ :: _) _ | Ends (_ :: _) _ | All (_ :: _) _ => true | _ => false end.

Lemma all_replaced_in : forall p q s t, all_replaced p q s t -> forall c, In c t -> In c q \/ In c s.
Proof.
  intros p q s t H. induction H as [|r r' H IH|x r r' N H IH]; intros c Hc.
  - destruct Hc.
  - apply in_app_or in Hc as [Hc|Hc]; [now left|]. apply IH in Hc as [Hc|Hc]; [now left|right; apply in_or_app; now right].
  - destruct Hc as [<-|Hc]; [right; now left|]. apply IH in Hc as [Hc|Hc]; [now left|right; now right].
Qed.
Lemma runs_in : forall l s t, runs_raised l s t -> forall c, In c t -> In c (map (fun c => c - 32) l) \/ In c s.
Proof.
  intros l s t H. induction H as [|x r r' N H IH|x k r r' Hx N H IH]; intros c Hc.
  - destruct Hc.
  - destruct Hc as [<-|Hc]; [right; now left|]. apply IH in Hc as [Hc|Hc]; [now left|right; now right].
  - destruct Hc as [<-|Hc]; [left; apply in_map_iff; now exists x|]. apply IH in Hc as [Hc|Hc]; [now left|right; apply in_or_app; now right].
Qed.
Lemma pass_in : forall p s t, pass_done p s t -> forall c, In c t -> In c (writes p) \/ In c s.
Proof.
  intros p s t H. destruct H as [p q s t H|p q s t H|p q s t H|c r Hc|s H|s t H|l s t H]; cbn [writes].
  - destruct H as [(p0 & q0 & r & (t1 & t2 & E & -> & _) & ->)|[_ ->]]; [|auto].
    destruct t1 as [|e t1]; [|destruct t1; discriminate]. injection E as -> -> _.
    intros c Hc. apply in_app_or in Hc as [Hc|Hc]; [now left|right; apply in_or_app; now right].
  - destruct H as [(p0 & q0 & r & t1 & t2 & E & -> & -> & _)|[_ ->]]; [|auto].
    destruct t1 as [|e t1]; [|destruct t1; discriminate]. injection E as -> -> _.
    intros c Hc. apply in_app_or in Hc as [Hc|Hc]; [right; apply in_or_app; now left|now left].
  - intros c Hc. now apply (all_replaced_in p q s t H).
  - intros x [<-|Hx]; [left; now left|right; now right].
  - auto.
  - induction H as [|a b l l' H F IH]; [intros c []|]. intros c [<-|Hc].
    + destruct H as [[_ ->]|[_ ->]]; [left; now left|right; now left].
    + apply IH in Hc as [Hc|Hc]; [now left|right; now right].
  - intros c Hc. now apply (runs_in l s t H).
Qed.

(** *** A character stands only in front *)
Definition only_first (a : N) (s : ustr) : Prop := ~ In a s \/ exists r, s = a :: r /\ ~ In a r.
Lemma starts_inv : forall p q s t, pass_done (Starts p q) s t -> (exists r, s = p ++ r /\ t = q ++ r) \/ t = s.
Proof.
  intros p q s t H. inversion H as [p0 q0 s0 t0 H1| | | | | |]; subst.
  destruct H1 as [(p1 & q1 & r & (t1 & t2 & E & -> & _) & ->)|[_ ->]]; [|now right].
  destruct t1 as [|e t1]; [|destruct t1; discriminate]. injection E as -> -> _. left. now exists r.
Qed.
Lemma ends_inv : forall p q s t, pass_done (Ends p q) s t ->
  (exists r, s = r ++ p /\ t = r ++ q) \/ (t = s /\ forall r, s <> r ++ p).
Proof.
  intros p q s t H. inversion H as [|p0 q0 s0 t0 H1| | | | |]; subst.
  destruct H1 as [(p1 & q1 & r & t1 & t2 & E & -> & -> & _)|[N ->]].
  - destruct t1 as [|e t1]; [|destruct t1; discriminate]. injection E as -> -> _. left. now exists r.
  - right. split; [reflexivity|]. intros r. apply (N p q r). now left.
Qed.
Lemma all_inv : forall p q s t, pass_done (All p q) s t -> all_replaced p q s t.
Proof. intros p q s t H. inversion H; subst. assumption. Qed.
Lemma all_replaced_head : forall p q x r t, all_replaced p q (x :: r) t -> ~ In x p -> p <> [] ->
  exists r', t = x :: r' /\ all_replaced p q r r'.
Proof.
  intros p q x r t H Nx Np. inversion H as [E|r0 r0' H1 E|y r0 r0' N H1 E]; subst.
  - destruct p as [|y p]; [contradiction|]. injection E as -> _. destruct Nx. now left.
  - eauto.
Qed.
(** The conditions are on the pass alone; [new]: it may put [a] in front of a text without [a]. *)
Definition harmless (a : N) (p : pass) : bool :=
  match p with
  | Starts (x :: p') q => negb (isin a (x :: p')) && negb (isin a (tl q))
  | Ends (x :: p') q | All (x :: p') q => negb (isin a (x :: p')) && negb (isin a q)
  | Starts [] _ | Ends [] _ | All [] _ => false
  | InitialVowel => a =? # "A"
  | Vowels => negb (isin a $ "aeiou3")
  | Runs l => negb (isin a l) && negb (isin a (map (fun c => c - 32) l))
  end.
Lemma not_isin : forall a l, negb (isin a l) = true -> ~ In a l.
Proof. intros a l H. apply negb_true_iff in H. now apply isin_false. Qed.
Lemma harmless_keeps : forall a p, harmless a p = true -> keeps p (only_first a) (only_first a).
Proof.
  intros a p H s t P I. destruct p as [p q|p q|p q| | |l]; cbn [harmless] in H.
  - destruct p as [|x p]; [discriminate|]. apply andb_true_iff in H as [H1 H2]. apply not_isin in H1, H2.
    apply starts_inv in P as [(r & -> & ->)| ->]; [|exact I].
    assert (N : ~ In a r).
    { destruct I as [N|(r' & E & N)]; [intros K; apply N, in_or_app; now right|].
      cbn [app] in E. injection E as E1 _. destruct H1. now left. }
    destruct q as [|y q]; [now left|]. cbn [tl] in H2. destruct (N.eq_dec y a) as [->|Ny].
    + right. exists (q ++ r). split; [reflexivity|]. intros K. apply in_app_or in K as [K|K]; auto.
    + left. intros [K|K]; [auto|]. apply in_app_or in K as [K|K]; auto.
  - destruct p as [|x p]; [discriminate|]. apply andb_true_iff in H as [H1 H2]. apply not_isin in H1, H2.
    apply ends_inv in P as [(r & -> & ->)|[-> _]]; [|exact I]. destruct I as [N|(r' & E & N)].
    + left. intros K. apply in_app_or in K as [K|K]; [apply N, in_or_app; now left|auto].
    + destruct r as [|y r]; cbn [app] in E.
      * injection E as -> _. destruct H1. now left.
      * injection E as -> <-. right. exists (r ++ q). split; [reflexivity|].
        intros K. apply in_app_or in K as [K|K]; [apply N, in_or_app; now left|auto].
  - destruct p as [|x p]; [discriminate|]. apply andb_true_iff in H as [H1 H2]. apply not_isin in H1, H2.
    apply all_inv in P. destruct I as [N|(r' & -> & N)].
    + left. intros K. apply (all_replaced_in _ _ _ _ P) in K as [K|K]; auto.
    + apply all_replaced_head in P as (r & -> & P); [|exact H1|discriminate]. right. exists r. split; [reflexivity|].
      intros K. apply (all_replaced_in _ _ _ _ P) in K as [K|K]; auto.
  - apply N.eqb_eq in H. subst a. inversion P as [| | |c r Hc|s0 Hs| |]; subst; [|exact I].
    destruct I as [N|(r' & E & N)].
    + right. exists r. split; [reflexivity|]. intros K. apply N. now right.
    + injection E as -> ->. apply isin_In in Hc. discriminate.
  - apply not_isin in H. inversion P as [| | | | |s0 t0 F|]; subst. clear P.
    assert (K : forall s t, Forall2 (fun c d => (lower_vowel c /\ d = # "3") \/ (~ lower_vowel c /\ d = c)) s t ->
       ~ In a s -> ~ In a t).
    { clear - H. intros s t F. induction F as [|c d s t HF F IH]; [auto|]. intros N [K|K].
      - subst d. destruct HF as [[_ E]|[_ E]]; [apply H; rewrite E; now (do 5 right; left)|apply N; left; now symmetry].
      - apply IH in K; [exact K|]. intros Q. apply N. now right. }
    destruct I as [N|(r & -> & N)].
    + left. now apply (K s).
    + inversion F as [|c d s0 t0 HF F0]; subst. right. exists t0. destruct HF as [[HV _]|[_ ->]].
      * destruct H. apply in_or_app with (l := $ "aeiou") (m := $ "3"). now left.
      * split; [reflexivity|]. now apply (K r).
  - apply andb_true_iff in H as [H1 H2]. apply not_isin in H1, H2. inversion P as [| | | | | |l0 s0 t0 R]; subst. clear P.
    destruct I as [N|(r & -> & N)].
    + left. intros K. apply (runs_in _ _ _ R) in K as [K|K]; auto.
    + inversion R as [|c r0 r0' Nc R0|c k r0 r0' Hc Nc R0 E]; subst.
      * right. exists r0'. split; [reflexivity|]. intros K. apply (runs_in _ _ _ R0) in K as [K|K]; auto.
      * contradiction.
Qed.
Lemma rules_keep_first : forall a ps, forallb (harmless a) ps = true ->
  forall s t, passes_done ps s t -> only_first a s -> only_first a t.
Proof.
  intros a ps H. apply passes_keep. intros p Hp. rewrite forallb_forall in H. now apply harmless_keeps, H.
Qed.

(** ** Words made to order *)
Definition syl (v : N) (l : ustr) : ustr := flat_map (fun c => [c; v]) l.
Definition sub (x y c : N) : N := if c =? x then y else c.
Definition raise (set : ustr) (c : N) : N := if isin c set then c - 32 else c.
Definition vow (c : N) : N := if isin c $ "aeiou" then # "3" else c.
Definition low (c : N) : N := c + 32.

Definition misses (set : ustr) (p : pass) : bool :=
  match p with
  | Starts a _ | Ends a _ | All a _ => existsb (fun x => negb (isin x set)) a
  | _ => false
  end.
Lemma all_absent : forall p q x s, In x p -> ~ In x s -> all_replaced p q s s.
Proof.
  intros p q x s Hx. induction s as [|c s IH]; intros N; [constructor|]. constructor.
  - intros y E. apply N. rewrite E. apply in_or_app. now left.
  - apply IH. intros K. apply N. now right.
Qed.
Lemma pass_absent : forall set p s, misses set p = true -> made_of set s -> pass_done p s s.
Proof.
  intros set p s H M. destruct p as [p q|p q|p q| | |l]; try discriminate; cbn [misses] in H;
    apply existsb_exists in H as (x & Hx & K); apply not_isin in K;
    assert (N : ~ In x s) by (intros Q; apply K, M, Q); constructor.
  - right. split; [|reflexivity]. intros p' q' r [E|[]]. injection E as <- <-. intros E. apply N. rewrite E.
    apply in_or_app. now left.
  - right. split; [|reflexivity]. intros p' q' r [E|[]]. injection E as <- <-. intros E. apply N. rewrite E.
    apply in_or_app. now right.
  - now apply (all_absent p q x).
Qed.
Lemma skip_passes : forall k set ps s t, forallb (misses set) (firstn k ps) = true -> made_of set s ->
  passes_done (skipn k ps) s t -> passes_done ps s t.
Proof.
  induction k as [|k IH]; intros set ps s t H M P; [exact P|]. destruct ps as [|p ps]; [exact P|].
  cbn [firstn forallb] in H. apply andb_true_iff in H as [H1 H2]. cbn [skipn] in P.
  econstructor; [apply (pass_absent set p s H1 M)|]. now apply (IH set).
Qed.
Lemma made_app : forall set a b, made_of set a -> made_of set b -> made_of set (a ++ b).
Proof. intros set a b A B c Hc. apply in_app_or in Hc as [Hc|Hc]; auto. Qed.
Lemma made_syl : forall set v l, In v set -> made_of set l -> made_of set (syl v l).
Proof.
  intros set v l Hv M c Hc. apply in_flat_map in Hc as (x & Hx & [<-|[<-|[]]]); auto.
Qed.
Lemma made_map : forall set f l, made_of set l -> made_of (map f set) (map f l).
Proof. intros set f l M c Hc. apply in_map_iff in Hc as (x & <- & Hx). apply in_map. auto. Qed.
Lemma made_more : forall set set' l, forallb (fun c => isin c set') set = true -> made_of set l -> made_of set' l.
Proof. intros set set' l H M c Hc. apply M in Hc. rewrite forallb_forall in H. now apply isin_In, H. Qed.
Lemma map_fixed : forall set f l, forallb (fun c => f c =? c) set = true -> made_of set l -> map f l = l.
Proof.
  intros set f l H M. rewrite <- (map_id l) at 2. apply map_ext_in. intros c Hc. rewrite forallb_forall in H.
  now apply N.eqb_eq, H, M.
Qed.
Lemma syl_sub : forall x y l e, x <> # "3" -> ~ In x e ->
  all_replaced [x; # "3"] [y; # "3"] (syl (# "3") l ++ e) (syl (# "3") (map (sub x y) l) ++ e).
Proof.
  intros x y l e Hx He. induction l as [|c l IH].
  - cbn. apply (all_absent _ _ x); [now left|exact He].
  - cbn [syl flat_map map app]. fold (syl (# "3") l). unfold sub at 1. destruct (N.eqb_spec c x) as [->|Hc].
    + apply (ar_hit [x; # "3"] [y; # "3"]). exact IH.
    + apply ar_skip; [intros z E; injection E as E _; contradiction|].
      apply ar_skip; [intros z E; injection E as E _; now apply Hx|]. exact IH.
Qed.
Lemma skip_front : forall p q x a s t, hd_error p = Some x -> ~ In x a -> all_replaced p q s t ->
  all_replaced p q (a ++ s) (a ++ t).
Proof.
  intros p q x a s t Hp. induction a as [|c a IH]; intros N H; [exact H|]. cbn [app]. apply ar_skip.
  - intros z E. destruct p as [|y p]; [discriminate|]. injection Hp as ->. injection E as E _. apply N. left. now symmetry.
  - apply IH; [|exact H]. intros K. apply N. now right.
Qed.
Lemma sub_pass : forall x y a l e, x <> # "3" -> ~ In x a -> ~ In x e ->
  pass_done (All [x; # "3"] [y; # "3"]) (a ++ syl (# "3") l ++ e) (a ++ syl (# "3") (map (sub x y) l) ++ e).
Proof. intros x y a l e H A E. constructor. apply (skip_front _ _ x); [reflexivity|exact A|]. now apply syl_sub. Qed.
Lemma runs_syl : forall set l e, ~ In (# "3") set -> (length e <= 1)%nat ->
  runs_raised set (syl (# "3") l ++ e) (syl (# "3") (map (raise set) l) ++ map (raise set) e).
Proof.
  intros set l e H3 He. induction l as [|c l IH].
  - cbn [syl flat_map map app]. destruct e as [|c [|d e]]; [constructor| |cbn in He; lia]. cbn [map]. unfold raise.
    destruct (isin c set) eqn:Hc.
    + apply isin_In in Hc. apply (rr_run set c 0 []); [exact Hc|discriminate|constructor].
    + apply isin_false in Hc. apply rr_other; [exact Hc|constructor].
  - cbn [syl flat_map map app]. fold (syl (# "3") l). unfold raise at 1.
    assert (K : runs_raised set (# "3" :: syl (# "3") l ++ e) (# "3" :: syl (# "3") (map (raise set) l) ++ map (raise set) e))
      by (apply rr_other; [exact H3|exact IH]).
    destruct (isin c set) eqn:Hc.
    + apply isin_In in Hc. apply (rr_run set c 0); [exact Hc| |exact K]. intros x E. injection E as E _.
      apply H3. now rewrite E.
    + apply isin_false in Hc. apply rr_other; [exact Hc|exact K].
Qed.
Lemma runs_front : forall set a s t, (forall c, In c a -> ~ In c set) -> runs_raised set s t -> runs_raised set (a ++ s) (a ++ t).
Proof.
  intros set a s t H R. induction a as [|c a IH]; [exact R|]. cbn [app]. apply rr_other.
  - apply H. now left.
  - apply IH. intros x Hx. apply H. now right.
Qed.
Lemma runs_pass : forall set a l e, (forall c, In c a -> ~ In c set) -> ~ In (# "3") set -> (length e <= 1)%nat ->
  pass_done (Runs set) (a ++ syl (# "3") l ++ e) (a ++ syl (# "3") (map (raise set) l) ++ map (raise set) e).
Proof. intros set a l e A H3 He. constructor. apply runs_front; [exact A|]. now apply runs_syl. Qed.
Lemma vowels_pass : forall s, pass_done Vowels s (map vow s).
Proof.
  intros s. constructor. induction s as [|c s IH]; constructor; [|exact IH]. unfold vow, lower_vowel.
  destruct (isin c $ "aeiou") eqn:E; [left; apply isin_In in E|right; apply isin_false in E]; auto.
Qed.
Lemma map_syl : forall f v l, map f (syl v l) = syl (f v) (map f l).
Proof. intros f v l. induction l as [|c l IH]; [reflexivity|]. cbn [syl flat_map map app]. now f_equal; f_equal. Qed.
Lemma vowels_syl : forall a l e, pass_done Vowels (a ++ syl (# "a") l ++ e) (map vow a ++ syl (# "3") (map vow l) ++ map vow e).
Proof.
  intros a l e. replace (map vow a ++ syl (# "3") (map vow l) ++ map vow e) with (map vow (a ++ syl (# "a") l ++ e)).
  - apply vowels_pass.
  - rewrite !map_app, map_syl. reflexivity.
Qed.
Lemma drop_pass : forall x s, pass_done (All [x] []) s (filter (fun c => negb (c =? x)) s).
Proof.
  intros x s. constructor. induction s as [|c s IH]; [constructor|]. cbn [filter]. destruct (N.eqb_spec c x) as [->|H].
  - cbn [negb]. apply (ar_hit [x] [] s). exact IH.
  - cbn [negb]. apply ar_skip; [|exact IH]. intros z E. injection E as E _. contradiction.
Qed.
Lemma drop_syl : forall l, ~ In (# "3") l -> filter (fun c => negb (c =? # "3")) (syl (# "3") l) = l.
Proof.
  induction l as [|c l IH]; intros N; [reflexivity|]. cbn [syl flat_map app filter]. fold (syl (# "3") l).
  destruct (N.eqb_spec c (# "3")) as [->|_]; [destruct N; now left|]. cbn [negb]. f_equal. apply IH. intros K. apply N. now right.
Qed.
Lemma ends_pass : forall p q r, pass_done (Ends p q) (r ++ p) (r ++ q).
Proof.
  intros p q r. constructor. left. exists p, q, r, [], [].
  split; [reflexivity|]. split; [reflexivity|]. split; [reflexivity|]. intros p' q' r' [].
Qed.
Lemma filled_pad_to : forall n x w code, filled n x w code -> code = pad_to n x w.
Proof. intros n x w code [L ->]. now rewrite pad_to_alt, firstn_all2 by exact L. Qed.
Lemma pad_to_filled : forall n x w, filled n x (firstn n w) (pad_to n x w).
Proof.
  intros n x w. split; [rewrite firstn_length; lia|]. rewrite pad_to_alt. f_equal. f_equal. rewrite firstn_length. lia.
Qed.

(** ** Caverphone 1 *)
(** The passes after the vowels. [a] is what stands in front of the syllables. *)
Lemma caverphone1_tail : forall a l, made_of $ "A" a -> made_of $ "fklmnprstwy" l ->
  passes_done (skipn 25 caverphone1_rules) (a ++ syl (# "3") l ++ []) (a ++ map (fun c => c - 32) l).
Proof.
  intros a l Ma Ml. cbv [skipn caverphone1_rules].
  assert (T : forall set l', isin (# "A") set = true -> isin (# "3") set = true -> made_of set l' ->
     made_of set (a ++ syl (# "3") l' ++ [])).
  { intros set l' HA H3 M. apply isin_In in HA, H3. apply made_app.
    - intros c Hc. apply Ma in Hc as [<-|[]]. exact HA.
    - apply made_app; [apply made_syl; assumption|intros c []]. }
  apply (skip_passes 3 ($ "A3fklmnprstwy")); [reflexivity|apply T; [reflexivity..|]; now apply (made_more $ "fklmnprstwy")|]. cbn [skipn].
  econstructor; [apply runs_pass; [intros c Hc; apply Ma in Hc as [<-|[]]; vm_compute; intuition discriminate
    |vm_compute; intuition discriminate|cbn; lia]|].
  cbn [map]. set (l1 := map (raise $ "stpkfmn") l).
  assert (M1 : made_of $ "FKlMNPrSTwy" l1) by (apply (made_map _ (raise $ "stpkfmn")) in Ml; exact Ml).
  econstructor; [apply (sub_pass (# "w") (# "W")); [discriminate|intros K; apply Ma in K as [K|[]]; discriminate|intros []]|].
  set (l2 := map (sub (# "w") (# "W")) l1).
  assert (M2 : made_of $ "FKlMNPrSTWy" l2) by (apply (made_map _ (sub (# "w") (# "W"))) in M1; exact M1).
  apply (skip_passes 6 ($ "A3FKlMNPrSTWy")); [reflexivity|apply T; [reflexivity..|]; now apply (made_more $ "FKlMNPrSTWy")|]. cbn [skipn].
  econstructor; [apply (sub_pass (# "r") (# "R")); [discriminate|intros K; apply Ma in K as [K|[]]; discriminate|intros []]|].
  set (l3 := map (sub (# "r") (# "R")) l2).
  assert (M3 : made_of $ "FKlMNPRSTWy" l3) by (apply (made_map _ (sub (# "r") (# "R"))) in M2; exact M2).
  apply (skip_passes 2 ($ "A3FKlMNPRSTWy")); [reflexivity|apply T; [reflexivity..|]; now apply (made_more $ "FKlMNPRSTWy")|]. cbn [skipn].
  econstructor; [apply (sub_pass (# "l") (# "L")); [discriminate|intros K; apply Ma in K as [K|[]]; discriminate|intros []]|].
  set (l4 := map (sub (# "l") (# "L")) l3).
  assert (M4 : made_of $ "FKLMNPRSTWy" l4) by (apply (made_map _ (sub (# "l") (# "L"))) in M3; exact M3).
  apply (skip_passes 3 ($ "A3FKLMNPRSTWy")); [reflexivity|apply T; [reflexivity..|]; now apply (made_more $ "FKLMNPRSTWy")|]. cbn [skipn].
  econstructor; [apply (sub_pass (# "y") (# "Y")); [discriminate|intros K; apply Ma in K as [K|[]]; discriminate|intros []]|].
  set (l5 := map (sub (# "y") (# "Y")) l4).
  assert (M5 : made_of $ "FKLMNPRSTWY" l5) by (apply (made_map _ (sub (# "y") (# "Y"))) in M4; exact M4).
  apply (skip_passes 2 ($ "A3FKLMNPRSTWY")); [reflexivity|apply T; [reflexivity..|]; now apply (made_more $ "FKLMNPRSTWY")|]. cbn [skipn].
  econstructor; [apply (drop_pass (# "3"))|].
  replace (a ++ map (fun c => c - 32) l) with (filter (fun c => negb (c =? # "3")) (a ++ syl (# "3") l5 ++ [])); [constructor|].
  rewrite app_nil_r, filter_app, drop_syl by (intros K; apply M5 in K; vm_compute in K; intuition discriminate). f_equal.
  - apply filter_id. intros x Hx. apply Ma in Hx as [<-|[]]. reflexivity.
  - unfold l5, l4, l3, l2, l1. rewrite !map_map. apply map_ext_in. intros c Hc. apply N.eqb_eq.
    apply Ml in Hc. revert c Hc. apply forallb_forall. reflexivity.
Qed.
Lemma low_back : forall set l, forallb (fun c => (64 <? c)) set = true -> made_of set l -> map (fun c => c - 32) (map low l) = l.
Proof. intros set l H M. rewrite map_map. rewrite <- (map_id l) at 2. apply map_ext. intros c. unfold low. lia. Qed.
Lemma initial_consonant : forall l e, made_of $ "fklmnprstwy" (l ++ e) -> pass_done InitialVowel (syl (# "a") l ++ e) (syl (# "a") l ++ e).
Proof.
  intros l e M. apply pd_no_initial. intros c r E V.
  assert (K : In c (l ++ e)).
  { destruct l as [|x l]; cbn [syl flat_map app] in E; [rewrite E; now left|]. injection E as -> _. now left. }
  apply M in K. unfold lower_vowel in V. revert V. apply isin_false. apply negb_true_iff.
  now apply (on_set (fun c => negb (isin c $ "aeiou")) $ "fklmnprstwy").
Qed.
Lemma vow_consonants : forall l, made_of $ "fklmnprstwy" l -> map vow l = l.
Proof. intros l. now apply map_fixed. Qed.
Lemma caverphone1_reachable : forall front body, front = [] \/ front = $ "A" -> made_of $ "FKLMNPRSTWY" body ->
  exists w, made_of lower26 w /\ passes_done caverphone1_rules w (front ++ body).
Proof.
  intros front body Hf Hb. set (l := map low body).
  assert (M : made_of $ "fklmnprstwy" l) by (apply (made_map _ low) in Hb; exact Hb).
  assert (E : map (fun c => c - 32) l = body) by (now apply (low_back $ "FKLMNPRSTWY")). rewrite <- E.
  assert (W : forall a, made_of $ "a" a -> made_of $ "afklmnprstwy" (a ++ syl (# "a") l ++ [])).
  { intros a Ha. apply made_app; [now apply (made_more $ "a")|]. apply made_app; [|intros c []].
    apply made_syl; [now left|]. now apply (made_more $ "fklmnprstwy"). }
  destruct Hf as [-> | ->].
  - exists ([] ++ syl (# "a") l ++ []). split.
    + apply (made_more $ "afklmnprstwy"); [reflexivity|]. apply W. intros c [].
    + apply (skip_passes 23 $ "afklmnprstwy"); [reflexivity|apply W; intros c []|]. cbn [skipn caverphone1_rules].
      econstructor; [apply initial_consonant; now rewrite app_nil_r|].
      econstructor; [apply (vowels_syl [] l [])|]. rewrite (vow_consonants l M). cbn [map].
      apply (caverphone1_tail [] l); [intros c []|exact M].
  - exists ($ "a" ++ syl (# "a") l ++ []). split.
    + apply (made_more $ "afklmnprstwy"); [reflexivity|]. apply W. intros c Hc. exact Hc.
    + apply (skip_passes 23 $ "afklmnprstwy"); [reflexivity|apply W; intros c Hc; exact Hc|]. cbn [skipn caverphone1_rules].
      econstructor; [apply pd_initial; now left|].
      econstructor; [apply (vowels_syl $ "A" l [])|]. rewrite (vow_consonants l M). cbn [map].
      apply (caverphone1_tail $ "A" l); [intros c Hc; exact Hc|exact M].
Qed.
Lemma letters_lower26 : forall u w, made_of lower26 w -> letters_of u w = w.
Proof.
  intros u w M. unfold letters_of.
  assert (A : ascii_str w).
  { intros c Hc. apply N.ltb_lt. apply (on_set (fun c => c <? 128) lower26); [now apply M|reflexivity]. }
  rewrite str_lower_ascii by exact A.
  rewrite (map_fixed lower26); [|reflexivity|exact M]. apply filter_id. intros c Hc.
  rewrite is_lowercase_ascii.
  - apply (on_set is_ascii_lower lower26); [now apply M|reflexivity].
  - apply A, Hc.
Qed.
Lemma lower26_ascii : forall w, made_of lower26 w -> forall c, In c w -> c < 128.
Proof. intros w M c Hc. apply N.ltb_lt. apply (on_set (fun c => c <? 128) lower26); [now apply M|reflexivity]. Qed.
Lemma lower26_only : forall u s, (forall c, In c (letters_of u s) -> c < 128) -> made_of lower26 (letters_of u s).
Proof. intros u s H c Hc. apply (only_False _ _ (letters_only u s H) c Hc). Qed.

Lemma front_split : forall a set s, only_first a s -> made_of (a :: set) s ->
  exists front body, (front = [] \/ front = [a]) /\ made_of set body /\ s = front ++ body.
Proof.
  intros a set s [N|(r & -> & N)] M.
  - exists [], s. split; [now left|]. split; [|reflexivity]. intros c Hc. destruct (M c Hc) as [->|K]; [contradiction|exact K].
  - exists [a], r. split; [now right|]. split; [|reflexivity]. intros c Hc. destruct (M c (or_intror Hc)) as [->|K]; [contradiction|exact K].
Qed.
Lemma firstn_made : forall set n l, made_of set l -> made_of set (firstn n l).
Proof. intros set n l M c Hc. apply M. now apply (In_firstn _ n). Qed.

Lemma caverphone1_codes : forall u code,
  (exists s, (forall c, In c (letters_of u s) -> c < 128) /\ caverphone1_encode u s = Ok code) <-> caverphone1_form code.
Proof.
  intros u code. split.
  - intros (s & HA & E). apply (C67_caverphone1_is_its_definition u s code HA) in E as (t & P & ->).
    assert (F : only_first (# "A") t).
    { apply (rules_keep_first (# "A") caverphone1_rules) with (s := letters_of u s); [reflexivity|exact P|].
      left. intros K. apply (lower26_only u s HA) in K. revert K. apply isin_false. reflexivity. }
    assert (M : made_of final_set t).
    { apply (passes_compute _ _ rules1) in P. subst t. intros c Hc. revert c Hc. apply only_False. apply passes1_only, letters_only, HA. }
    assert (F6 : only_first (# "A") (firstn 6 t)).
    { destruct F as [N|(r & -> & N)]; [left; intros K; apply N; now apply (In_firstn _ 6)|].
      right. exists (firstn 5 r). split; [reflexivity|]. intros K. apply N. now apply (In_firstn _ 5). }
    destruct (front_split (# "A") $ "FKLMNPRSTWY" (firstn 6 t) F6) as (front & body & Hf & Hb & E).
    { now apply firstn_made. }
    exists front, body. split; [exact Hf|]. split; [exact Hb|]. rewrite <- E. apply pad_to_filled.
  - intros (front & body & Hf & Hb & F). destruct (caverphone1_reachable front body Hf Hb) as (w & Mw & P).
    exists w. assert (L : letters_of u w = w) by (now apply letters_lower26).
    assert (HA : forall c, In c (letters_of u w) -> c < 128) by (rewrite L; now apply lower26_ascii).
    split; [exact HA|]. apply (C67_caverphone1_is_its_definition u w code HA).
    exists (front ++ body). split; [now rewrite L|]. now apply filled_pad_to.
Qed.

(** ** Caverphone 2 *)
(** [e]: what stands behind the syllables. *)
Lemma caverphone2_tail : forall a l e, made_of $ "AY3" a -> made_of $ "fklmnprstw" l -> made_of $ "fkmnpst" e -> (length e <= 1)%nat ->
  passes_done (firstn 18 (skipn 30 caverphone2_rules)) (a ++ syl (# "3") l ++ e)
    (a ++ syl (# "3") (map (fun c => c - 32) l) ++ map (fun c => c - 32) e).
Proof.
  intros a l e Ma Ml Me Le. cbv [skipn firstn caverphone2_rules].
  assert (T : forall set l' e', isin (# "A") set = true -> isin (# "Y") set = true -> isin (# "3") set = true -> made_of set l' -> made_of set e' ->
     made_of set (a ++ syl (# "3") l' ++ e')).
  { intros set l' e' HA HY H3 M M'. apply isin_In in HA, H3, HY. apply made_app.
    - intros c Hc. apply Ma in Hc as [<-|[<-|[<-|[]]]]; assumption.
    - apply made_app; [apply made_syl; assumption|exact M']. }
  assert (A : forall x, isin x $ "AY3" = false -> ~ In x a).
  { intros x Hx K. apply isin_false in Hx. apply Hx, Ma, K. }
  apply (skip_passes 4 ($ "A3Yfklmnprstw")); [reflexivity|apply T; [reflexivity..| |];
    [now apply (made_more $ "fklmnprstw")|now apply (made_more $ "fkmnpst")]|]. cbn [skipn].
  econstructor; [apply runs_pass; [intros c Hc; apply Ma in Hc; revert c Hc|vm_compute; intuition discriminate|exact Le]|].
  { intros c Hc. apply isin_false, negb_true_iff. apply (on_set (fun c => negb (isin c $ "stpkfmn")) $ "AY3"); [exact Hc|reflexivity]. }
  set (l1 := map (raise $ "stpkfmn") l).
  assert (M1 : made_of $ "FKlMNPrSTw" l1) by (apply (made_map _ (raise $ "stpkfmn")) in Ml; exact Ml).
  replace (map (raise $ "stpkfmn") e) with (map (fun c => c - 32) e).
  2:{ apply map_ext_in. intros c Hc. apply Me in Hc. apply N.eqb_eq. revert c Hc. apply forallb_forall. reflexivity. }
  set (e1 := map (fun c => c - 32) e).
  assert (Q1 : made_of $ "FKMNPST" e1) by (apply (made_map _ (fun c => c - 32)) in Me; exact Me).
  assert (B : forall x, isin x $ "FKMNPST" = false -> ~ In x e1).
  { intros x Hx K. apply isin_false in Hx. apply Hx, Q1, K. }
  econstructor; [apply (sub_pass (# "w") (# "W")); [discriminate|now apply A|now apply B]|].
  set (l2 := map (sub (# "w") (# "W")) l1).
  assert (M2 : made_of $ "FKlMNPrSTW" l2) by (apply (made_map _ (sub (# "w") (# "W"))) in M1; exact M1).
  apply (skip_passes 5 ($ "A3YFKlMNPrSTW")); [reflexivity|apply T; [reflexivity..| |];
    [now apply (made_more $ "FKlMNPrSTW")|now apply (made_more $ "FKMNPST")]|]. cbn [skipn].
  econstructor; [apply (sub_pass (# "r") (# "R")); [discriminate|now apply A|now apply B]|].
  set (l3 := map (sub (# "r") (# "R")) l2).
  assert (M3 : made_of $ "FKlMNPRSTW" l3) by (apply (made_map _ (sub (# "r") (# "R"))) in M2; exact M2).
  apply (skip_passes 2 ($ "A3YFKlMNPRSTW")); [reflexivity|apply T; [reflexivity..| |];
    [now apply (made_more $ "FKlMNPRSTW")|now apply (made_more $ "FKMNPST")]|]. cbn [skipn].
  econstructor; [apply (sub_pass (# "l") (# "L")); [discriminate|now apply A|now apply B]|].
  set (l4 := map (sub (# "l") (# "L")) l3).
  assert (M4 : made_of $ "FKLMNPRSTW" l4) by (apply (made_map _ (sub (# "l") (# "L"))) in M3; exact M3).
  replace (map (fun c => c - 32) l) with l4.
  2:{ unfold l4, l3, l2, l1. rewrite !map_map. apply map_ext_in. intros c Hc. apply N.eqb_eq.
      apply Ml in Hc. revert c Hc. apply forallb_forall. reflexivity. }
  apply (skip_passes 3 ($ "A3YFKLMNPRSTW")); [reflexivity|apply T; [reflexivity..| |];
    [now apply (made_more $ "FKLMNPRSTW")|now apply (made_more $ "FKMNPST")]|]. cbn [skipn].
  constructor.
Qed.

Lemma passes_join : forall a b s m t, passes_done a s m -> passes_done b m t -> passes_done (a ++ b) s t.
Proof. intros a b s m t H. induction H as [s|p ps s m' m P Q IH]; intros K; [exact K|]. econstructor; [exact P|]. now apply IH. Qed.
Lemma rules2_parts : caverphone2_rules =
  firstn 30 caverphone2_rules ++ firstn 18 (skipn 30 caverphone2_rules) ++ [Ends $ "3" $ "A"; All $ "3" []].
Proof. reflexivity. Qed.
(** What stands in front of the syllables, in the word and after the first passes. *)
Definition openings : list (ustr * ustr) := [([], []); ($ "a", $ "A"); ($ "ya", $ "Y3")].
Lemma opening_of : forall front, In front [[]; $ "A"; $ "Y"] -> exists a0 a, In (a0, a) openings
  /\ filter (fun c => negb (c =? # "3")) a = front.
Proof.
  intros front [<-|[<-|[<-|[]]]]; [exists [], []|exists $ "a", $ "A"|exists $ "ya", $ "Y3"];
    (split; [cbn; tauto|reflexivity]).
Qed.
Lemma opening_letters : forall a0 a, In (a0, a) openings -> made_of $ "ay" a0 /\ made_of $ "AY3" a.
Proof.
  intros a0 a [E|[E|[E|[]]]]; injection E as <- <-; split;
    intros c Hc; cbn in Hc; repeat (destruct Hc as [<-|Hc]; [cbn; tauto|]); destruct Hc.
Qed.
Lemma caverphone2_start : forall a0 a l e, In (a0, a) openings -> made_of $ "fklmnprstw" l -> made_of $ "fkmnpst" e ->
  passes_done (firstn 30 caverphone2_rules) (a0 ++ syl (# "a") l ++ e) (a ++ syl (# "3") l ++ e).
Proof.
  intros a0 a l e Ho Ml Me. cbv [firstn caverphone2_rules].
  assert (My : made_of $ "fklmnprstwy" (l ++ e)).
  { apply made_app; [now apply (made_more $ "fklmnprstw")|now apply (made_more $ "fkmnpst")]. }
  assert (T : forall set b v, (forall c, In c $ "fklmnprstw" -> In c set) -> made_of set b -> In v set -> made_of set (b ++ syl v l ++ e)).
  { intros set b v H B V. apply made_app; [exact B|]. apply made_app.
    - apply made_syl; [exact V|]. intros c Hc. apply H, Ml, Hc.
    - intros c Hc. apply Me in Hc. apply H. revert c Hc. apply (made_more $ "fkmnpst"); [reflexivity|]. intros c Hc. exact Hc. }
  assert (VL : map vow l = l) by (apply (map_fixed $ "fklmnprstw"); [reflexivity|exact Ml]).
  assert (VE : map vow e = e) by (apply (map_fixed $ "fkmnpst"); [reflexivity|exact Me]).
  apply (skip_passes 25 $ "afklmnprstwy"); [reflexivity|apply T|].
  { intros c Hc. revert c Hc. apply (made_more $ "fklmnprstw"); [reflexivity|]. intros c Hc. exact Hc. }
  { apply (made_more $ "ay"); [reflexivity|]. apply (opening_letters a0 a Ho). }
  { now left. }
  cbn [skipn]. destruct Ho as [E|[E|[E|[]]]]; injection E as <- <-.
  - econstructor; [now apply initial_consonant|].
    econstructor; [apply (vowels_syl [] l e)|]. rewrite VL, VE. cbn [map].
    apply (skip_passes 3 $ "3fklmnprstw"); [reflexivity|apply T|constructor].
    + intros c Hc. now right.
    + intros c [].
    + now left.
  - econstructor; [apply pd_initial; now left|].
    econstructor; [apply (vowels_syl $ "A" l e)|]. rewrite VL, VE. cbn [map].
    apply (skip_passes 3 $ "A3fklmnprstw"); [reflexivity|apply T|constructor].
    + intros c Hc. right. now right.
    + intros c [<-|[]]. now left.
    + right. now left.
  - econstructor; [apply pd_no_initial|].
    { intros c r E. injection E as <- _. unfold lower_vowel. apply isin_false. reflexivity. }
    econstructor; [apply (vowels_syl $ "ya" l e)|]. rewrite VL, VE.
    apply (skip_passes 1 $ "y3fklmnprstw"); [reflexivity|apply T|].
    + intros c Hc. right. now right.
    + intros c [<-|[<-|[]]]; [now left|right; now left].
    + right. now left.
    + cbn [skipn]. econstructor.
      * apply pd_starts. left. exists $ "y3", $ "Y3", (syl (# "3") l ++ e). split; [|reflexivity].
        exists [], []. split; [reflexivity|]. split; [reflexivity|]. intros p' q' r' [].
      * apply (skip_passes 1 $ "Y3fklmnprstw"); [reflexivity|apply T|constructor].
        -- intros c Hc. right. now right.
        -- intros c [<-|[<-|[]]]; [now left|right; now left].
        -- right. now left.
Qed.
Lemma no3 : forall set l, isin (# "3") set = false -> made_of set l -> ~ In (# "3") l.
Proof. intros set l H M K. apply isin_false in H. apply H, M, K. Qed.
Lemma drop_none : forall l, ~ In (# "3") l -> filter (fun c => negb (c =? # "3")) l = l.
Proof. intros l N. apply filter_id. intros x Hx. apply negb_true_iff, N.eqb_neq. intros ->. contradiction. Qed.
Lemma syl_last : forall (l : ustr), l <> [] -> exists r, syl (# "3") l = r ++ [# "3"].
Proof.
  intros l Hl. destruct (exists_last Hl) as (b & c & ->). exists (syl (# "3") b ++ [c]).
  unfold syl. rewrite flat_map_app. cbn [flat_map app]. rewrite <- app_assoc. reflexivity.
Qed.
Lemma caverphone2_open : forall a0 a l, In (a0, a) openings -> made_of $ "fklmnprstw" l -> l <> [] ->
  passes_done caverphone2_rules (a0 ++ syl (# "a") l ++ [])
    (filter (fun c => negb (c =? # "3")) a ++ map (fun c => c - 32) l ++ $ "A").
Proof.
  intros a0 a l Ho Ml Hl. rewrite rules2_parts.
  eapply passes_join; [apply (caverphone2_start a0 a l []); [exact Ho|exact Ml|intros c []]|].
  eapply passes_join; [apply caverphone2_tail; [apply (opening_letters a0 a Ho)|exact Ml|intros c []|cbn; lia]|].
  set (m := map (fun c => c - 32) l). cbn [map]. rewrite app_nil_r.
  assert (Mm : made_of $ "FKLMNPRSTW" m) by (apply (made_map _ (fun c => c - 32)) in Ml; exact Ml).
  destruct (syl_last m) as (r & Er); [unfold m; now destruct l|].
  assert (Fr : filter (fun c => negb (c =? # "3")) r = m).
  { rewrite <- (drop_syl m) by (now apply (no3 $ "FKLMNPRSTW")). rewrite Er, filter_app. cbn [filter]. now rewrite app_nil_r. }
  rewrite Er, app_assoc. econstructor; [apply ends_pass|]. econstructor; [apply drop_pass|].
  rewrite !filter_app, Fr, <- app_assoc. constructor.
Qed.
Lemma caverphone2_closed : forall a0 a l c, In (a0, a) openings -> made_of $ "fklmnprstw" l -> In c $ "fkmnpst" ->
  passes_done caverphone2_rules (a0 ++ syl (# "a") l ++ [c])
    (filter (fun c => negb (c =? # "3")) a ++ map (fun c => c - 32) l ++ [c - 32]).
Proof.
  intros a0 a l c Ho Ml Hc. rewrite rules2_parts.
  assert (Me : made_of $ "fkmnpst" [c]) by (intros x [<-|[]]; exact Hc).
  eapply passes_join; [apply (caverphone2_start a0 a l [c]); [exact Ho|exact Ml|exact Me]|].
  eapply passes_join; [apply caverphone2_tail; [apply (opening_letters a0 a Ho)|exact Ml|exact Me|cbn; lia]|].
  set (m := map (fun c => c - 32) l). cbn [map].
  assert (Mm : made_of $ "FKLMNPRSTW" m) by (apply (made_map _ (fun c => c - 32)) in Ml; exact Ml).
  assert (Hd : In (c - 32) $ "FKMNPST").
  { apply isin_In. apply (on_set (fun c => isin (c - 32) $ "FKMNPST") $ "fkmnpst"); [exact Hc|reflexivity]. }
  assert (N3 : c - 32 <> # "3") by (intros K; rewrite K in Hd; revert Hd; apply isin_false; reflexivity).
  econstructor; [apply pd_ends; right; split; [|reflexivity]|].
  { intros p q r [E|[]]. injection E as <- <-. rewrite app_assoc. intros E. apply app_inj_tail in E as [_ E]. contradiction. }
  econstructor; [apply drop_pass|]. rewrite !filter_app, drop_syl by (now apply (no3 $ "FKLMNPRSTW")).
  rewrite (drop_none [c - 32]); [constructor|]. intros [K|[]]. exact (N3 K).
Qed.
Lemma caverphone2_reachable : forall front body back, In front [[]; $ "A"; $ "Y"] -> made_of $ "FKLMNPRSTW" body ->
  In back [[]; $ "A"] -> (length (front ++ body ++ back) <= 10)%nat ->
  ((length (front ++ body ++ back) < 10)%nat -> forall word c, front ++ body ++ back = word ++ [c] -> ~ In c $ "LRWY") ->
  exists w t, made_of lower26 w /\ passes_done caverphone2_rules w t
    /\ (t = front ++ body ++ back \/ (length (front ++ body ++ back) = 10%nat /\ t = (front ++ body ++ back) ++ $ "A")).
Proof.
  intros front body back Hf Hb Hk Hn Hlast.
  assert (W : forall a0 a l e, In (a0, a) openings -> made_of $ "fklmnprstw" l -> made_of $ "fkmnpst" e -> made_of lower26 (a0 ++ syl (# "a") l ++ e)).
  { intros a0 a l e Ho Ml Me. apply made_app; [apply (made_more $ "ay"); [reflexivity|apply (opening_letters a0 a Ho)]|].
    apply made_app; [|now apply (made_more $ "fkmnpst")]. apply made_syl; [now left|]. now apply (made_more $ "fklmnprstw"). }
  destruct (list_eq_dec N.eq_dec body []) as [->|Hne].
  - destruct Hf as [<-|[<-|[<-|[]]]], Hk as [<-|[<-|[]]].
    1: exists [], []. 2: exists $ "a", $ "A". 3: exists $ "a", $ "A". 4: exists $ "aa", $ "AA".
    6: exists $ "ya", $ "YA".
    5: { exfalso. apply (Hlast ltac:(cbn; lia) [] (# "Y") eq_refl). cbn. tauto. }
    all: split; [intros c Hc; cbn in Hc; repeat (destruct Hc as [<-|Hc]; [cbn; tauto|]); destruct Hc|];
      (split; [apply (passes_compute _ _ rules2); vm_compute; reflexivity|now left]).
  - destruct (opening_of front Hf) as (a0 & a & Ho & Ef).
    assert (O : exists w, made_of lower26 w /\ passes_done caverphone2_rules w (front ++ body ++ $ "A")).
    { exists (a0 ++ syl (# "a") (map low body) ++ []).
      assert (Ml : made_of $ "fklmnprstw" (map low body)) by (apply (made_map _ low) in Hb; exact Hb).
      split; [apply (W a0 a); [exact Ho|exact Ml|intros c []]|].
      assert (P : passes_done caverphone2_rules (a0 ++ syl (# "a") (map low body) ++ [])
         (filter (fun c => negb (c =? # "3")) a ++ map (fun c => c - 32) (map low body) ++ $ "A"))
        by (apply caverphone2_open; [exact Ho|exact Ml|now destruct body]).
      rewrite Ef, (low_back $ "FKLMNPRSTW" body eq_refl Hb) in P. exact P. }
    destruct Hk as [<-|[<-|[]]].
    + rewrite !app_nil_r in *. destruct (Nat.eq_dec (length (front ++ body)) 10) as [E|E].
      * destruct O as (w & Mw & P). exists w. eexists. split; [exact Mw|]. split; [exact P|]. right.
        split; [exact E|apply app_assoc].
      * destruct (exists_last Hne) as (b & c & ->).
        assert (Hc : In c $ "FKMNPST").
        { assert (K : ~ In c $ "LRWY") by (apply (Hlast ltac:(lia) (front ++ b) c); apply app_assoc).
          assert (Q : In c $ "FKLMNPRSTW") by (apply Hb, in_or_app; right; now left).
          revert K. cbn in Q. repeat (destruct Q as [<-|Q]; [cbn; tauto|]). destruct Q. }
        assert (Hb' : made_of $ "FKLMNPRSTW" b) by (intros x Hx; apply Hb, in_or_app; now left).
        assert (Ml : made_of $ "fklmnprstw" (map low b)) by (apply (made_map _ low) in Hb'; exact Hb').
        assert (Hl : In (low c) $ "fkmnpst").
        { apply isin_In. apply (on_set (fun c => isin (low c) $ "fkmnpst") $ "FKMNPST"); [exact Hc|reflexivity]. }
        exists (a0 ++ syl (# "a") (map low b) ++ [low c]). eexists. split; [|split].
        -- apply (W a0 a); [exact Ho|exact Ml|]. intros x [<-|[]]. exact Hl.
        -- apply caverphone2_closed with (a := a); [exact Ho|exact Ml|exact Hl].
        -- left. rewrite Ef, (low_back $ "FKLMNPRSTW" b eq_refl Hb'). unfold low. do 2 f_equal. f_equal. lia.
    + destruct O as (w & Mw & P). exists w, (front ++ body ++ $ "A"). split; [exact Mw|]. split; [exact P|]. left. reflexivity.
Qed.

(** *** Forward: what every text satisfies before the last two passes *)
(** L, R and W are followed by a vowel, perhaps after letters that fall away. *)
Definition leads (s : ustr) : Prop := exists k r, made_of $ "h2" k /\ s = k ++ # "3" :: r.
Fixpoint heard (s : ustr) : Prop := match s with [] => True | c :: r => (In c $ "LRW" -> leads r) /\ heard r end.
Lemma heard_app_r : forall a b, heard (a ++ b) -> heard b.
Proof. induction a as [|c a IH]; intros b H; [exact H|]. apply IH. apply H. Qed.
Lemma heard_none : forall s, (forall c, In c s -> ~ In c $ "LRW") -> heard s.
Proof.
  induction s as [|c s IH]; intros H; [exact I|]. split.
  - intros K. destruct (H c (or_introl eq_refl) K).
  - apply IH. intros x Hx. apply H. now right.
Qed.
Lemma leads_cons : forall c r, In c $ "h2" -> leads r -> leads (c :: r).
Proof. intros c r Hc (k & x & M & ->). exists (c :: k), x. split; [|reflexivity]. intros y [<-|Hy]; auto. Qed.
Lemma leads_3 : forall r, leads (# "3" :: r).
Proof. intros r. exists [], r. split; [intros c []|reflexivity]. Qed.
Lemma leads_inv : forall c r, leads (c :: r) -> c = # "3" \/ (In c $ "h2" /\ leads r).
Proof.
  intros c r ([|x k] & y & M & E); injection E as -> ->; [now left|]. right. split; [apply M; now left|].
  exists k, y. split; [|reflexivity]. intros z Hz. apply M. now right.
Qed.
Lemma all_heard : forall p q,
  (forall s t, all_replaced p q s t -> leads s -> leads t) -> (forall r, heard r -> heard (q ++ r)) ->
  forall s t, all_replaced p q s t -> heard s -> heard t.
Proof.
  intros p q HL HQ s t H. induction H as [|r r' H IH|c r r' N H IH]; intros K; [exact K| |].
  - apply HQ, IH. now apply heard_app_r in K.
  - destruct K as [K1 K2]. split; [|now apply IH]. intros Hc. now apply (HL r r' H), K1.
Qed.
(** A pattern that does not begin with a letter of [h23]. *)
Lemma leads_kept : forall x p q s t, ~ In x $ "h23" -> all_replaced (x :: p) q s t -> leads s -> leads t.
Proof.
  intros x p q s t Hx H. induction H as [|r r' H IH|c r r' N H IH]; intros K; [exact K| |].
  - cbn [app] in K. apply leads_inv in K as [->|[K _]]; [destruct Hx; cbn; tauto|].
    destruct Hx. cbn in K |- *. tauto.
  - apply leads_inv in K as [->|[K1 K2]]; [apply leads_3|]. apply leads_cons; [exact K1|now apply IH].
Qed.
(** One letter of [h2] that becomes a word of [h2]. *)
Lemma leads_letter : forall x q s t, x <> # "3" -> made_of $ "h2" q -> all_replaced [x] q s t -> leads s -> leads t.
Proof.
  intros x q s t Hx Mq H. induction H as [|r r' H IH|c r r' N H IH]; intros K; [exact K| |].
  - cbn [app] in K. apply leads_inv in K as [->|[_ K]]; [contradiction|]. apply IH in K as (k & y & M & ->).
    exists (q ++ k), y. split; [now apply made_app|]. now rewrite app_assoc.
  - apply leads_inv in K as [->|[K1 K2]]; [apply leads_3|]. apply leads_cons; [exact K1|now apply IH].
Qed.
Lemma heard_q : forall q, (forall c, In c q -> ~ In c $ "LRW") -> forall r, heard r -> heard (q ++ r).
Proof.
  induction q as [|c q IH]; intros H r K; [exact K|]. split.
  - intros Q. destruct (H c (or_introl eq_refl) Q).
  - apply IH; [|exact K]. intros x Hx. apply H. now right.
Qed.
Lemma heard_app_l : forall a b c, ~ leads (c :: b) -> heard (a ++ c :: b) -> forall q, (forall x, In x q -> ~ In x $ "LRW") -> heard (a ++ q).
Proof.
  induction a as [|x a IH]; intros b c N H q Hq; [apply heard_none, Hq|].
  destruct H as [H1 H2]. split; [|now apply (IH b c)]. intros Hx. apply H1 in Hx as (k & r & M & E).
  (* the vowel comes before [c] *)
  clear H1 H2 IH Hq x.
  revert a E. induction k as [|y k IHk]; intros a E.
  - destruct a as [|z a]; cbn [app] in E; [destruct N; rewrite E; apply leads_3|]. injection E as -> _. cbn [app]. apply leads_3.
  - destruct a as [|z a]; cbn [app] in E.
    + destruct N. rewrite E. exists (y :: k), r. now split.
    + injection E as -> E. cbn [app]. apply leads_cons; [apply M; now left|]. apply IHk; [|exact E].
      intros w Hw. apply M. now right.
Qed.
Definition LRW_ok (p : pass) : bool :=
  match p with
  | All (x :: p') q =>
      (negb (isin x $ "h23") || (match p' with [] => negb (x =? # "3") && forallb (fun c => isin c $ "h2") q | _ => false end))
      && match q with
         | [y; z] => (isin y $ "LRW" && (z =? # "3")) || forallb (fun c => negb (isin c $ "LRW")) q
         | [y; w; z] => (isin y $ "LRW" && (w =? # "h") && (z =? # "3")) || forallb (fun c => negb (isin c $ "LRW")) q
         | _ => forallb (fun c => negb (isin c $ "LRW")) q
         end
  | Ends [x] q => negb (isin x $ "h23") && forallb (fun c => negb (isin c $ "LRW")) q
  | Starts (_ :: _) q => forallb (fun c => negb (isin c $ "LRW")) q
  | _ => false
  end.
Lemma forallb_not : forall set q, forallb (fun c => negb (isin c set)) q = true -> forall c, In c q -> ~ In c set.
Proof. intros set q H c Hc. rewrite forallb_forall in H. now apply not_isin, H. Qed.
Lemma LRW_keeps : forall p, LRW_ok p = true -> keeps p heard heard.
Proof.
  intros p H s t P K. destruct p as [p q|p q|p q| | |l]; try discriminate.
  - destruct p as [|x p]; [discriminate|]. cbn [LRW_ok] in H. apply starts_inv in P as [(r & -> & ->)| ->]; [|exact K].
    apply heard_q; [now apply forallb_not|]. now apply heard_app_r in K.
  - destruct p as [|x [|? ?]]; try discriminate. cbn [LRW_ok] in H. apply andb_true_iff in H as [H1 H2].
    apply ends_inv in P as [(r & -> & ->)|[-> _]]; [|exact K].
    apply (heard_app_l r [] x); [|exact K|now apply forallb_not].
    intros L. apply leads_inv in L as [->|[L _]]; [discriminate|]. apply not_isin in H1. apply H1. cbn in L |- *. tauto.
  - destruct p as [|x p]; [discriminate|]. cbn [LRW_ok] in H. apply andb_true_iff in H as [H1 H2].
    apply all_inv in P. revert s t P K. apply all_heard.
    + intros s t P K. apply orb_true_iff in H1 as [H1|H1].
      * apply not_isin in H1. now apply (leads_kept x p q s t).
      * destruct p; [|discriminate]. apply andb_true_iff in H1 as [H1 H3]. apply negb_true_iff, N.eqb_neq in H1.
        apply (leads_letter x q s t); [exact H1| |exact P|exact K]. intros c Hc. rewrite forallb_forall in H3. now apply isin_In, H3.
    + intros r K. destruct q as [|y [|w [|z [|? ?]]]].
      * exact K.
      * apply heard_q; [now apply forallb_not|exact K].
      * apply orb_true_iff in H2 as [H2|H2]; [|apply heard_q; [now apply forallb_not|exact K]].
        apply andb_true_iff in H2 as [_ H2]. apply N.eqb_eq in H2. subst w. split; [intros _; apply leads_3|]. split; [|exact K].
        intros Q. vm_compute in Q. intuition discriminate.
      * apply orb_true_iff in H2 as [H2|H2]; [|apply heard_q; [now apply forallb_not|exact K]].
        apply andb_true_iff in H2 as [H2 H3]. apply andb_true_iff in H2 as [_ H2]. apply N.eqb_eq in H2, H3. subst w z.
        split; [intros _; apply leads_cons; [cbn; tauto|apply leads_3]|].
        split; [intros Q; vm_compute in Q; intuition discriminate|]. split; [|exact K].
        intros Q. vm_compute in Q. intuition discriminate.
      * apply heard_q; [now apply forallb_not|exact K].
Qed.

(** A Y stands only in front, and a vowel follows it. *)
Definition y_front (s : ustr) : Prop := ~ In (# "Y") s \/ exists r, s = # "Y" :: # "3" :: r /\ ~ In (# "Y") r.
Definition Y_ok (p : pass) : bool :=
  match p with
  | All (x :: p') q => negb (isin (# "Y") (x :: p')) && negb (isin (# "Y") q)
      && (negb (x =? # "3") || match q with y :: _ => y =? # "3" | [] => false end)
  | Starts (x :: p') q => negb (isin (# "Y") (x :: p')) && negb (isin (# "Y") q)
  | Ends [x] q => negb (x =? # "Y") && negb (x =? # "3") && negb (isin (# "Y") q)
  | Runs l => negb (isin (# "Y") l) && negb (isin (# "3") l) && negb (isin (# "Y") (map (fun c => c - 32) l))
  | _ => false
  end.
Lemma Y_keeps : forall p, Y_ok p = true -> keeps p y_front y_front.
Proof.
  intros p H s t P I. destruct p as [p q|p q|p q| | |l]; try discriminate; cbn [Y_ok] in H.
  - destruct p as [|x p]; [discriminate|]. apply andb_true_iff in H as [H1 H2]. apply not_isin in H1, H2.
    apply starts_inv in P as [(r & -> & ->)| ->]; [|exact I]. left.
    destruct I as [N|(r' & E & N)].
    + intros K. apply in_app_or in K as [K|K]; [exact (H2 K)|]. apply N, in_or_app. now right.
    + injection E as E1 _. destruct H1. now left.
  - destruct p as [|x [|? ?]]; try discriminate. apply andb_true_iff in H as [H H3]. apply andb_true_iff in H as [H1 H2].
    apply negb_true_iff, N.eqb_neq in H1, H2. apply not_isin in H3.
    apply ends_inv in P as [(r & -> & ->)|[-> _]]; [|exact I]. destruct I as [N|(r' & E & N)].
    + left. intros K. apply in_app_or in K as [K|K]; [apply N, in_or_app; now left|exact (H3 K)].
    + destruct r as [|a [|b r]]; cbn [app] in E.
      * injection E as E _. contradiction.
      * injection E as _ E _. contradiction.
      * injection E as -> -> <-. right. exists (r ++ q). split; [reflexivity|]. intros K.
        apply in_app_or in K as [K|K]; [apply N, in_or_app; now left|exact (H3 K)].
  - destruct p as [|x p]; [discriminate|]. apply andb_true_iff in H as [H H3]. apply andb_true_iff in H as [H1 H2].
    apply not_isin in H1, H2. apply all_inv in P. destruct I as [N|(r & -> & N)].
    + left. intros K. apply (all_replaced_in _ _ _ _ P) in K as [K|K]; [exact (H2 K)|exact (N K)].
    + apply all_replaced_head in P as (r1 & -> & P); [|exact H1|discriminate]. right.
      inversion P as [|r0 r0' P1 E|y r0 r0' Ny P1 E]; subst.
      * apply orb_true_iff in H3 as [H3|H3]; [discriminate|]. destruct q as [|y q]; [discriminate|].
        apply N.eqb_eq in H3. subst y. exists (q ++ r0'). split; [reflexivity|]. intros K. apply in_app_or in K as [K|K].
        -- apply H2. now right.
        -- apply (all_replaced_in _ _ _ _ P1) in K as [K|K]; [exact (H2 K)|]. apply N, in_or_app. now right.
      * exists r0'. split; [reflexivity|]. intros K. apply (all_replaced_in _ _ _ _ P1) in K as [K|K]; [exact (H2 K)|exact (N K)].
  - apply andb_true_iff in H as [H H3]. apply andb_true_iff in H as [H1 H2]. apply not_isin in H1, H2, H3.
    inversion P as [| | | | | |l0 s0 t0 R]; subst. clear P. destruct I as [N|(r & -> & N)].
    + left. intros K. apply (runs_in _ _ _ R) in K as [K|K]; [exact (H3 K)|exact (N K)].
    + inversion R as [|c r0 r0' Nc R0|c k r0 r0' Hc Nc R0]; subst; [|contradiction].
      inversion R0 as [|c r1 r1' Nc' R1|c k r1 r1' Hc Nc' R1]; subst; [|contradiction].
      right. exists r1'. split; [reflexivity|]. intros K. apply (runs_in _ _ _ R1) in K as [K|K]; [exact (H3 K)|exact (N K)].
Qed.
Lemma absent_kept : forall x ps, forallb (fun p => negb (isin x (writes p))) ps = true ->
  forall s t, passes_done ps s t -> ~ In x s -> ~ In x t.
Proof.
  intros x ps H s t P N. revert s t P N. apply (passes_keep ps (fun s => ~ In x s)). intros p Hp s t P N K.
  rewrite forallb_forall in H. apply H, not_isin in Hp. apply (pass_in p s t P) in K as [K|K]; auto.
Qed.
(** The text before the last two passes. *)
Lemma caverphone2_shape : forall s t, made_of lower26 s -> passes_done (firstn 48 caverphone2_rules) s t ->
  only_first (# "A") t /\ y_front t /\ heard t.
Proof.
  intros s t M P.
  assert (N0 : forall x, isin x lower26 = false -> ~ In x s).
  { intros x Hx K. apply isin_false in Hx. apply Hx, M, K. }
  split; [|split].
  - apply (rules_keep_first (# "A") (firstn 48 caverphone2_rules)) with (s := s); [reflexivity|exact P|]. left. now apply N0.
  - change (firstn 48 caverphone2_rules) with (firstn 28 caverphone2_rules ++ [Starts $ "y3" $ "Y3"] ++ firstn 19 (skipn 29 caverphone2_rules)) in P.
    apply passes_split in P as (m & P1 & P). apply passes_split in P as (m' & P2 & P3).
    assert (N1 : ~ In (# "Y") m) by (revert P1 ; intros P1; apply (absent_kept (# "Y") (firstn 28 caverphone2_rules) eq_refl s m P1); now apply N0).
    apply (passes_keep (firstn 19 (skipn 29 caverphone2_rules)) y_front) with (s := m'); [|exact P3|].
    + intros p Hp. apply Y_keeps. revert p Hp. apply forallb_forall. reflexivity.
    + inversion P2 as [|p0 ps0 s0 m0 t0 Q1 Q2]; subst. inversion Q2; subst. apply starts_inv in Q1 as [(r & -> & ->)| ->].
      * right. exists r. split; [reflexivity|]. intros K. apply N1. right. now right.
      * now left.
  - change (firstn 48 caverphone2_rules) with (firstn 35 caverphone2_rules ++ firstn 13 (skipn 35 caverphone2_rules)) in P.
    apply passes_split in P as (m & P1 & P2).
    assert (N1 : forall c, In c m -> ~ In c $ "LRW").
    { intros c Hc [<-|[<-|[<-|[]]]]; revert Hc.
      - apply (absent_kept (# "L") (firstn 35 caverphone2_rules) eq_refl s m P1). now apply N0.
      - apply (absent_kept (# "R") (firstn 35 caverphone2_rules) eq_refl s m P1). now apply N0.
      - apply (absent_kept (# "W") (firstn 35 caverphone2_rules) eq_refl s m P1). now apply N0. }
    apply (passes_keep (firstn 13 (skipn 35 caverphone2_rules)) heard) with (s := m); [|exact P2|now apply heard_none].
    intros p Hp. apply LRW_keeps. revert p Hp. apply forallb_forall. reflexivity.
Qed.
Lemma only_first_prefix : forall a r x, only_first a (r ++ x) -> only_first a r.
Proof.
  intros a r x [N|(r' & E & N)]; [left; intros K; apply N, in_or_app; now left|].
  destruct r as [|y r]; [left; intros []|]. injection E as -> <-. right. exists r. split; [reflexivity|].
  intros K. apply N, in_or_app. now left.
Qed.
Lemma only_first_drop : forall a s, a <> # "3" -> only_first a s -> only_first a (filter (fun c => negb (c =? # "3")) s).
Proof.
  intros a s H [N|(r & -> & N)]; [left; intros K; apply filter_In in K as [K _]; contradiction|].
  cbn [filter]. apply N.eqb_neq in H. rewrite H. right. eexists. split; [reflexivity|].
  intros K. apply filter_In in K as [K _]. contradiction.
Qed.
Lemma y_front_first : forall s, y_front s -> only_first (# "Y") s.
Proof.
  intros s [N|(r & -> & N)]; [now left|]. right. exists (# "3" :: r). split; [reflexivity|]. intros [K|K]; [discriminate|contradiction].
Qed.
Lemma two_fronts : forall s, only_first (# "A") s -> only_first (# "Y") s -> made_of final_set s ->
  exists front body, In front [[]; $ "A"; $ "Y"] /\ made_of $ "FKLMNPRSTW" body /\ s = front ++ body.
Proof.
  intros s FA FY M.
  assert (G : forall l, ~ In (# "A") l -> ~ In (# "Y") l -> made_of final_set l -> made_of $ "FKLMNPRSTW" l).
  { intros l NA NY Ml c Hc. assert (K := Ml c Hc). cbn in K.
    destruct K as [<-|K]; [contradiction|]. repeat (destruct K as [<-|K]; [cbn; tauto || contradiction|]). destruct K. }
  destruct FA as [NA|(r & -> & NA)].
  - destruct FY as [NY|(r & -> & NY)].
    + exists [], s. split; [now left|]. split; [now apply G|reflexivity].
    + exists $ "Y", r. split; [cbn; tauto|]. split; [|reflexivity].
      apply G; [intros K; apply NA; now right|exact NY|intros c Hc; apply M; now right].
  - exists $ "A", r. split; [cbn; tauto|]. split; [|reflexivity]. apply G; [exact NA| |intros c Hc; apply M; now right].
    destruct FY as [NY|(r' & E & _)]; [intros K; apply NY; now right|discriminate].
Qed.
Lemma caverphone2_cut : forall front body back, In front [[]; $ "A"; $ "Y"] -> made_of $ "FKLMNPRSTW" body -> In back [[]; $ "A"] ->
  (forall word c, front ++ body ++ back = word ++ [c] -> ~ In c $ "LRWY") ->
  caverphone2_form (pad_to 10 (# "1") (front ++ body ++ back)).
Proof.
  intros front body back Hf Hb Hk Hl. destruct (le_lt_dec (length (front ++ body ++ back)) 10) as [L|L].
  - exists front, body, back. split; [exact Hf|]. split; [exact Hb|]. split; [exact Hk|]. split; [|intros _; exact Hl].
    rewrite <- (firstn_all2 (front ++ body ++ back) L) at 1. apply pad_to_filled.
  - assert (Lf : (length front <= 1)%nat) by (destruct Hf as [<-|[<-|[<-|[]]]]; cbn; lia).
    assert (Lk : (length back <= 1)%nat) by (destruct Hk as [<-|[<-|[]]]; cbn; lia).
    rewrite !app_length in L. set (b := firstn (10 - length front) body).
    assert (Lb : length b = (10 - length front)%nat) by (unfold b; rewrite firstn_length; lia).
    assert (E : firstn 10 (front ++ body ++ back) = front ++ b ++ []).
    { rewrite firstn_app, firstn_all2 by lia. f_equal. rewrite app_nil_r, firstn_app. unfold b.
      replace (10 - length front - length body)%nat with 0%nat by lia. apply app_nil_r. }
    exists front, b, []. split; [exact Hf|]. split; [now apply firstn_made|]. split; [now left|]. rewrite <- E. split; [apply pad_to_filled|].
    intros K. exfalso. rewrite firstn_length, !app_length in K. lia.
Qed.
Lemma caverphone2_forward : forall s t, made_of lower26 s -> passes_done caverphone2_rules s t -> made_of final_set t ->
  caverphone2_form (pad_to 10 (# "1") t).
Proof.
  intros s t M P Mt. change caverphone2_rules with (firstn 48 caverphone2_rules ++ [Ends $ "3" $ "A"; All $ "3" []]) in P.
  apply passes_split in P as (m & P1 & P2). destruct (caverphone2_shape s m M P1) as (FA & FY & FH).
  inversion P2 as [|p0 ps0 s0 m1 t0 Q1 Q2]; subst. clear P2. inversion Q2 as [|p0 ps0 s0 m2 t0 R1 R2]; subst. clear Q2.
  inversion R2; subst. clear R2.
  assert (D : t = filter (fun c => negb (c =? # "3")) m1).
  { apply all_inv in R1. assert (K := drop_pass (# "3") m1). apply all_inv in K.
    apply (all_replaced_iff $ "3" [] ltac:(discriminate)) in R1, K. congruence. }
  apply ends_inv in Q1 as [(r & -> & ->)|[-> N3]].
  - rewrite filter_app in D. cbn [filter] in D. subst t.
    assert (Fr : only_first (# "A") (filter (fun c => negb (c =? # "3")) r)) by (apply only_first_drop; [discriminate|]; now apply only_first_prefix in FA).
    assert (Gr : only_first (# "Y") (filter (fun c => negb (c =? # "3")) r)).
    { apply only_first_drop; [discriminate|]. apply y_front_first in FY. now apply only_first_prefix in FY. }
    destruct (two_fronts _ Fr Gr) as (front & body & Hf & Hb & E).
    { intros c Hc. apply Mt, in_or_app. now left. }
    rewrite E.
    cbn [N.eqb Pos.eqb negb]. rewrite <- app_assoc. apply caverphone2_cut; [exact Hf|exact Hb|cbn; tauto|].
    intros word c Ew. rewrite app_assoc in Ew. apply app_inj_tail in Ew as [_ <-]. apply isin_false. reflexivity.
  - subst t.
    assert (Fr : only_first (# "A") (filter (fun c => negb (c =? # "3")) m)) by (now apply only_first_drop).
    assert (Gr : only_first (# "Y") (filter (fun c => negb (c =? # "3")) m)) by (apply only_first_drop; [discriminate|]; now apply y_front_first).
    destruct (two_fronts _ Fr Gr Mt) as (front & body & Hf & Hb & E).
    rewrite E. rewrite <- (app_nil_r body). apply caverphone2_cut; [exact Hf|exact Hb|cbn; tauto|].
    rewrite app_nil_r, <- E. intros word c Ew Hc.
    assert (Em : exists m', m = m' ++ [c]).
    { destruct (list_eq_dec N.eq_dec m []) as [->|Hm]; [cbn in Ew; destruct word; discriminate|].
      destruct (exists_last Hm) as (m' & d & ->). rewrite filter_app in Ew. cbn [filter] in Ew.
      destruct (N.eqb_spec d (# "3")) as [->|Hd]; [destruct (N3 m' eq_refl)|]. cbn [negb] in Ew.
      apply app_inj_tail in Ew as [_ ->]. now exists m'. }
    destruct Em as (m' & ->). apply heard_app_r in FH. destruct FH as [FH _].
    assert (Nl : ~ leads []) by (intros (k & x & _ & K); destruct k; discriminate).
    destruct Hc as [<-|[<-|[<-|[<-|[]]]]]; [apply Nl, FH; cbn; tauto..|].
    destruct FY as [NY|(r & E' & NY)]; [apply NY, in_or_app; right; now left|].
    destruct m' as [|x [|y m']]; [discriminate|discriminate|]. injection E' as _ _ E'.
    apply NY. rewrite <- E'. apply in_or_app. right. now left.
Qed.
Lemma caverphone2_codes : forall u code,
  (exists s, (forall c, In c (letters_of u s) -> c < 128) /\ caverphone2_encode u s = Ok code) <-> caverphone2_form code.
Proof.
  intros u code. split.
  - intros (s & HA & E). apply (C67_caverphone2_is_its_definition u s code HA) in E as (t & P & ->).
    assert (M : made_of final_set t).
    { assert (P' := P). apply (passes_compute _ _ rules2) in P'. subst t. intros c Hc. revert c Hc. apply only_False. apply passes2_only, letters_only, HA. }
    apply (caverphone2_forward (letters_of u s) t); [now apply lower26_only|exact P|exact M].
  - intros (front & body & back & Hf & Hb & Hk & F & Hl).
    destruct (caverphone2_reachable front body back Hf Hb Hk (proj1 F) Hl) as (w & t & Mw & P & Ht).
    exists w. assert (L : letters_of u w = w) by (now apply letters_lower26).
    assert (HA : forall c, In c (letters_of u w) -> c < 128) by (rewrite L; now apply lower26_ascii).
    split; [exact HA|]. apply (C67_caverphone2_is_its_definition u w code HA).
    exists t. split; [now rewrite L|]. apply filled_pad_to in F. destruct Ht as [->|[Hn ->]]; [exact F|].
    rewrite F. rewrite !pad_to_alt. set (w0 := front ++ body ++ back) in *.
    replace (firstn 10 (w0 ++ $ "A")) with (firstn 10 w0) by (rewrite firstn_app, Hn; symmetry; apply app_nil_r).
    f_equal. f_equal. rewrite app_length, Hn. reflexivity.
Qed.
