(** * C95: the code of a Caverphone code. *)
From Verif Require Import Base UnicodeM Lib Helper Caverphone BaseLemmas Spec_common Spec_rewrite Spec_caverphone
  Spec_codes Soundex_proofs UnicodeLemmas Caverphone_proofs Caverphone_spec_proofs Props_caverphone Props_caverphone_spec
  Codes_proofs Codes_caverphone_proofs Props_codes Spec_doubled Props_again.
Local Open Scope N_scope.

(** ** Which letters there can be after a pass *)
Definition after (set : ustr) (p : pass) : ustr :=
  match p with
  | All [x] q => if isin x set then q ++ filter (fun c => negb (c =? x)) set else set
  | Starts _ q | Ends _ q | All _ q => if misses set p then set else q ++ set
  | InitialVowel => # "A" :: set
  | Vowels => map vow set
  | Runs l => map (raise l) set
  end.
Lemma absent_inv : forall set p s t, misses set p = true -> made_of set s -> pass_done p s t -> t = s.
Proof.
  intros set p s t H M P.
  destruct p as [p q|p q|p q| | |l]; try discriminate; cbn [misses] in H;
    apply existsb_exists in H as (x & Hx & K); apply not_isin in K; assert (Nx : ~ In x s) by (intros Q; apply K, M, Q).
  - apply starts_inv in P as [(r & E & _)|E]; [|exact E]. destruct Nx. rewrite E. apply in_or_app. now left.
  - apply ends_inv in P as [(r & E & _)|[E _]]; [|exact E]. destruct Nx. rewrite E. apply in_or_app. now right.
  - apply all_inv in P. induction P as [|r r' P IH|c r r' N P IH]; [reflexivity| |].
    + destruct Nx. apply in_or_app. now left.
    + f_equal. apply IH; [intros y Hy; apply M; now right|]. intros Q. apply Nx. now right.
Qed.
Lemma one_in : forall x q s t, all_replaced [x] q s t -> forall c, In c t -> In c q \/ In c s /\ c <> x.
Proof.
  intros x q s t P. induction P as [|r r' P IH|d r r' N P IH]; intros c H; [destruct H| |].
  - apply in_app_or in H as [H|H]; [now left|]. destruct (IH c H) as [K|[K K2]]; [now left|right; split; [now right|exact K2]].
  - destruct H as [<-|H].
    + right. split; [now left|]. intros ->. now apply (N r).
    + destruct (IH c H) as [K|[K K2]]; [now left|right; split; [now right|exact K2]].
Qed.
Lemma raised_in : forall l s t, runs_raised l s t -> forall c, In c t -> exists d, In d s /\ c = raise l d.
Proof.
  intros l s t R. induction R as [|d r r' Nd R IH|d k r r' Hd N R IH]; intros c H; [destruct H| |].
  - destruct H as [<-|H]; [exists d; split; [now left|]; unfold raise; now rewrite (proj2 (isin_false d l) Nd)|].
    destruct (IH c H) as (e & He & E). exists e. split; [now right|exact E].
  - destruct H as [<-|H]; [exists d; split; [now left|]; unfold raise; now rewrite (proj2 (isin_In d l) Hd)|].
    destruct (IH c H) as (e & He & E). exists e. split; [apply in_or_app; now right|exact E].
Qed.
Lemma after_sound : forall p set s t, pass_done p s t -> made_of set s -> made_of (after set p) t.
Proof.
  intros p set s t P M.
  assert (G : misses set p = true -> made_of set t) by (intros K; now rewrite (absent_inv set p s t K M P)).
  assert (W : made_of (writes p ++ set) t).
  { intros c Hc. apply in_or_app. destruct (pass_in p s t P c Hc) as [K|K]; [now left|right; now apply M]. }
  destruct p as [p q|p q|p q| | |l]; cbn [after].
  - destruct (misses set (Starts p q)); [now apply G|exact W].
  - destruct (misses set (Ends p q)); [now apply G|exact W].
  - destruct p as [|x [|y p]].
    + destruct (misses set (All [] q)); [now apply G|exact W].
    + destruct (isin x set) eqn:X; [|apply G; cbn [misses existsb]; now rewrite X].
      apply all_inv in P. intros c Hc. apply in_or_app. destruct (one_in x q s t P c Hc) as [K|[K K2]]; [now left|right].
      apply filter_In. split; [now apply M|]. apply negb_true_iff. now apply N.eqb_neq.
    + destruct (misses set (All (x :: y :: p) q)); [now apply G|exact W].
  - exact W.
  - inversion P as [| | | | |s0 s' F|]; subst. clear P G W. induction F as [|a b l l' H F IH]; [intros c []|]. intros c [<-|Hc].
    + apply in_map_iff. exists a. split; [|apply M; now left]. unfold vow. destruct H as [[V ->]|[V ->]].
      * unfold lower_vowel in V. now rewrite (proj2 (isin_In a _) V).
      * now rewrite (proj2 (isin_false a $ "aeiou") V).
    + apply IH; [intros y Hy; apply M; now right|exact Hc].
  - inversion P as [| | | | | |l0 s0 t0 R]; subst. intros c Hc. destruct (raised_in l s t R c Hc) as (d & Hd & ->). apply in_map. now apply M.
Qed.
Lemma after_all : forall ps set s t, passes_done ps s t -> made_of set s -> made_of (fold_left after ps set) t.
Proof.
  intros ps set s t P. revert set. induction P as [s|p ps s m t P1 P2 IH]; intros set M; [exact M|]. cbn [fold_left]. apply IH. now apply (after_sound p set s m).
Qed.
Lemma unskip : forall k set ps s t, forallb (misses set) (firstn k ps) = true -> made_of set s ->
  passes_done ps s t -> passes_done (skipn k ps) s t.
Proof.
  induction k as [|k IH]; intros set ps s t H M P; [exact P|]. destruct ps as [|p ps]; [exact P|].
  cbn [firstn forallb] in H. apply andb_true_iff in H as [H1 H2]. cbn [skipn].
  inversion P as [|p0 ps0 s0 m t0 P1 P2]; subst. apply (absent_inv set p s m H1 M) in P1. subst m. now apply (IH set).
Qed.

(** ** Caverphone 1 *)
(** A code with the consonants [set]. *)
Definition coded (set code : ustr) : Prop :=
  exists front body, (front = [] \/ front = $ "A") /\ made_of set body /\ filled 6 (# "1") (front ++ body) code.
Definition capitals : ustr := $ "AFKLMNPRSTWY".
Lemma letters_of_code : forall u w k, made_of capitals w -> letters_of u (w ++ repeat (# "1") k) = map low w.
Proof.
  intros u w k M. unfold letters_of.
  assert (A : ascii_str (w ++ repeat (# "1") k)).
  { intros c Hc. apply in_app_or in Hc as [Hc|Hc]; [|apply repeat_spec in Hc; subst c; reflexivity].
    apply N.ltb_lt. apply (on_set (fun c => c <? 128) capitals); [now apply M|reflexivity]. }
  rewrite str_lower_ascii by exact A. rewrite map_app, filter_app.
  assert (E : filter (is_lowercase u) (map ascii_low (repeat (# "1") k)) = []).
  { clear A. induction k as [|k IH]; [reflexivity|]. cbn [repeat map filter]. rewrite (is_lowercase_ascii u) by reflexivity. exact IH. }
  rewrite E, app_nil_r. rewrite filter_id.
  - apply map_ext_in. intros c Hc. apply N.eqb_eq. apply (on_set (fun c => ascii_low c =? low c) capitals); [now apply M|reflexivity].
  - intros c Hc. apply in_map_iff in Hc as (x & <- & Hx). rewrite is_lowercase_ascii.
    + apply (on_set (fun c => is_ascii_lower (ascii_low c)) capitals); [now apply M|reflexivity].
    + apply N.ltb_lt. apply (on_set (fun c => ascii_low c <? 128) capitals); [now apply M|reflexivity].
Qed.
Lemma coded_letters : forall u set code, forallb (fun c => isin c capitals) set = true -> coded set code ->
  exists front body, (front = [] \/ front = $ "A") /\ made_of set body /\ (length (front ++ body) <= 6)%nat
    /\ code = pad_to 6 (# "1") (front ++ body) /\ letters_of u code = map low front ++ map low body
    /\ (forall c, In c (letters_of u code) -> c < 128).
Proof.
  intros u set code S (front & body & Hf & Hb & F). exists front, body. split; [exact Hf|]. split; [exact Hb|]. split; [apply F|]. split; [now apply filled_pad_to|].
  assert (C : made_of capitals (front ++ body)).
  { apply made_app; [destruct Hf as [->| ->]; [intros c []|intros c [<-|[]]; now left]|now apply (made_more set)]. }
  destruct F as [L ->]. rewrite letters_of_code by exact C. rewrite map_app. split; [reflexivity|]. rewrite <- map_app. intros c Hc.
  apply in_map_iff in Hc as (x & <- & Hx). apply N.ltb_lt. apply (on_set (fun c => low c <? 128) capitals); [now apply C|reflexivity].
Qed.
Lemma encode1 : forall u s, (forall c, In c (letters_of u s) -> c < 128) ->
  exists t, passes_done caverphone1_rules (letters_of u s) t /\ caverphone1_encode u s = Ok (pad_to 6 (# "1") t).
Proof.
  intros u s H. exists (run_passes caverphone1_passes (letters_of u s)). split; [now apply (passes_compute _ _ rules1)|].
  apply (C67_caverphone1_is_its_definition u s _ H). exists (run_passes caverphone1_passes (letters_of u s)). split; [now apply (passes_compute _ _ rules1)|reflexivity].
Qed.
Lemma low_front : forall front, front = [] \/ front = $ "A" -> map low front = [] \/ map low front = $ "a".
Proof. intros front [->| ->]; [now left|now right]. Qed.
Lemma initial_inv : forall front l t, front = [] \/ front = $ "a" -> made_of $ "fklmnprstwy" l -> pass_done InitialVowel (front ++ l) t ->
  exists front', (front' = [] \/ front' = $ "A") /\ map low front' = front /\ t = front' ++ l.
Proof.
  intros front l t [->| ->] M P.
  - exists []. split; [now left|]. split; [reflexivity|]. cbn [app] in *. inversion P as [| | |c r V E|s V E| |]; subst; [|reflexivity]. exfalso.
    assert (K : In c $ "fklmnprstwy") by (apply M; now left). unfold lower_vowel in V. cbn in V, K. intuition congruence.
  - exists $ "A". split; [now right|]. split; [reflexivity|]. cbn [app] in *. inversion P as [| | |c r V E|s V E| |]; subst; [reflexivity|]. exfalso.
    apply (V (# "a") l eq_refl). now left.
Qed.
Lemma stage1 : forall u set set' code, coded set code -> forallb (fun c => isin c $ "FKLMNPRSTWY") set = true ->
  forallb (fun c => isin c (# "A" :: set')) (fold_left after (skipn 24 caverphone1_rules) (# "A" :: map low set)) = true ->
  isin (# "A") set' = false ->
  exists next, caverphone1_encode u code = Ok next /\ coded set' next.
Proof.
  intros u set set' code C S T A'.
  assert (S2 : forallb (fun c => isin c capitals) set = true).
  { rewrite forallb_forall in *. intros c Hc. apply isin_In. right. now apply isin_In, S. }
  destruct (coded_letters u set code S2 C) as (front & body & Hf & Hb & L & -> & E & H).
  destruct (encode1 u _ H) as (t & P & ->). exists (pad_to 6 (# "1") t). split; [reflexivity|]. rewrite E in P.
  assert (Mb : made_of $ "fklmnprstwy" (map low body)).
  { apply (made_more (map low set)); [|now apply made_map]. rewrite forallb_forall in *. intros c Hc. apply in_map_iff in Hc as (x & <- & Hx).
    apply (on_set (fun c => isin (low c) $ "fklmnprstwy") $ "FKLMNPRSTWY"); [now apply isin_In, S|reflexivity]. }
  assert (F : only_first (# "A") t).
  { apply (rules_keep_first (# "A") caverphone1_rules) with (s := map low front ++ map low body); [reflexivity|exact P|].
    left. intros K. apply in_app_or in K as [K|K]; [destruct Hf as [->| ->]; cbn in K; intuition discriminate|]. apply Mb in K. revert K. apply isin_false. reflexivity. }
  apply (unskip 23 $ "afklmnprstwy") in P; [|reflexivity|].
  2: { apply made_app; [destruct Hf as [->| ->]; [intros c []|intros c [<-|[]]; now left]|now apply (made_more $ "fklmnprstwy")]. }
  change (skipn 23 caverphone1_rules) with (InitialVowel :: skipn 24 caverphone1_rules) in P.
  inversion P as [|p0 ps0 s0 m t0 P1 P2]; subst. clear P.
  apply (initial_inv _ _ _ (low_front _ Hf) Mb) in P1 as (front' & Hf' & _ & ->).
  apply (after_all _ (# "A" :: map low set)) in P2.
  2: { apply made_app; [destruct Hf' as [->| ->]; [intros c []|intros c [<-|[]]; now left]|]. intros c Hc. right. now apply (made_map set low body). }
  apply (made_more _ _ _ T) in P2.
  assert (F6 : only_first (# "A") (firstn 6 t)).
  { destruct F as [N|(r & -> & N)]; [left; intros K; apply N; now apply (In_firstn _ 6)|].
    right. exists (firstn 5 r). split; [reflexivity|]. intros K. apply N. now apply (In_firstn _ 5). }
  destruct (front_split (# "A") set' (firstn 6 t) F6) as (f2 & b2 & Hf2 & Hb2 & E2); [now apply firstn_made|].
  exists f2, b2. split; [exact Hf2|]. split; [exact Hb2|]. rewrite <- E2. apply pad_to_filled.
Qed.
(** With none of L, R, W and Y only the repetitions are left to go. *)
Lemma raised_run : forall set l p, made_of set l -> compact_upper_aux set (Some p) l = map ascii_up (tl (collapse (p :: l))).
Proof.
  intros set. induction l as [|c l IH]; intros p M; [reflexivity|]. assert (Ml : made_of set l) by (intros x Hx; apply M; now right).
  cbn [compact_upper_aux]. rewrite (proj2 (isin_In c set)) by (apply M; now left). change (collapse (p :: c :: l)) with (if p =? c then collapse (c :: l) else p :: collapse (c :: l)).
  destruct (p =? c) eqn:E; cbn [negb].
  - apply N.eqb_eq in E. subst p. now apply IH.
  - cbn [tl]. rewrite (collapse_cons c l). cbn [map]. f_equal. now apply IH.
Qed.
Lemma raised_all : forall set l, made_of set l -> compact_upper_aux set None l = map ascii_up (collapse l).
Proof.
  intros set [|c l] M; [reflexivity|]. cbn [compact_upper_aux]. rewrite (proj2 (isin_In c set)) by (apply M; now left).
  rewrite collapse_cons. cbn [map]. f_equal. apply raised_run. intros x Hx. apply M. now right.
Qed.
Lemma collapse_low : forall l, collapse (map low l) = map low (collapse l).
Proof.
  induction l as [|a l IH]; [reflexivity|]. destruct l as [|b l]; [reflexivity|].
  change (collapse (map low (a :: b :: l))) with (if low a =? low b then collapse (map low (b :: l)) else low a :: collapse (map low (b :: l))).
  change (collapse (a :: b :: l)) with (if a =? b then collapse (b :: l) else a :: collapse (b :: l)). rewrite IH.
  assert (E : (low a =? low b) = (a =? b)) by (unfold low; destruct (N.eqb_spec a b), (N.eqb_spec (a + 32) (b + 32)); lia).
  rewrite E. now destruct (a =? b).
Qed.
Definition quiet : ustr := $ "FKMNPST".
Lemma runs_done : forall front body, (front = [] \/ front = $ "A") -> made_of quiet body ->
  pass_done (Runs $ "stpkfmn") (front ++ map low body) (front ++ collapse body).
Proof.
  intros front body Hf Hb. constructor. apply runs_front; [destruct Hf as [->| ->]; [intros c []|intros c [<-|[]]; now apply isin_false]|].
  assert (C : computes (Runs $ "stpkfmn") (fun t => replace_compact_all_to_uppercase t $ "stpkfmn")).
  { apply runs_computes. intros c Hc. cbn in Hc. intuition (subst; reflexivity). }
  assert (M : made_of $ "stpkfmn" (map low body)).
  { intros c Hc. apply in_map_iff in Hc as (x & <- & Hx). apply isin_In. apply (on_set (fun c => isin (low c) $ "stpkfmn") quiet); [now apply Hb|reflexivity]. }
  assert (E : collapse body = replace_compact_all_to_uppercase (map low body) $ "stpkfmn").
  { unfold replace_compact_all_to_uppercase. rewrite raised_all by exact M. rewrite collapse_low, map_map. symmetry. rewrite <- (map_id (collapse body)) at 2. apply map_ext_in.
    intros c Hc. apply collapse_incl in Hc. apply N.eqb_eq. apply (on_set (fun c => ascii_up (low c) =? c) quiet); [now apply Hb|reflexivity]. }
  rewrite E. assert (D := proj2 (C (map low body) _) eq_refl). now inversion D.
Qed.
Lemma stage_last : forall u front body, (front = [] \/ front = $ "A") -> made_of quiet body -> (length (front ++ body) <= 6)%nat ->
  caverphone1_encode u (pad_to 6 (# "1") (front ++ body)) = Ok (pad_to 6 (# "1") (front ++ collapse body)).
Proof.
  intros u front body Hf Hb L.
  assert (C : coded quiet (pad_to 6 (# "1") (front ++ body))).
  { exists front, body. split; [exact Hf|]. split; [exact Hb|]. split; [exact L|]. now rewrite pad_to_alt, firstn_all2 by exact L. }
  assert (Cc : made_of capitals (front ++ body)).
  { apply made_app; [destruct Hf as [->| ->]; [intros c []|intros c [<-|[]]; now left]|now apply (made_more quiet)]. }
  assert (E : letters_of u (pad_to 6 (# "1") (front ++ body)) = map low (front ++ body)).
  { rewrite pad_to_alt, firstn_all2 by exact L. now apply letters_of_code. }
  assert (M : made_of $ "afkmnpst" (map low (front ++ body))).
  { intros c Hc. apply in_map_iff in Hc as (x & <- & Hx). apply in_app_or in Hx as [Hx|Hx].
    - destruct Hf as [->| ->]; [destruct Hx|destruct Hx as [<-|[]]; now left].
    - apply isin_In. apply (on_set (fun c => isin (low c) $ "afkmnpst") quiet); [now apply Hb|reflexivity]. }
  apply C67_caverphone1_is_its_definition.
  { intros c Hc. rewrite E in Hc. apply M in Hc. apply N.ltb_lt. now apply (on_set (fun c => c <? 128) $ "afkmnpst"). }
  exists (front ++ collapse body). split; [|reflexivity]. rewrite E.
  apply (skip_passes 23 $ "afkmnpst"); [reflexivity|exact M|]. cbn [skipn caverphone1_rules].
  assert (Mb : made_of $ "fkmnpst" (map low body)) by (intros c Hc; apply (made_map quiet low body Hb c) in Hc; exact Hc).
  econstructor.
  { rewrite map_app. assert (K : pass_done InitialVowel (map low front ++ map low body) (front ++ map low body)); [|exact K]. destruct Hf as [->| ->].
    - apply pd_no_initial. intros c r Ec V. assert (I : In c (map low body)) by (cbn [app map] in Ec; rewrite Ec; now left). apply Mb in I.
      apply isin_In in V. revert V. apply Bool.not_true_iff_false. now apply (on_set (fun c => negb (isin c $ "aeiou")) $ "fkmnpst") in I; [apply negb_true_iff in I|].
    - apply pd_initial. now left. }
  assert (MA : made_of $ "Afkmnpst" (front ++ map low body)).
  { apply made_app; [destruct Hf as [->| ->]; [intros c []|intros c [<-|[]]; now left]|now apply (made_more $ "fkmnpst")]. }
  econstructor.
  { assert (K : pass_done Vowels (front ++ map low body) (front ++ map low body)); [|exact K].
    assert (V := vowels_pass (front ++ map low body)). rewrite (map_fixed $ "Afkmnpst" vow _ eq_refl MA) in V. exact V. }
  apply (skip_passes 3 $ "Afkmnpst"); [reflexivity|exact MA|]. cbn [skipn].
  econstructor; [now apply runs_done|].
  apply (skip_passes 18 $ "AFKMNPST"); [reflexivity| |constructor].
  apply made_app; [destruct Hf as [->| ->]; [intros c []|intros c [<-|[]]; now left]|]. intros c Hc. apply collapse_incl in Hc. right. now apply Hb.
Qed.
Theorem C95_caverphone1_settles : forall u s, (forall c, In c (letters_of u s) -> c < 128) ->
  exists final, encoded (caverphone1_encode u) 4 s = Ok final /\ caverphone1_encode u final = Ok final.
Proof.
  intros u s H. destruct (encode1 u s H) as (t & _ & E1).
  assert (C1 : coded $ "FKLMNPRSTWY" (pad_to 6 (# "1") t)).
  { apply (C81_caverphone1 u). exists s. now split. }
  destruct (stage1 u $ "FKLMNPRSTWY" $ "FKLMNPRSTW" _ C1) as (c2 & E2 & C2); [vm_compute; reflexivity..|].
  destruct (stage1 u $ "FKLMNPRSTW" quiet _ C2) as (c3 & E3 & C3); [vm_compute; reflexivity..|].
  destruct C3 as (front & body & Hf & Hb & F). assert (L := proj1 F). apply filled_pad_to in F. subst c3.
  assert (Lc : (length (front ++ collapse body) <= 6)%nat).
  { rewrite app_length in *. pose proof (collapse_length body). lia. }
  assert (Mc : made_of quiet (collapse body)) by (intros c Hc; apply Hb; now apply collapse_incl in Hc).
  exists (pad_to 6 (# "1") (front ++ collapse body)). cbn [encoded]. rewrite E1. cbn [bind]. rewrite E2. cbn [bind]. rewrite E3. cbn [bind].
  rewrite (stage_last u front body Hf Hb L). cbn [bind]. split; [reflexivity|].
  rewrite (stage_last u front (collapse body) Hf Mc Lc). now rewrite (collapse_nae_id (collapse body) (collapse_nae body)).
Qed.
Theorem C95_caverphone1_four : forall u, encoded (caverphone1_encode u) 3 $ "bryib" = Ok $ "PP1111" /\ encoded (caverphone1_encode u) 4 $ "bryib" = Ok $ "P11111".
Proof. intros u. split; vm_compute; reflexivity. Qed.
