(** * Which codes exist: NYSIIS. *)
From Verif Require Import Base UnicodeM Lib Helper Nysiis BaseLemmas Spec_common Spec_rewrite Spec_nysiis
  Spec_codes Soundex_proofs UnicodeLemmas Rewrite_proofs Nysiis_proofs Nysiis_spec_proofs Props_nysiis Props_nysiis_spec Codes_proofs.
Local Open Scope N_scope.

Definition SET : ustr := $ "ABCDFGHJLNPRSTVWXY".
Definition vowel_in (c : N) : Prop := In c $ "AEIOU".
(** What follows [prev] in a key ([last]: an H may be last). *)
Fixpoint tail_ok (last : Prop) (prev : N) (l : ustr) : Prop :=
  match l with
  | [] => True
  | c :: r => In c SET /\ prev <> c
      /\ (c = # "H" -> vowel_in prev /\ ((last /\ r = []) \/ exists r', r = # "A" :: r'))
      /\ (c = # "W" -> ~ vowel_in prev)
      /\ tail_ok last c r
  end.
Lemma ny_vowel_up : forall c, is_ascii_upper c = true -> (ny_vowel c = true <-> vowel_in c).
Proof.
  intros c H. apply upper_vowel_iff. apply (on_AZ (fun c => negb (is_ascii_lower c))) in H; [|reflexivity].
  now apply negb_true_iff.
Qed.
Lemma transcode_cases : forall p c next nn, is_ascii_upper p = true -> is_ascii_upper c = true ->
  (forall v, next = Some v -> is_ascii_upper v = true) ->
  exists c' t', ny_transcode p c next nn = c' :: t'
    /\ (c' = p \/ (In c' SET
         /\ (c' = # "H" -> t' = [] /\ vowel_in p /\ exists v, next = Some v /\ vowel_in v)
         /\ (c' = # "W" -> ~ vowel_in p)))
    /\ (vowel_in c -> c' = # "A").
Proof.
  intros p c next nn Hp Hc Hn. unfold ny_transcode.
  assert (NV : ny_vowel c = false -> ~ vowel_in c) by (intros E K; apply ny_vowel_up in K; [congruence|exact Hc]).
  destruct ((c =? # "E") && opt_is next (# "V")) eqn:E1.
  { do 2 eexists. split; [reflexivity|]. split; [|reflexivity]. right. split; [cbn; tauto|]. split; discriminate. }
  destruct (ny_vowel c) eqn:E2.
  { do 2 eexists. split; [reflexivity|]. split; [|reflexivity]. right. split; [cbn; tauto|]. split; discriminate. }
  specialize (NV eq_refl).
  repeat (match goal with |- context[if (c =? ?x) then _ else _] =>
    destruct (N.eqb_spec c x); [do 2 eexists; split; [reflexivity|]; split; [right; split; [cbn; tauto|]; split; discriminate|contradiction]|] end).
  destruct ((c =? # "K") && opt_is next (# "N")) eqn:E3.
  { do 2 eexists. split; [reflexivity|]. split; [|contradiction]. right. split; [cbn; tauto|]. split; discriminate. }
  repeat (match goal with |- context[if (c =? ?x) then _ else _] =>
    destruct (N.eqb_spec c x); [do 2 eexists; split; [reflexivity|]; split; [right; split; [cbn; tauto|]; split; discriminate|contradiction]|] end).
  destruct ((c =? # "S") && opt_is next (# "C") && opt_is nn (# "H")) eqn:E4.
  { do 2 eexists. split; [reflexivity|]. split; [|contradiction]. right. split; [cbn; tauto|]. split; discriminate. }
  destruct ((c =? # "P") && opt_is next (# "H")) eqn:E5.
  { do 2 eexists. split; [reflexivity|]. split; [|contradiction]. right. split; [cbn; tauto|]. split; discriminate. }
  destruct (((c =? # "H") && (negb (ny_vowel p) || negb (ny_vowel_opt next))) || ((c =? # "W") && ny_vowel p)) eqn:E6.
  { do 2 eexists. split; [reflexivity|]. split; [now left|contradiction]. }
  do 2 eexists. split; [reflexivity|]. split; [|contradiction]. right. apply orb_false_iff in E6 as [E6 E7].
  split; [|split].
  - apply AZ_upper in Hc. cbn in Hc. unfold vowel_in in NV.
    repeat (destruct Hc as [<-|Hc]; [try (cbn; tauto); try (exfalso; congruence); try (destruct NV; cbn; tauto)|]). destruct Hc.
  - intros ->. split; [reflexivity|]. cbn [N.eqb Pos.eqb andb] in E6. apply orb_false_iff in E6 as [A B].
    apply negb_false_iff in A, B. split; [now apply ny_vowel_up|]. destruct next as [v|]; [|discriminate].
    exists v. split; [reflexivity|]. apply ny_vowel_up; [now apply Hn|]. exact B.
  - intros -> K. apply ny_vowel_up in K; [|exact Hp]. rewrite K in E7. discriminate.
Qed.
Lemma loop_tail : forall n chars prev pushed, is_ascii_upper prev = true -> uppers chars -> ny_loop n prev chars = Ok pushed ->
  tail_ok False prev pushed
  /\ (forall c r, chars = c :: r -> vowel_in c -> prev <> # "A" -> exists r', pushed = # "A" :: r').
Proof.
  induction n as [|n IH]; intros chars prev pushed Hp Hc H.
  - destruct chars; [|discriminate]. injection H as <-. split; [exact I|discriminate].
  - destruct chars as [|c rest]; [injection H as <-; split; [exact I|discriminate]|]. cbn [ny_loop] in H.
    assert (Uc : is_ascii_upper c = true) by (apply Hc; now left).
    assert (Ur : uppers rest) by (intros x Hx; apply Hc; now right).
    destruct (transcode_cases prev c (hd_error rest) (hd_error (tl rest)) Hp Uc) as (c' & t' & Et & Hk & Hv).
    { intros v Ev. destruct rest as [|y rest]; [discriminate|]. injection Ev as <-. apply Ur. now left. }
    assert (Ut := transcode_upper prev c (hd_error rest) (hd_error (tl rest))). rewrite Et in H, Ut.
    destruct (Nat.ltb _ _); [discriminate|]. cbn [app length skipn] in H.
    apply bind_Ok in H as (r & Hr & H). injection H as <-.
    assert (Uc' : is_ascii_upper c' = true) by (apply (Ut c' Hp Uc); now left).
    assert (Hrest : tail_ok False c' r /\ (forall d q, t' ++ skipn (length t') rest = d :: q -> vowel_in d -> c' <> # "A" -> exists r', r = # "A" :: r')).
    { apply IH; [exact Uc'| |exact Hr]. intros x Hx. apply in_app_or in Hx as [Hx|Hx]; [apply (Ut x Hp Uc); now right|].
      apply Ur. now apply in_skipn in Hx. }
    destruct Hrest as [T1 T2]. destruct (N.eqb_spec prev c') as [->|Hne].
    + split; [exact T1|]. intros d q E V NA. injection E as <- <-. apply Hv in V. contradiction.
    + destruct Hk as [->|(K1 & K2 & K3)]; [contradiction|]. split.
      * cbn [tail_ok]. split; [exact K1|]. split; [exact Hne|]. split; [|split; [exact K3|exact T1]].
        intros E. destruct (K2 E) as (-> & V & v & Ev & Vv). split; [exact V|]. right.
        destruct rest as [|y rest]; [discriminate|]. injection Ev as ->.
        apply (T2 v rest eq_refl Vv). rewrite E. discriminate.
      * intros d q E V NA. injection E as <- <-. apply Hv in V. subst c'. now exists r.
Qed.
Lemma tail_ok_pairs : forall last l prev, tail_ok last prev l ->
  forall before x c after, prev :: l = before ++ x :: c :: after ->
    x <> c /\ (c = # "H" -> In x $ "AEIOU" /\ (after = [] \/ exists r, after = # "A" :: r)) /\ (c = # "W" -> ~ In x $ "AEIOU").
Proof.
  induction l as [|d l IH]; intros prev T before x c after E.
  - destruct before as [|? [|? ?]]; discriminate.
  - destruct T as (T1 & T2 & T3 & T4 & T5). destruct before as [|b before].
    + injection E as <- <- <-. split; [exact T2|]. split; [|exact T4]. intros K. destruct (T3 K) as [V [[_ A]|A]]; auto.
    + injection E as _ E. apply (IH d T5 before x c after E).
Qed.
Lemma tail_ok_made : forall last l prev, tail_ok last prev l -> made_of SET l.
Proof.
  induction l as [|d l IH]; intros prev T c Hc; [destruct Hc|]. destruct T as (T1 & _ & _ & _ & T5).
  destruct Hc as [<-|Hc]; [exact T1|]. now apply (IH d T5).
Qed.
Lemma pairs_tail_ok : forall l prev, made_of SET l ->
  (forall before x c after, prev :: l = before ++ x :: c :: after ->
    x <> c /\ (c = # "H" -> In x $ "AEIOU" /\ (after = [] \/ exists r, after = # "A" :: r)) /\ (c = # "W" -> ~ In x $ "AEIOU")) ->
  tail_ok True prev l.
Proof.
  induction l as [|d l IH]; intros prev M P; [exact I|]. destruct (P [] prev d l eq_refl) as (P1 & P2 & P3).
  cbn [tail_ok]. split; [apply M; now left|]. split; [exact P1|]. split; [|split; [exact P3|]].
  - intros E. destruct (P2 E) as [V [->|A]]; split; auto.
  - apply IH; [intros c Hc; apply M; now right|]. intros before x c after E. apply (P (prev :: before)). now rewrite E.
Qed.
(** First letters *)
Definition FIRST : ustr := $ "ABCDEFGHIJLMNOPQRSTUVWXYZ".
Lemma first_entry_In : forall t s p q r, first_entry t s p q r -> In (p, q) t /\ s = p ++ r.
Proof. intros t s p q r (t1 & t2 & -> & E & _). split; [apply in_or_app; right; now left|exact E]. Qed.
Lemma start_not_K : forall s r, ny_start s <> # "K" :: r.
Proof.
  intros s r E. assert (K : start_rewritten nysiis_start s (ny_start s)) by (apply start_rewritten_iff, ny_start_spec).
  destruct K as [(p & q & r' & F & Eq)|[N Eq]].
  - apply first_entry_In in F as [F _]. rewrite Eq in E. cbn in F.
    repeat (destruct F as [F|F]; [injection F as <- <-; discriminate|]). destruct F.
  - rewrite Eq in E. apply (N $ "K" $ "C" r); [cbn; tauto|exact E].
Qed.
Lemma end_not_K : forall s r, (forall r', s <> # "K" :: r') -> ny_end s <> # "K" :: r.
Proof.
  intros s r H E. assert (K : end_rewritten nysiis_end s (ny_end s)) by (apply end_rewritten_iff, ny_end_spec).
  destruct K as [(p & q & r' & t1 & t2 & Et & -> & Eq & _)|[_ Eq]].
  - assert (F : In (p, q) nysiis_end) by (rewrite Et; apply in_or_app; right; now left).
    rewrite Eq in E. destruct r' as [|x r']; [|injection E as -> _; now apply (H (r' ++ p))].
    cbn in F. repeat (destruct F as [F|F]; [injection F as <- <-; discriminate|]). destruct F.
  - apply (H r). congruence.
Qed.
Lemma first_of : forall c, is_ascii_upper c = true -> c <> # "K" -> In c FIRST.
Proof.
  intros c H N. apply isin_In.
  assert (K : (fun c => (c =? # "K") || isin c FIRST) c = true) by (apply (on_AZ (fun c => (c =? # "K") || isin c FIRST)); [exact H|reflexivity]).
  cbv beta in K. apply orb_true_iff in K as [K|K]; [apply N.eqb_eq in K; contradiction|exact K].
Qed.

(** The beginnings of keys. *)
Definition key_pairs (p : ustr) : Prop := forall before x c after, p = before ++ x :: c :: after ->
    x <> c /\ (c = # "H" -> In x $ "AEIOU" /\ (after = [] \/ exists r, after = # "A" :: r)) /\ (c = # "W" -> ~ In x $ "AEIOU").
Definition key_start (p : ustr) : Prop :=
  (exists f rest, p = f :: rest /\ In f FIRST /\ made_of SET rest) /\ key_pairs p.
Lemma key_start_prefix : forall a b, key_start (a ++ b) -> a <> [] -> key_start a.
Proof.
  intros a b ((f & rest & E & Hf & M) & P) Ha. split.
  - destruct a as [|x a]; [congruence|]. injection E as -> <-. exists f, a. split; [reflexivity|]. split; [exact Hf|].
    intros c Hc. apply M, in_or_app. now left.
  - intros before x c after ->. rewrite <- app_assoc in P. cbn [app] in P.
    destruct (P before x c (after ++ b) eq_refl) as (P1 & P2 & P3). split; [exact P1|]. split; [|exact P3].
    intros K. destruct (P2 K) as [V A]. split; [exact V|]. destruct after as [|y after]; [now left|].
    destruct A as [A|(r & A)]; [discriminate|]. injection A as -> _. right. now exists after.
Qed.
Lemma stem_of : forall p, key_start p -> (forall before, p <> before ++ $ "A") -> nysiis_stem p.
Proof. intros p [K1 K2] N. split; [exact K1|]. split; [exact K2|exact N]. Qed.
Lemma not_double : forall p x, key_start (p ++ [x; x]) -> False.
Proof. intros p x [_ K]. destruct (K p x x [] eq_refl) as [N _]. now apply N. Qed.
Lemma before_A : forall w b, key_start (w ++ # "A" :: b) -> forall before, w <> before ++ $ "A".
Proof.
  intros w b K before ->. apply (not_double before (# "A")). rewrite <- app_assoc in K. cbn [app] in K.
  change (before ++ # "A" :: # "A" :: b) with (before ++ [# "A"; # "A"] ++ b) in K. rewrite app_assoc in K.
  apply (key_start_prefix _ b) in K; [exact K|]. destruct before; discriminate.
Qed.
Lemma key_finished : forall k k', key_start k -> nysiis_ended k k' -> nysiis_form k'.
Proof.
  intros k k' K [[L ->]|[L (k1 & k2 & F1 & F2 & F3)]].
  - destruct K as ((f & rest & -> & Hf & M) & P). destruct rest; [|cbn in L; lia].
    destruct (N.eq_dec f (# "A")) as [->|Hne]; [right; now left|]. right. right. left. split; [|split].
    + exists f, []. split; [reflexivity|]. split; [exact Hf|intros c []].
    + exact P.
    + intros before E. destruct before as [|? [|? ?]]; try discriminate. injection E as E. contradiction.
  - assert (K1 : key_start k1).
    { destruct F1 as [->|[-> _]]; [|exact K]. apply (key_start_prefix k1 $ "S"); [exact K|]. intros ->. cbn in L. lia. }
    clear K F1 L. destruct F2 as [(a & -> & Ha & ->)|[-> _]].
    + assert (Ka : key_start a) by (now apply (key_start_prefix a $ "AY")).
      assert (Na : forall before, a <> before ++ $ "A") by (apply (before_A a $ "Y"); exact K1).
      assert (E : k' = a ++ $ "Y").
      { destruct F3 as [F3|[F3 _]]; [|exact F3]. apply app_inj_tail in F3 as [_ F3]. discriminate. }
      subst k'. destruct (exists_last Ha) as (p & x & ->). destruct (isin x $ "HY") eqn:Ex.
      * right. right. right. exists p, x. apply isin_In in Ex. split; [now apply stem_of|]. split; [exact Ex|].
        now rewrite <- app_assoc.
      * right. right. left. apply isin_false in Ex. apply stem_of.
        -- destruct Ka as ((f & rest & E & Hf & M) & P). split.
           ++ exists f, (rest ++ $ "Y"). rewrite E. split; [reflexivity|]. split; [exact Hf|].
              intros c Hc. apply in_app_or in Hc as [Hc|[<-|[]]]; [now apply M|cbn; tauto].
           ++ intros before y c after E'. destruct (snoc_cases after) as [->|(after' & z & ->)].
              ** assert (E2 : p ++ [x] = before ++ [y] /\ c = # "Y").
                 { change (before ++ [y; c]) with (before ++ [y] ++ [c]) in E'. rewrite app_assoc in E'.
                   apply app_inj_tail in E' as [E1 E2]. split; [exact E1|now symmetry]. }
                 destruct E2 as [E2 ->]. apply app_inj_tail in E2 as [_ <-].
                 split; [intros ->; apply Ex; cbn; tauto|]. split; discriminate.
              ** assert (E2 : p ++ [x] = before ++ y :: c :: after' /\ z = # "Y").
                 { change (before ++ y :: c :: after' ++ [z]) with (before ++ (y :: c :: after') ++ [z]) in E'.
                   rewrite app_assoc in E'. apply app_inj_tail in E' as [E1 E2]. split; [exact E1|now symmetry]. }
                 destruct E2 as [E2 ->]. destruct (P before y c after' E2) as (P1 & P2 & P3).
                 split; [exact P1|]. split; [|exact P3]. intros K. destruct (P2 K) as [V A]. split; [exact V|].
                 destruct A as [->|(r & ->)]; [|right; now exists (r ++ $ "Y")].
                 exfalso. apply Ex. subst c. change (before ++ [y; # "H"]) with (before ++ [y] ++ [# "H"]) in E2.
                 rewrite app_assoc in E2. apply app_inj_tail in E2 as [_ ->]. cbn. tauto.
        -- intros before E. apply app_inj_tail in E as [_ E]. discriminate.
    + destruct F3 as [->|[-> N]].
      * destruct (list_eq_dec N.eq_dec k' []) as [->|Hne]; [now left|]. right. right. left. apply stem_of.
        -- now apply (key_start_prefix k' $ "A").
        -- now apply (before_A k' []).
      * right. right. left. now apply stem_of.
Qed.
Lemma nysiis_forward : forall u s code, letters_are_ascii (is_alphabetic u) s -> nysiis_encode u false s = Ok code -> nysiis_form code.
Proof.
  intros u s code HA H. unfold nysiis_encode in H.
  assert (HU : uppers (soundex_clean u s)) by (rewrite (clean_ascii u s HA); apply ascii_letters_uppers).
  destruct (soundex_clean u s) as [|f q] eqn:E; [injection H as <-; now left|].
  assert (U1 := ny_end_up _ (ny_start_up _ HU)).
  assert (NK : forall r, ny_end (ny_start (f :: q)) <> # "K" :: r) by (intros r; apply end_not_K; intros r'; apply start_not_K).
  destruct (ny_end (ny_start (f :: q))) as [|c rest]; [discriminate|].
  apply bind_Ok in H as (pushed & Hp & H). injection H as <-.
  assert (Uc : is_ascii_upper c = true) by (apply U1; now left).
  destruct (loop_tail (length rest) rest c pushed Uc) as [T _]; [intros x Hx; apply U1; now right|exact Hp|].
  apply (key_finished (c :: pushed)); [|now apply ny_finish_spec]. split.
  - exists c, pushed. split; [reflexivity|]. split; [|now apply (tail_ok_made False pushed c)].
    apply first_of; [exact Uc|]. intros ->. now apply (NK rest).
  - exact (tail_ok_pairs False pushed c T).
Qed.

(** ** A text for every code *)
Definition enc (c : N) : ustr := if c =? # "A" then $ "O" else if c =? # "F" then $ "PH" else [c].
Definition enc_all (l : ustr) : ustr := flat_map enc l.
Lemma enc_cons : forall c l, enc_all (c :: l) = enc c ++ enc_all l. Proof. reflexivity. Qed.
Lemma loop_one : forall n prev c rest c', ny_transcode prev c (hd_error rest) (hd_error (tl rest)) = [c'] ->
  ny_loop (S n) prev (c :: rest) = (pushed <- ny_loop n c' rest ;; Ok (if prev =? c' then pushed else c' :: pushed)).
Proof. intros n prev c rest c' E. cbn [ny_loop]. rewrite E. reflexivity. Qed.
Lemma trans_self : forall p c next nn, is_ascii_upper p = true -> In c SET -> c <> # "A" -> c <> # "F" ->
  (c = # "H" -> vowel_in p /\ next = Some (# "O")) -> (c = # "W" -> ~ vowel_in p) ->
  (c = # "P" -> next <> Some (# "H")) -> (c = # "S" -> ~ (next = Some (# "C") /\ nn = Some (# "H"))) ->
  ny_transcode p c next nn = [c].
Proof.
  intros p c next nn Hp Hc NA NF HH HW HP HS.
  assert (O : forall (o : option N) x, o <> Some x -> opt_is o x = false).
  { intros [v|] x N; [|reflexivity]. cbn [opt_is]. apply N.eqb_neq. congruence. }
  cbn in Hc. unfold ny_transcode.
  destruct Hc as [<-|Hc]; [congruence|].
  destruct Hc as [<-|Hc]; [reflexivity|]. destruct Hc as [<-|Hc]; [reflexivity|]. destruct Hc as [<-|Hc]; [reflexivity|].
  destruct Hc as [<-|Hc]; [congruence|]. destruct Hc as [<-|Hc]; [reflexivity|].
  destruct Hc as [<-|Hc].
  { destruct (HH eq_refl) as [V ->]. apply (ny_vowel_up p Hp) in V. rewrite V. reflexivity. }
  destruct Hc as [<-|Hc]; [reflexivity|]. destruct Hc as [<-|Hc]; [reflexivity|]. destruct Hc as [<-|Hc]; [reflexivity|].
  destruct Hc as [<-|Hc].
  { rewrite (O next (# "H") (HP eq_refl)). reflexivity. }
  destruct Hc as [<-|Hc]; [reflexivity|].
  destruct Hc as [<-|Hc].
  { destruct (opt_is next (# "C")) eqn:E1; [|reflexivity]. destruct (opt_is nn (# "H")) eqn:E2; [|reflexivity].
    exfalso. apply (HS eq_refl). destruct next as [v|]; [|discriminate]. destruct nn as [w|]; [|discriminate].
    apply N.eqb_eq in E1, E2. now subst. }
  destruct Hc as [<-|Hc]; [reflexivity|]. destruct Hc as [<-|Hc]; [reflexivity|].
  destruct Hc as [<-|Hc].
  { assert (V : ny_vowel p = false) by (destruct (ny_vowel p) eqn:E; [apply (ny_vowel_up p Hp) in E; destruct (HW eq_refl E)|reflexivity]).
    rewrite V. reflexivity. }
  destruct Hc as [<-|Hc]; [reflexivity|]. destruct Hc as [<-|Hc]; [reflexivity|]. destruct Hc.
Qed.
Lemma enc_hd : forall l e x, hd_error (enc_all l ++ # "O" :: e) = Some x ->
  x = # "O" \/ x = # "P" \/ (exists l', l = x :: l' /\ enc_all l ++ # "O" :: e = x :: enc_all l' ++ # "O" :: e).
Proof.
  intros [|d l] e x H; cbn in H; [injection H as <-; now left|].
  rewrite enc_cons in *. unfold enc in *. destruct (N.eqb_spec d (# "A")); [injection H as <-; now left|].
  destruct (N.eqb_spec d (# "F")); [injection H as <-; right; now left|]. injection H as <-. right. right. now exists l.
Qed.
Lemma not_H : forall last p c, tail_ok last c p -> ~ vowel_in c -> forall e, hd_error (enc_all p ++ # "O" :: e) <> Some (# "H").
Proof.
  intros last p c T N e H. apply enc_hd in H as [H|[H|(l' & -> & _)]]; [discriminate..|].
  destruct T as (_ & _ & T & _). now destruct (T eq_refl).
Qed.
Lemma vowel_dec : forall c, isin c $ "AEIOU" = false -> ~ vowel_in c.
Proof. intros c H. now apply isin_false. Qed.
Lemma SET_upper : forall c, In c SET -> is_ascii_upper c = true.
Proof. intros c H. apply (on_set is_ascii_upper SET); [exact H|reflexivity]. Qed.
Lemma enc_loop : forall l prev e n r, tail_ok True prev l -> is_ascii_upper prev = true ->
  (length (enc_all l ++ # "O" :: e) <= n)%nat ->
  (forall m, (length (# "O" :: e) <= m)%nat -> ny_loop m (last l prev) (# "O" :: e) = Ok r) ->
  ny_loop n prev (enc_all l ++ # "O" :: e) = Ok (l ++ r).
Proof.
  induction l as [|c l IH]; intros prev e n r T Up L H; [cbn [enc_all flat_map app] in *; now apply H|].
  destruct T as (T1 & T2 & T3 & T4 & T5). rewrite enc_cons in *.
  assert (IH' : forall m, (length (enc_all l ++ # "O" :: e) <= m)%nat -> ny_loop m c (enc_all l ++ # "O" :: e) = Ok (l ++ r)).
  { intros m Lm. apply IH; [exact T5|now apply SET_upper|exact Lm|]. intros k Lk. rewrite <- (H k Lk). f_equal.
    destruct l as [|d l]; [reflexivity|]. cbn [last]. clear. revert d. induction l as [|x l IH]; intros d; [reflexivity|]. apply (IH x). }
  assert (Ec := N.eqb_neq prev c). apply Ec in T2. clear Ec. unfold enc in *.
  destruct (N.eqb_spec c (# "A")) as [->|NA].
  - destruct n as [|n]; [cbn in L; lia|]. cbn [app] in *. rewrite (loop_one n prev (# "O") _ (# "A")) by reflexivity.
    rewrite IH' by (cbn [length] in L; lia). cbn [bind]. now rewrite T2.
  - destruct (N.eqb_spec c (# "F")) as [->|NF].
    + cbn [app] in *. destruct n as [|[|n]]; [cbn in L; lia|cbn in L; lia|].
      set (x := enc_all l ++ # "O" :: e) in *. cbn [length] in L.
      assert (E : ny_loop (S (S n)) prev (# "P" :: # "H" :: x) = (pushed <- ny_loop (S n) (# "F") (# "F" :: x) ;; Ok (if prev =? # "F" then pushed else # "F" :: pushed))) by reflexivity.
      rewrite E, T2. rewrite (loop_one n (# "F") (# "F") x (# "F")) by reflexivity.
      rewrite IH' by lia. reflexivity.
    + cbn [app] in *. destruct n as [|n]; [cbn in L; lia|]. cbn [length] in L. set (x := enc_all l ++ # "O" :: e) in *.
      rewrite (loop_one n prev c x c).
      { rewrite IH' by lia. cbn [bind]. now rewrite T2. }
      apply trans_self; try assumption.
      * intros E. destruct (T3 E) as [V [[_ ->]|(l' & ->)]]; split; auto.
      * intros ->. apply (not_H True l (# "P") T5). now apply vowel_dec.
      * intros -> [E1 E2]. apply enc_hd in E1 as [E1|[E1|(l' & -> & E1)]]; [discriminate..|].
        unfold x in E2. rewrite E1 in E2. cbn [tl] in E2. destruct T5 as (_ & _ & _ & _ & T6).
        revert E2. apply (not_H True l' (# "C") T6). now apply vowel_dec.
Qed.
Lemma enc_set : forall l e, made_of SET l -> made_of $ "OY" e -> made_of $ "BCDPHGJLNRSTVWXYO" (enc_all l ++ e).
Proof.
  intros l e M Me c Hc. apply in_app_or in Hc as [Hc|Hc].
  - apply in_flat_map in Hc as (x & Hx & Hc). apply M in Hx. revert Hc. cbn in Hx.
    repeat (destruct Hx as [<-|Hx]; [intros Hc; cbn in Hc; repeat (destruct Hc as [<-|Hc]; [cbn; tauto|]); destruct Hc|]). destruct Hx.
  - apply Me in Hc as [<-|[<-|[]]]; cbn; tauto.
Qed.
Lemma start_same : forall f l e, In f FIRST -> tail_ok True f l -> made_of $ "OY" (# "O" :: e) ->
  ny_start (f :: enc_all l ++ # "O" :: e) = f :: enc_all l ++ # "O" :: e.
Proof.
  intros f l e Hf T Me. rewrite ny_start_spec. symmetry. apply start_rewritten_iff. right. split; [|reflexivity].
  assert (Ms := enc_set l (# "O" :: e) (tail_ok_made _ _ _ T) Me).
  intros p q r Hp E. destruct (enc_all l ++ # "O" :: e) as [|c1 x] eqn:El.
  { destruct l; [discriminate|]. rewrite enc_cons in El. unfold enc in El. destruct (n =? # "A"), (n =? # "F"); discriminate. }
  cbn in Hp. repeat (destruct Hp as [Hp|Hp]; [injection Hp as <- _|]); [| | | | | |destruct Hp].
  - injection E as _ -> _. assert (K : In (# "A") $ "BCDPHGJLNRSTVWXYO") by (apply Ms; now left). vm_compute in K. intuition discriminate.
  - injection E as -> _ _. vm_compute in Hf. intuition discriminate.
  - injection E as -> _. vm_compute in Hf. intuition discriminate.
  - injection E as -> -> _. apply (not_H True l (# "P") T (vowel_dec (# "P") eq_refl) e). rewrite El. reflexivity.
  - injection E as _ -> _. assert (K : In (# "F") $ "BCDPHGJLNRSTVWXYO") by (apply Ms; now left). vm_compute in K. intuition discriminate.
  - injection E as -> -> ->. assert (Eh := f_equal (@hd_error N) El). apply enc_hd in Eh as [Eh|[Eh|(l' & -> & Eh)]]; [discriminate..|].
    rewrite El in Eh. injection Eh as Eh. destruct T as (_ & _ & _ & _ & T).
    apply (not_H True l' (# "C") T (vowel_dec (# "C") eq_refl) e). rewrite <- Eh. reflexivity.
Qed.
Lemma end_same : forall w x, isin x $ "ETD" = false -> ny_end (w ++ [x]) = w ++ [x].
Proof.
  intros w x Hx. rewrite ny_end_spec. symmetry. apply end_rewritten_iff. right. split; [|reflexivity].
  intros p q r Hp E. apply isin_false in Hx. apply Hx. cbn in Hp.
  repeat (destruct Hp as [Hp|Hp]; [injection Hp as <- _;
    match type of E with _ = _ ++ [?a; ?b] => change (r ++ [a; b]) with (r ++ [a] ++ [b]) in E end;
    rewrite app_assoc in E; apply app_inj_tail in E as [_ ->]; cbn; tauto|]). destruct Hp.
Qed.
Lemma word_key : forall u f l e r, In f FIRST -> tail_ok True f l -> made_of $ "OY" (# "O" :: e) -> ny_end (f :: enc_all l ++ # "O" :: e) = f :: enc_all l ++ # "O" :: e ->
  (forall m, (length (# "O" :: e) <= m)%nat -> ny_loop m (last l f) (# "O" :: e) = Ok r) ->
  exists s, letters_are_ascii (is_alphabetic u) s /\ nysiis_encode u false s = Ok (ny_finish (f :: l ++ r)).
Proof.
  intros u f l e r Hf T Me He Hr. exists (f :: enc_all l ++ # "O" :: e).
  assert (Uf : is_ascii_upper f = true) by (apply (on_set is_ascii_upper FIRST); [exact Hf|reflexivity]).
  assert (U : uppers (f :: enc_all l ++ # "O" :: e)).
  { intros c [<-|Hc]; [exact Uf|]. apply (on_set is_ascii_upper $ "BCDPHGJLNRSTVWXYO"); [|reflexivity].
    apply (enc_set l (# "O" :: e) (tail_ok_made _ _ _ T) Me c Hc). }
  destruct (letters_AZ _ U) as [EL A].
  assert (LA : letters_are_ascii (is_alphabetic u) (f :: enc_all l ++ # "O" :: e)).
  { intros c Hc _. now apply A. }
  split; [exact LA|]. unfold nysiis_encode. rewrite (clean_ascii u _ LA), EL.
  rewrite start_same by assumption. rewrite He.
  rewrite (enc_loop l f e _ r); [reflexivity|exact T|exact Uf|apply le_n|exact Hr].
Qed.
Lemma loop_O : forall prev m, prev <> # "A" -> (1 <= m)%nat -> ny_loop m prev $ "O" = Ok $ "A".
Proof.
  intros prev m N L. destruct m as [|m]; [lia|]. rewrite (loop_one m prev (# "O") [] (# "A")) by reflexivity.
  replace (ny_loop m (# "A") []) with (@Ok ustr []) by (now destruct m). cbn [bind].
  apply N.eqb_neq in N. now rewrite N.
Qed.
Lemma loop_OY : forall prev m, prev <> # "A" -> (2 <= m)%nat -> ny_loop m prev $ "OY" = Ok $ "AY".
Proof.
  intros prev m N L. destruct m as [|[|m]]; [lia..|]. rewrite (loop_one (S m) prev (# "O") $ "Y" (# "A")) by reflexivity.
  rewrite (loop_one m (# "A") (# "Y") [] (# "Y")) by reflexivity.
  replace (ny_loop m (# "Y") []) with (@Ok ustr []) by (now destruct m). cbn [bind].
  apply N.eqb_neq in N. now rewrite N.
Qed.
Lemma last_default : forall (l : ustr) c f, last (c :: l) f = last l c.
Proof.
  intros [|d l] c f; [reflexivity|]. cbn [last]. revert d. induction l as [|x l IH]; intros d; [reflexivity|]. apply (IH x).
Qed.
Lemma last_cons : forall (l : ustr) f, exists before, f :: l = before ++ [last l f].
Proof.
  induction l as [|c l IH]; intros f; [now exists []|]. destruct (IH c) as (b & E). exists (f :: b). cbn [app]. f_equal.
  rewrite last_default. exact E.
Qed.
Lemma stem_parts : forall p, nysiis_stem p -> exists f l, p = f :: l /\ In f FIRST /\ tail_ok True f l /\ last l f <> # "A".
Proof.
  intros p ((f & l & -> & Hf & M) & P & N). exists f, l. split; [reflexivity|]. split; [exact Hf|].
  split; [now apply pairs_tail_ok|]. intros E. destruct (last_cons l f) as (b & Eb). rewrite E in Eb. now apply (N b).
Qed.
Lemma nysiis_codes : forall u code,
  (exists s, letters_are_ascii (is_alphabetic u) s /\ nysiis_encode u false s = Ok code) <-> nysiis_form code.
Proof.
  intros u code. split; [intros (s & A & H); now apply (nysiis_forward u s)|].
  intros [->|[->|[H|(p & x & H & Hx & ->)]]].
  - exists []. split; [intros c []|reflexivity].
  - exists $ "A". split; [intros c [<-|[]]; reflexivity|reflexivity].
  - destruct (stem_parts code H) as (f & l & -> & Hf & T & N).
    destruct (word_key u f l [] $ "A" Hf T) as (s & A & E).
    + intros c Hc. cbn in Hc |- *. tauto.
    + rewrite app_comm_cons. now apply end_same.
    + intros m L. now apply loop_O.
    + exists s. split; [exact A|]. rewrite E. f_equal. symmetry. apply ny_finish_spec. right.
      split; [rewrite app_comm_cons, app_length; cbn; lia|]. exists (f :: l ++ $ "A"), (f :: l ++ $ "A").
      rewrite !app_comm_cons. split; [|split].
      * right. split; [reflexivity|]. intros a K. apply app_inj_tail in K as [_ K]. discriminate.
      * right. split; [reflexivity|]. intros a K. change (a ++ $ "AY") with (a ++ $ "A" ++ $ "Y") in K. rewrite app_assoc in K.
        apply app_inj_tail in K as [_ K]. discriminate.
      * left. reflexivity.
  - destruct (stem_parts _ H) as (f & l & Ep & Hf & T & N).
    destruct (word_key u f l $ "Y" $ "AY" Hf T) as (s & A & E).
    + intros c Hc. cbn in Hc |- *. tauto.
    + change (f :: enc_all l ++ $ "OY") with ((f :: enc_all l) ++ $ "O" ++ $ "Y"). rewrite app_assoc. now apply end_same.
    + intros m L. now apply loop_OY.
    + exists s. split; [exact A|]. rewrite E. f_equal. symmetry. apply ny_finish_spec. right.
      split; [rewrite app_comm_cons, app_length; cbn; lia|]. rewrite app_comm_cons, app_assoc, Ep.
      exists ((f :: l) ++ $ "AY"), ((f :: l) ++ $ "Y"). split; [|split].
      * right. split; [reflexivity|]. intros a K. change ((f :: l) ++ $ "AY") with ((f :: l) ++ $ "A" ++ $ "Y") in K. rewrite app_assoc in K.
        apply app_inj_tail in K as [_ K]. discriminate.
      * left. exists (f :: l). split; [reflexivity|]. split; [discriminate|reflexivity].
      * right. split; [reflexivity|]. intros a K. apply app_inj_tail in K as [_ K]. discriminate.
Qed.
Lemma nysiis_strict_codes : forall u code,
  (exists s, letters_are_ascii (is_alphabetic u) s /\ nysiis_encode u true s = Ok code)
  <-> exists full, nysiis_form full /\ code = firstn 6 full.
Proof.
  intros u code. split.
  - intros (s & A & H). destruct (C18_strict_is_truncation u s A) as (r & E1 & E2). rewrite H in E2. injection E2 as ->.
    exists r. split; [|reflexivity]. now apply (nysiis_forward u s).
  - intros (full & F & ->). apply (nysiis_codes u) in F as (s & A & H). exists s. split; [exact A|].
    destruct (C18_strict_is_truncation u s A) as (r & E1 & E2). rewrite H in E1. injection E1 as <-. exact E2.
Qed.
