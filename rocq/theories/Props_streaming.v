(** * C57, for every mapping and every text: Soundex and RefinedSoundex read from left to right. *)
From Verif Require Import Base BaseLemmas UnicodeM Lib Soundex Soundex_proofs UnicodeLemmas.
Local Open Scope N_scope.

(** What the loop has written stays; what it writes is never the filler [0]. *)
Lemma loop_stays : forall sx p count code prev n w,
  (count <= 4)%nat -> soundex_loop sx count code prev p = Ok (n, w) ->
  exists new, w = new ++ code /\ n = (count + length new)%nat /\ (n <= 4)%nat /\ ~ In (# "0") new.
Proof.
  intros sx p. induction p as [|c p IH]; intros count code prev n w L H.
  - cbn [soundex_loop] in H. assert (E : Ok (count, code) = Ok (n, w)) by (destruct (Nat.ltb count 4); exact H).
    injection E as <- <-. exists []. cbn. repeat split; auto; lia.
  - cbn [soundex_loop] in H. destruct (Nat.ltb count 4) eqn:E4.
    2: { injection H as <- <-. exists []. cbn. repeat split; auto; lia. }
    apply Nat.ltb_lt in E4.
    match type of H with (if ?x then _ else _) = _ => destruct x end; [now apply IH in H; [|lia]|].
    destruct (get_mapping_code _ c) as [d| |]; cbn [bind] in H; [|discriminate H..].
    destruct (d =? SILENT); [now apply IH in H; [|lia]|].
    destruct (d =? # "0") eqn:E0; cbn [negb andb] in H; [now apply IH in H; [|lia]|].
    destruct (d =? prev); cbn [negb] in H; [now apply IH in H; [|lia]|].
    apply IH in H; [|lia]. destruct H as (new & -> & -> & L' & Hn).
    exists (new ++ [d]). rewrite <- app_assoc, app_length. cbn [app length].
    apply N.eqb_neq in E0. split; [reflexivity|]. split; [lia|]. split; [lia|].
    intros Hi. apply in_app_or in Hi as [Hi|[Hi|[]]]; [now apply Hn|congruence].
Qed.

Lemma loop_prefix : forall sx p rest count code prev n w n' w',
  (count <= 4)%nat ->
  soundex_loop sx count code prev p = Ok (n, w) -> soundex_loop sx count code prev (p ++ rest) = Ok (n', w') ->
  exists more, w' = more ++ w /\ n' = (n + length more)%nat /\ (n' <= 4)%nat.
Proof.
  intros sx p. induction p as [|c p IH]; intros rest count code prev n w n' w' L H H'.
  - cbn [soundex_loop] in H. assert (E : Ok (count, code) = Ok (n, w)) by (destruct (Nat.ltb count 4); exact H).
    injection E as <- <-. cbn [app] in H'. apply loop_stays in H' as (new & -> & -> & L' & _); [|exact L]. now exists new.
  - cbn [app soundex_loop] in H, H'. destruct (Nat.ltb count 4) eqn:E4.
    2: { injection H as <- <-. injection H' as <- <-. exists []. cbn. repeat split; lia. }
    apply Nat.ltb_lt in E4.
    match type of H with (if ?x then _ else _) = _ => destruct x end; [exact (IH _ _ _ _ _ _ _ _ L H H')|].
    destruct (get_mapping_code _ c) as [d| |]; cbn [bind] in H, H'; [|discriminate H..].
    destruct (d =? SILENT); [exact (IH _ _ _ _ _ _ _ _ L H H')|].
    destruct (negb (d =? # "0") && negb (d =? prev)); [|exact (IH _ _ _ _ _ _ _ _ L H H')].
    refine (IH _ _ _ _ _ _ _ _ _ H H'). lia.
Qed.

Lemma loop_full : forall sx p rest count code prev w, (count <= 4)%nat ->
  soundex_loop sx count code prev p = Ok (4%nat, w) -> soundex_loop sx count code prev (p ++ rest) = Ok (4%nat, w).
Proof.
  intros sx p. induction p as [|c p IH]; intros rest count code prev w L H.
  - cbn [soundex_loop] in H. assert (E : Ok (count, code) = Ok (4%nat, w)) by (destruct (Nat.ltb count 4); exact H).
    injection E as -> ->. cbn [app]. destruct rest; reflexivity.
  - cbn [app soundex_loop] in *. destruct (Nat.ltb count 4) eqn:E4; [|exact H].
    apply Nat.ltb_lt in E4.
    match type of H with (if ?x then _ else _) = _ => destruct x end; [now apply IH|].
    destruct (get_mapping_code _ c) as [d| |]; cbn [bind] in *; [|discriminate H..].
    destruct (d =? SILENT); [now apply IH|].
    destruct (negb (d =? # "0") && negb (d =? prev)); [|now apply IH].
    apply IH; [lia|exact H].
Qed.

(** A Soundex code whose last character is no filling zero stays, whatever follows, letters of any
    script included (which could make a shorter code panic). *)
Theorem C57_full_code : forall u sx a b first code last,
  soundex_encode u sx a = Ok (first :: code ++ [last]) -> last <> # "0" ->
  soundex_encode u sx (a ++ b) = Ok (first :: code ++ [last]).
Proof.
  assert (L1 : (1 <= 4)%nat) by lia.
  intros u sx a b first code last H Hl. unfold soundex_encode in *. rewrite clean_app.
  destruct (soundex_clean u a) as [|c r]; [discriminate H|]. cbn [app].
  destruct (get_mapping_code _ c) as [p| |]; cbn [bind] in *; [|discriminate H..].
  destruct (soundex_loop sx 1 [] p r) as [[n w]| |] eqn:E; cbn [bind] in H; [|discriminate H..].
  destruct (loop_stays _ _ _ _ _ _ _ L1 E) as (new & Ew & En & L & _).
  assert (n = 4%nat) as ->.
  { destruct (Nat.eq_dec n 4) as [->|Hn]; [reflexivity|exfalso].
    assert (EQ : c :: rev w ++ repeat (# "0") (4 - n) = first :: code ++ [last]) by congruence.
    replace (4 - n)%nat with ((3 - n) + 1)%nat in EQ by lia.
    rewrite repeat_app in EQ. cbn [repeat] in EQ. rewrite app_assoc, !app_comm_cons in EQ.
    apply app_inj_tail in EQ as [_ EQ]. congruence. }
  rewrite (loop_full _ _ (soundex_clean u b) _ _ _ _ L1 E). cbn [bind]. exact H.
Qed.

(** Otherwise the code of the longer name keeps everything but the filling zeros. *)
Theorem C57_soundex_prefix : forall u sx a b ca cab,
  soundex_encode u sx a = Ok ca -> soundex_encode u sx (a ++ b) = Ok cab ->
  exists kept k added, ca = kept ++ repeat (# "0") k /\ cab = kept ++ added.
Proof.
  assert (L1 : (1 <= 4)%nat) by lia.
  intros u sx a b ca cab H H'. unfold soundex_encode in *. rewrite clean_app in H'.
  destruct (soundex_clean u a) as [|c r].
  { exists [], 0%nat, cab. split; [injection H as <-|]; reflexivity. }
  cbn [app] in H'.
  destruct (get_mapping_code _ c) as [p| |]; cbn [bind] in *; [|discriminate H..].
  destruct (soundex_loop sx 1 [] p r) as [[n w]| |] eqn:E; cbn [bind] in H; [|discriminate H..].
  destruct (soundex_loop sx 1 [] p (r ++ _)) as [[n' w']| |] eqn:E'; cbn [bind] in H'; [|discriminate H'..].
  destruct (loop_prefix _ _ _ _ _ _ _ _ _ _ L1 E E') as (more & -> & -> & L).
  exists (c :: rev w), (4 - n)%nat, (rev more ++ repeat (# "0") (4 - (n + length more))).
  cbn [app]. split; [congruence|]. rewrite rev_app_distr, <- app_assoc in H'. cbn [app]. congruence.
Qed.

(** RefinedSoundex: if the longer name has a code, so has the shorter one, and it is a prefix. *)
Lemma refined_loop_prefix : forall m p rest prev out, refined_loop m prev (p ++ rest) = Ok out ->
  exists o t, refined_loop m prev p = Ok o /\ out = o ++ t.
Proof.
  intros m p. induction p as [|c p IH]; intros rest prev out H; [now exists [], out|].
  cbn [app refined_loop] in *. destruct (get_mapping_code m c) as [d| |]; cbn [bind] in *; [|discriminate H..].
  destruct (refined_loop m (Some d) (p ++ rest)) as [o| |] eqn:E; cbn [bind] in H; [|discriminate H..].
  apply IH in E as (o' & t & -> & ->). cbn [bind].
  exists (if opt_is prev d then o' else d :: o'), t. split; [reflexivity|].
  injection H as <-. destruct (opt_is prev d); reflexivity.
Qed.
Theorem C57_refined_any_text : forall u table a b code, refined_encode u table (a ++ b) = Ok code ->
  exists shorter added, refined_encode u table a = Ok shorter /\ code = shorter ++ added.
Proof.
  intros u table a b code H. unfold refined_encode in *. rewrite clean_app in H.
  destruct (soundex_clean u a) as [|c r]; [now exists [], code|]. cbn [app] in H.
  rewrite app_comm_cons in H.
  destruct (refined_loop table None _) as [o| |] eqn:E; cbn [bind] in H; [|discriminate H..].
  apply refined_loop_prefix in E as (o' & t & -> & ->). cbn [bind].
  exists (c :: o'), t. split; [reflexivity|]. injection H as <-. reflexivity.
Qed.

Example C57_any_nonvacuous :
  soundex_encode latin1_only soundex_default $ "Robert" = Ok (# "R" :: $ "16" ++ [# "3"])
  /\ soundex_encode latin1_only soundex_default $ "Robertéé" = Ok $ "R163"
  /\ soundex_encode latin1_only soundex_default $ "Roé" = Panic
  /\ soundex_encode latin1_only soundex_default $ "Ro" = Ok $ "R000"
  /\ refined_encode latin1_only ENGLISH_MAPPING $ "testing" = Ok $ "T6036084"
  /\ refined_encode latin1_only ENGLISH_MAPPING $ "test" = Ok $ "T6036".
Proof. repeat split; reflexivity. Qed.
