(** * C23-C25, C59: Metaphone. *)
From Verif Require Import Base UnicodeM Lib Helper Metaphone BaseLemmas Spec_common
  Soundex_proofs UnicodeLemmas Cologne_proofs Metaphone_proofs.
Local Open Scope N_scope.

(** C23: the limit truncates the unlimited code. (One-byte texts are special.) *)
Theorem C23_max_length_is_truncation : forall u s n c,
  blen (str_upper u s) <> 1%nat ->
  metaphone_encode u None s = Ok c -> metaphone_encode u (Some n) s = Ok (firstn n c).
Proof.
  intros u s n c H1 H. unfold metaphone_encode in *.
  replace (Nat.eqb (blen (str_upper u s)) 1) with false in * by (symmetry; now apply Nat.eqb_neq).
  pose proof (mt_loop_truncation _ _ _ _ _ [] c n ascii_str_nil H) as K.
  now rewrite firstn_nil in K.
Qed.
Theorem C23_truncation_of_larger : forall u s n m c,
  blen (str_upper u s) <> 1%nat -> (n <= m)%nat ->
  metaphone_encode u (Some m) s = Ok c -> metaphone_encode u (Some n) s = Ok (firstn n c).
Proof.
  intros u s n m c H1 L H. unfold metaphone_encode in *.
  replace (Nat.eqb (blen (str_upper u s)) 1) with false in * by (symmetry; now apply Nat.eqb_neq).
  pose proof (mt_loop_truncation2 _ _ _ _ _ [] c n m ascii_str_nil L (Nat.le_0_l m) H) as K.
  now rewrite firstn_nil in K.
Qed.
(** "SmitséSa" returns with a limit although the unlimited code does not exist. *)
Example C23_larger_nonvacuous :
  metaphone_encode latin1_only None ($ "Smits" ++ [233] ++ $ "Sa") = Panic
  /\ metaphone_encode latin1_only (Some 4%nat) ($ "Smits" ++ [233] ++ $ "Sa") = Ok $ "SMTS"
  /\ metaphone_encode latin1_only (Some 2%nat) ($ "Smits" ++ [233] ++ $ "Sa") = Ok $ "SM".
Proof. repeat split; vm_compute; reflexivity. Qed.
Theorem C23_max_length_ascii : forall u s n, ascii_str s -> length s <> 1%nat ->
  exists c, metaphone_encode u None s = Ok c /\ metaphone_encode u (Some n) s = Ok (firstn n c)
            /\ (length (firstn n c) <= n)%nat.
Proof.
  intros u s n A L. assert (H1 : blen (str_upper u s) <> 1%nat).
  { rewrite str_upper_ascii, ascii_blen, map_length by (try apply ascii_str_map_up; assumption). exact L. }
  assert (E : exists c, metaphone_encode u None s = Ok c).
  { unfold metaphone_encode. replace (Nat.eqb _ 1) with false by (symmetry; now apply Nat.eqb_neq).
    apply mt_loop_ok; [|lia]. apply mt_local_ascii. rewrite str_upper_ascii by assumption.
    now apply ascii_str_map_up. }
  destruct E as [c Hc]. exists c. split; [exact Hc|]. split; [now apply C23_max_length_is_truncation|].
  rewrite firstn_length. lia.
Qed.
(** A one-character name is returned uppercased, whatever the limit. *)
Theorem C23_single_character_ignores_limit : forall u max c, c < 128 ->
  metaphone_encode u max [c] = Ok [ascii_up c].
Proof.
  intros u max c H. unfold metaphone_encode, str_upper. cbn [flat_map]. rewrite to_upper_ascii by assumption.
  cbn [app blen]. rewrite ascii_utf8_len by (now apply ascii_up_lt). reflexivity.
Qed.
Example C23_nonvacuous : metaphone_encode latin1_only None $ "metaphone" = Ok $ "MTFN"
  /\ metaphone_encode latin1_only (Some 2%nat) $ "metaphone" = Ok $ "MT"
  /\ metaphone_encode latin1_only (Some 0%nat) $ "e" = Ok $ "E".
Proof. repeat split; vm_compute; reflexivity. Qed.

(** C24: totality, alphabet, case. *)
Theorem C24_total_on_ascii : forall u max s, ascii_str s -> exists r, metaphone_encode u max s = Ok r.
Proof.
  intros u max s A. destruct (Nat.eq_dec (length s) 1) as [E|E].
  - destruct s as [|c [|]]; try discriminate. apply ascii_str_cons in A as [A _].
    rewrite C23_single_character_ignores_limit by assumption. eauto.
  - destruct (C23_max_length_ascii u s (match max with Some n => n | None => 0%nat end) A E)
      as (c & H1 & H2 & _). destruct max; eauto.
Qed.
Theorem C24_alphabet : forall u max s r, blen (str_upper u s) <> 1%nat ->
  metaphone_encode u max s = Ok r ->
  (forall c, In c r -> In c $ "AEIOUBFHJKLMNPRSTWXY0")
  /\ (forall c, In c (tl r) -> In c $ "BFHJKLMNPRSTWXY0").
Proof.
  intros u max s r H1 H. unfold metaphone_encode in H.
  replace (Nat.eqb (blen (str_upper u s)) 1) with false in H by (symmetry; now apply Nat.eqb_neq).
  apply mt_loop_code in H; [exact H|auto|]. split; intros x [].
Qed.
Theorem C24_alphabet_ascii : forall u max s r, ascii_str s -> length s <> 1%nat ->
  metaphone_encode u max s = Ok r ->
  (forall c, In c r -> In c $ "AEIOUBFHJKLMNPRSTWXY0")
  /\ (forall c, In c (tl r) -> In c $ "BFHJKLMNPRSTWXY0").
Proof.
  intros u max s r A L H. eapply C24_alphabet; [|exact H].
  rewrite str_upper_ascii, ascii_blen, map_length by (try apply ascii_str_map_up; assumption). exact L.
Qed.
Theorem C24_ascii_case : forall u max s, metaphone_encode u max (map ascii_up s) = metaphone_encode u max s.
Proof. intros. unfold metaphone_encode. now rewrite str_upper_ascii_up. Qed.
Theorem C24_length : forall u s r, blen (str_upper u s) <> 1%nat ->
  metaphone_encode u None s = Ok r -> (length r <= 2 * length (str_upper u s))%nat.
Proof.
  intros u s r H1 H. unfold metaphone_encode in H.
  replace (Nat.eqb (blen (str_upper u s)) 1) with false in H by (symmetry; now apply Nat.eqb_neq).
  apply mt_loop_length in H. pose proof (mt_local_length (str_upper u s)). cbn [length] in H. lia.
Qed.
Example C24_nonvacuous : metaphone_encode latin1_only None $ "Thumb" = Ok $ "0M"
  /\ metaphone_encode latin1_only None $ "aXeaXe" = Ok $ "AKSKS".
Proof. split; vm_compute; reflexivity. Qed.

(** C25: character indices used as byte offsets panic. *)
Theorem C25_total_refuted :
  ~ (forall u max s, UnicodeOK u -> exists r, metaphone_encode u max s = Ok r).
Proof.
  intros H. destruct (H latin1_only (Some 4%nat) $ "éSA" latin1_only_ok) as [r Hr]. vm_compute in Hr. discriminate.
Qed.
(** More generally an É directly followed by S and at least one more ASCII letter panics. *)
Theorem C25_e_acute_s_panics : forall u b x, x < 128 -> ascii_str b ->
  metaphone_encode u None (# "É" :: # "S" :: x :: b) = Panic.
Proof.
  intros u b x Hx Hb. unfold metaphone_encode.
  assert (E : str_upper u (# "É" :: # "S" :: x :: b) = # "É" :: # "S" :: ascii_up x :: map ascii_up b).
  { unfold str_upper. cbn [flat_map]. rewrite (to_upper_ascii u x) by assumption.
    fold (str_upper u b). rewrite str_upper_ascii by assumption. reflexivity. }
  rewrite E. unfold mt_local. cbn [hd_error]. cbn -[blen mt_loop].
  assert (L : (4 <= blen (201%N :: 83%N :: ascii_up x :: map ascii_up b))%nat).
  { cbn [blen]. rewrite (ascii_utf8_len (ascii_up x)) by (now apply ascii_up_lt). cbn. lia. }
  set (t := 201%N :: 83%N :: ascii_up x :: map ascii_up b) in *.
  replace (Nat.eqb (blen t) 1) with false by (symmetry; apply Nat.eqb_neq; lia).
  unfold t at 3. cbn [mt_loop mt_full]. unfold mt_is_previous_char. cbn -[mt_loop blen mt_symbol].
  assert (E0 : mt_symbol t (blen t) 0 201 = Ok ([], 0%nat)) by reflexivity.
  rewrite E0. cbn [bind app mt_loop mt_full mt_truncate].
  assert (E1 : nth_char t 0 = Some 201) by reflexivity.
  cbn -[mt_loop blen mt_symbol].
  assert (E2 : mt_symbol t (blen t) 1 83 = Panic).
  { unfold mt_symbol. cbn [isin existsb N.eqb Nat.eqb andb negb orb].
    change (orelse (mt_region_match t 1 [83; 72]) _) with
      (@bind bool bool (mt_region_match t 1 [83; 72]) (fun x => if x then Ok true else
         orelse (mt_region_match t 1 [83; 73; 79]) (mt_region_match t 1 [83; 73; 65]))).
    assert (R : mt_region_match t 1 [83; 72] = Panic).
    { unfold mt_region_match. replace (Nat.ltb (1 + blen [83; 72] - 1) (blen t)) with true.
      - reflexivity.
      - symmetry. apply Nat.ltb_lt. cbn [blen utf8_len]. cbn. lia. }
    cbn -[mt_region_match]. rewrite R. reflexivity. }
  rewrite E2. reflexivity.
Qed.
Example C25_nonvacuous : metaphone_encode latin1_only (Some 4%nat) $ "Désirée" = Panic.
Proof. vm_compute. reflexivity. Qed.

(** C59: silent first letters (of names of at least three characters). *)
Theorem C59_silent_first_letter : forall u max a b x r,
  In [a; b] [$ "KN"; $ "GN"; $ "PN"; $ "AE"; $ "WR"] -> x < 128 ->
  metaphone_encode u max (a :: b :: x :: r) = metaphone_encode u max (b :: x :: r).
Proof.
  intros u max a b x r H Hx. unfold metaphone_encode.
  assert (E : exists t, str_upper u (x :: r) = ascii_up x :: t).
  { unfold str_upper. cbn [flat_map]. rewrite to_upper_ascii by assumption. cbn. eauto. }
  destruct E as [t E].
  assert (G : forall p q, to_upper u p = [p] -> to_upper u q = [q] ->
     str_upper u (p :: q :: x :: r) = p :: q :: ascii_up x :: t
     /\ str_upper u (q :: x :: r) = q :: ascii_up x :: t).
  { intros p q Hp Hq. unfold str_upper in *. cbn [flat_map] in *. rewrite Hp, Hq, E. auto. }
  assert (B : forall p q l, p < 128 -> q < 128 ->
     Nat.eqb (blen (p :: q :: ascii_up x :: l)) 1 = false /\ Nat.eqb (blen (q :: ascii_up x :: l)) 1 = false).
  { intros p q l Hp Hq. split; apply Nat.eqb_neq; cbn [blen];
      rewrite !ascii_utf8_len by (try apply ascii_up_lt; assumption); lia. }
  cbn [In] in H.
  repeat (destruct H as [H|H];
    [injection H as <- <-;
     match goal with |- context[str_upper u (?p :: ?q :: x :: r)] =>
       destruct (G p q eq_refl eq_refl) as [-> ->];
       destruct (B p q t eq_refl eq_refl) as [-> ->] end; reflexivity|]).
  destruct H.
Qed.
Example C59_nonvacuous : metaphone_encode latin1_only None $ "KNIGHT" = metaphone_encode latin1_only None $ "NIGHT".
Proof. vm_compute. reflexivity. Qed.
