(** * C27: where a panic of Double Metaphone can come from. *)
From Verif Require Import Base UnicodeM Lib Helper DoubleMetaphone BaseLemmas Spec_common Spec_contextual
  Spec_double_metaphone Rewrite_proofs Contextual_proofs Soundex_proofs UnicodeLemmas DoubleMetaphone_proofs
  Double_metaphone_spec_proofs Double_metaphone_run_proofs Double_metaphone_any_proofs Double_metaphone_local_proofs
  Props_double_metaphone Props_double_metaphone_spec Props_double_metaphone_any UnicodeReal Upper_ok.
Local Open Scope N_scope.

(** The last [n] characters. *)
Definition last_chars (n : nat) (s : ustr) : ustr := skipn (length s - n) s.
(** The letter [c], read after [before] and followed by [rest], is near a character
    beyond ASCII: among the four before it, the four after it, the first six of the
    text for C, G, J, T and W, the last two for L. *)
Definition disturbed (before : ustr) (c : N) (rest : ustr) : Prop :=
  In c unsafe_letters /\ exists x, 128 <= x /\
   (In x (last_chars 4 before) \/ In x (firstn 4 rest)
    \/ (In c $ "CGJTW" /\ In x (firstn 6 (before ++ c :: rest)))
    \/ (c = # "L" /\ In x (last_chars 2 (before ++ c :: rest)))).

Lemma ascii_dec : forall s : ustr, ascii_str s \/ exists x, 128 <= x /\ In x s.
Proof.
  induction s as [|c s IH]; [left; apply ascii_str_nil|]. destruct (N.ltb_spec c 128) as [L|L].
  - destruct IH as [A|(x & Hx & I)]; [left; now apply ascii_str_cons|right; exists x; split; [assumption|now right]].
  - right. exists c. split; [assumption|now left].
Qed.
Lemma between_after : forall a m b, ascii_str m -> forall p, (Z.of_nat (blen a) <= p <= Z.of_nat (blen a + length m))%Z ->
  between (a ++ m ++ b) p.
Proof.
  intros a m b A p R. right. right. set (k := (Z.to_nat p - blen a)%nat).
  exists (a ++ firstn k m), (skipn k m ++ b). split.
  - rewrite <- app_assoc. f_equal. rewrite app_assoc. now rewrite firstn_skipn.
  - rewrite blen_app, (ascii_blen (firstn k m)) by (now apply ascii_str_firstn). rewrite firstn_length. lia.
Qed.
(** Positions in the first [n] characters, if they are ASCII. *)
Lemma between_first : forall n s, ascii_str (firstn n s) -> forall p, (p <= Z.of_nat n)%Z -> between s p.
Proof.
  intros n s A p L. destruct (Z.ltb_spec p 0) as [Ng|P]; [now left|].
  destruct (Nat.le_gt_cases (length s) n) as [K|K].
  - rewrite firstn_all2 in A by assumption. destruct (Z.ltb_spec (Z.of_nat (blen s)) p) as [O|O]; [right; now left|].
    replace s with ([] ++ s ++ []) by (now rewrite app_nil_r). apply between_after; [assumption|].
    rewrite ascii_blen in O by assumption. cbn [blen]. lia.
  - rewrite <- (firstn_skipn n s). change (firstn n s ++ skipn n s) with ([] ++ firstn n s ++ skipn n s).
    apply between_after; [assumption|]. rewrite firstn_length. cbn [blen]. lia.
Qed.
Lemma last_chars_split : forall n s, s = firstn (length s - n) s ++ last_chars n s.
Proof. intros n s. unfold last_chars. now rewrite firstn_skipn. Qed.
Lemma last_chars_length : forall n s, length (last_chars n s) = Nat.min n (length s).
Proof. intros n s. unfold last_chars. rewrite skipn_length. lia. Qed.
Lemma between_last : forall n a b, ascii_str (last_chars n a) -> forall p,
  (Z.of_nat (blen a) - Z.of_nat n <= p <= Z.of_nat (blen a))%Z -> between (a ++ b) p.
Proof.
  intros n a b A p R. destruct (Z.ltb_spec p 0) as [Ng|P]; [now left|].
  pose proof (last_chars_split n a) as E. set (h := firstn (length a - n) a) in *. pose proof (last_chars_length n a) as L.
  set (t := last_chars n a) in *. rewrite E, <- app_assoc. apply between_after; [assumption|].
  assert (B : blen a = (blen h + length t)%nat) by (rewrite E, blen_app, (ascii_blen t) by assumption; reflexivity).
  destruct (Nat.le_gt_cases n (length a)) as [K|K]; [lia|].
  assert (Hh : h = []) by (unfold h; replace (length a - n)%nat with 0%nat by lia; reflexivity). rewrite Hh in *. cbn [blen] in *. lia.
Qed.
Lemma between_rest : forall a c rest n, c < 128 -> ascii_str (firstn n rest) -> forall p,
  (Z.of_nat (blen a) <= p <= Z.of_nat (blen a) + Z.of_nat n + 1)%Z -> between (a ++ c :: rest) p.
Proof.
  intros a c rest n Lc A p R.
  assert (A' : ascii_str (firstn (S n) (c :: rest))) by (cbn [firstn]; apply ascii_str_cons; now split).
  destruct (between_first (S n) (c :: rest) A' (p - Z.of_nat (blen a)) ltac:(lia)) as [H|[H|(x & y & E & H)]].
  - lia.
  - right. left. rewrite blen_app. lia.
  - right. right. exists (a ++ x), y. split; [now rewrite <- app_assoc, <- E|]. rewrite blen_app. lia.
Qed.

Lemma dm_char_local : forall before c rest sg,
  returns (dm_char (before ++ c :: rest) sg (Z.of_nat (blen before)) c) \/ disturbed before c rest.
Proof.
  intros before c rest sg. destruct (isin c unsafe_letters) eqn:U.
  2: { left. assert (NU : c < 128 -> ~ In c unsafe_letters) by (intros _ K; apply isin_In in K; congruence).
       destruct (dm_char_safe before c rest sg NU) as [x E]. now exists x. }
  apply isin_In in U.
  destruct (ascii_dec (last_chars 4 before)) as [A1|(x & Hx & I)]; [|right; split; [assumption|]; exists x; tauto].
  destruct (ascii_dec (firstn 4 rest)) as [A2|(x & Hx & I)]; [|right; split; [assumption|]; exists x; tauto].
  assert (Lc : c < 128) by (clear - U; cbn [unsafe_letters In] in U; repeat (destruct U as [<-|U]; [reflexivity|]); destruct U).
  assert (Near : forall p, (Z.of_nat (blen before) - 4 <= p <= Z.of_nat (blen before) + 5)%Z -> between (before ++ c :: rest) p).
  { intros p R. destruct (Z.le_gt_cases p (Z.of_nat (blen before))) as [K|K].
    - apply (between_last 4); [assumption|]. lia.
    - apply (between_rest before c rest 4 Lc A2). lia. }
  destruct (isin c $ "CGJTW") eqn:B.
  - apply isin_In in B. destruct (ascii_dec (firstn 6 (before ++ c :: rest))) as [A3|(x & Hx & I)]; [|right; split; [assumption|]; exists x; tauto].
    pose proof (fun p (H : (0 <= p <= 6)%Z) => between_first 6 _ A3 p ltac:(lia)) as Beg. left.
    cbn [In] in B. destruct B as [<-|[<-|[<-|[<-|[<-|[]]]]]]; 
      [apply (ret_c _ _ Near Beg)|apply (ret_g _ _ Near Beg)|apply (ret_j _ _ Near Beg)|apply (ret_t _ _ Near Beg)|apply (ret_w _ _ Near Beg)].
  - destruct (N.eqb_spec c (# "L")) as [->|NL].
    + destruct (ascii_dec (last_chars 2 (before ++ # "L" :: rest))) as [A3|(x & Hx & I)]; [|right; split; [assumption|]; exists x; tauto].
      left. change (returns (handle_l (before ++ # "L" :: rest) (Z.of_nat (blen before)))). apply ret_l; [assumption|]. intros p R.
      destruct (Z.ltb_spec (Z.of_nat (blen (before ++ # "L" :: rest))) p) as [K|K]; [right; now left|].
      rewrite <- (app_nil_r (before ++ # "L" :: rest)) at 1. apply (between_last 2); [assumption|]. lia.
    + left. apply isin_false in B. cbn [unsafe_letters In] in U, B.
      repeat (destruct U as [<-|U]; [first [exfalso; apply B; tauto | now elim NL
        | apply ret_d; assumption | apply ret_h; assumption | apply ret_skip; apply ret_m; assumption | apply ret_p; assumption
        | apply ret_r; assumption | apply ret_s; assumption | apply ret_x; assumption | apply ret_z; assumption]|]). destruct U.
Qed.
Lemma dm_loop_local : forall max sg rest before k r,
  dm_loop (before ++ rest) max sg k (char_indices_from (blen before) rest) r
  = dm_loop (in_places (before ++ rest)) max sg k (char_indices_from (blen before) rest) r
  \/ exists a c b, rest = a ++ c :: b /\ disturbed (before ++ a) c b.
Proof.
  intros max sg. induction rest as [|c rest IH]; intros before k r; [now left|].
  assert (Ev : before ++ c :: rest = (before ++ [c]) ++ rest) by (now rewrite <- app_assoc).
  assert (Eb : (blen before + utf8_len c)%nat = blen (before ++ [c])).
  { rewrite blen_app. cbn [blen]. lia. }
  assert (IH' : forall k r, dm_loop (before ++ c :: rest) max sg k (char_indices_from (blen before + utf8_len c) rest) r
    = dm_loop (in_places (before ++ c :: rest)) max sg k (char_indices_from (blen before + utf8_len c) rest) r
    \/ exists a x b, c :: rest = a ++ x :: b /\ disturbed (before ++ a) x b).
  { intros k' r'. rewrite Eb, Ev. destruct (IH (before ++ [c]) k' r') as [E|(a & x & b & -> & D)]; [now left|right].
    exists (c :: a), x, b. split; [reflexivity|]. now rewrite <- app_assoc in D. }
  cbn [char_indices_from dm_loop]. destruct k as [|k]; [|apply IH']. destruct (dm_is_complete max r); [now left|].
  destruct (dm_char_local before c rest sg) as [[[ops k] E]|D].
  - rewrite E, (ref_dm_char _ _ _ _ _ E). cbn [bind]. destruct (dm_apply max r ops) as [r'| |]; cbn [bind]; [apply IH'|now left|now left].
  - right. exists [], c, rest. split; [reflexivity|]. now rewrite app_nil_r.
Qed.
(** If the program does not return, some letter of the text is near a character beyond ASCII. *)
Theorem C27_panic_needs : forall u max s core, trimmed_by (is_whitespace u) s core ->
  (exists r, double_metaphone u max s = Ok r)
  \/ exists before c rest, str_upper u core = before ++ c :: rest /\ disturbed before c rest.
Proof.
  intros u max s core T. apply trimmed_by_trim in T. unfold double_metaphone. rewrite T.
  destruct core as [|x l]; [left; now eexists|]. cbv zeta.
  destruct (dm_loop_local max (is_slavo_germanic (str_upper u (x :: l))) (str_upper u (x :: l)) []
    (if existsb (starts_with (str_upper u (x :: l))) SILENT_START then 1%nat else 0%nat) (dm_of [] [])) as [S|(a & c & b & E & D)].
  - left. cbn [app blen] in S. unfold char_indices, dm_of in *. rewrite S. clear S.
    edestruct (dm_loop_ok (in_places (str_upper u (x :: l))) max) as [r K]; cycle 4; [exists r; exact K|..];
      [apply in_places_ascii|apply ascii_str_nil|apply ascii_str_nil|].
    intros n En. cbn. lia.
  - right. now exists a, c, b.
Qed.
(** These distances are all reached: the fourth letter before, the fourth after, the sixth of the
    text, the last but one. *)
Theorem C27_distances_reached : forall u, double_metaphone u None $ "ÉAIER" = Panic
  /\ double_metaphone u None $ "SHAAÉ" = Panic
  /\ double_metaphone u None $ "AAAAAÉAAAAGER" = Panic
  /\ double_metaphone u None $ "LLAAAAAÉA" = Panic.
Proof. intros u. split; [|split; [|split]]; vm_compute; reflexivity. Qed.
(** A text with unsafe letters and characters beyond ASCII that are far enough. *)
Example C27_local_nonvacuous : trimmed_by (is_whitespace real_unicode) $ "Beñaquenard" $ "Beñaquenard"
  /\ (forall before c rest, str_upper real_unicode $ "Beñaquenard" = before ++ c :: rest -> ~ disturbed before c rest)
  /\ double_metaphone real_unicode None $ "Beñaquenard" = Ok {| dm_primary := $ "PNKNRT"; dm_alternate := $ "PNKNRT" |}.
Proof.
  split; [|split; [|vm_compute; reflexivity]].
  - exists [], []. split; [reflexivity|]. split; [intros c []|]. split; [intros c []|]. split.
    + intros c r E. injection E as <- _. reflexivity.
    + intros r c E. apply (f_equal (@rev N)) in E. rewrite rev_app_distr in E. cbn in E. injection E as <- _. reflexivity.
  - intros before c rest E (U & x & Hx & D).
    change (str_upper real_unicode $ "Beñaquenard") with $ "BEÑAQUENARD" in E.
    do 11 (destruct before as [|? before]; cbn [app] in E; injection E as <- E;
      [subst rest; first [apply isin_In in U; discriminate U | cbn in D; lia]|]).
    destruct before; discriminate E.
Qed.

Print Assumptions C27_panic_needs.
Print Assumptions C27_distances_reached.
