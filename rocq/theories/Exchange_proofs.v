(** * Letters that may be exchanged: proofs for the table-driven encoders. *)
From Verif Require Import Base UnicodeM Lib Soundex Cologne MatchRating BaseLemmas Spec_common Spec_cologne Spec_mra Spec_doubled Spec_exchange
  UnicodeLemmas Soundex_proofs Cologne_proofs Props_mra Props_doubled.
Local Open Scope N_scope.

Lemma AZ_iff : forall c, In c AZ <-> # "A" <= c <= # "Z".
Proof.
  intros c. split; [cbn; lia|]. intros H. cbn in H. assert (E : c = N.of_nat (65 + (N.to_nat c - 65))%nat) by lia.
  assert (L : (N.to_nat c - 65 < 26)%nat) by lia. rewrite E. generalize (N.to_nat c - 65)%nat L. clear. intros n L.
  do 26 (destruct n as [|n]; [cbn; tauto|]). lia.
Qed.

(** ** Deciding the other direction: enough texts tell all the other letters apart. *)
Definition togetherb (groups : list ustr) (x y : N) : bool := (x =? y) || existsb (fun g => isin x g && isin y g) groups.
Lemma togetherb_iff : forall groups x y, togetherb groups x y = true <-> together groups x y.
Proof.
  intros groups x y. unfold togetherb, together. rewrite orb_true_iff, N.eqb_eq, existsb_exists. split; intros [H|(g & I & H)]; auto; right; exists g.
  - apply andb_true_iff in H as [H1 H2]. now rewrite !isin_In in *.
  - split; [exact I|]. apply andb_true_iff. now rewrite !isin_In.
Qed.
Definition res_eqb {A} (eqb : A -> A -> bool) (a b : res A) : bool :=
  match a, b with Ok x, Ok y => eqb x y | Panic, Panic => true | NoFuel, NoFuel => true | _, _ => false end.
Lemma tells_apart : forall A (outcome : ustr -> A) (same : A -> A -> bool) before after groups contexts,
  (forall a, same a a = true) ->
  (forall a b, In (a, b) contexts -> before a /\ after b) ->
  forallb (fun x => forallb (fun y => if togetherb groups x y then true
    else existsb (fun ab => negb (same (outcome (fst ab ++ x :: snd ab)) (outcome (fst ab ++ y :: snd ab)))) contexts) AZ) AZ = true ->
  forall x y, # "A" <= x <= # "Z" -> # "A" <= y <= # "Z" -> exchangeable outcome before after x y -> together groups x y.
Proof.
  intros A outcome same before after groups contexts Sm K C x y Rx Ry H. apply AZ_iff in Rx, Ry.
  rewrite forallb_forall in C. specialize (C x Rx). rewrite forallb_forall in C. specialize (C y Ry).
  apply togetherb_iff. destruct (togetherb groups x y); [reflexivity|]. exfalso.
  apply existsb_exists in C as ((a, b) & I & C). cbn [fst snd] in C. destruct (K a b I) as [Ba Bb].
  rewrite (H a b Ba Bb), Sm in C. discriminate C.
Qed.
Definition text_eqb : res ustr -> res ustr -> bool := res_eqb seq_eqb.
Lemma text_eqb_refl : forall a, text_eqb a a = true.
Proof. intros [s| |]; cbn; [now apply seq_eqb_eq|reflexivity..]. Qed.

(** ** Soundex, any mapping *)
Lemma letter_clean : forall u c, # "A" <= c <= # "Z" -> soundex_clean u [c] = [c].
Proof.
  intros u c R. cbn in R. rewrite clean_ascii; [|intros x [<-|[]] _; lia]. unfold ascii_letters. cbn [filter].
  replace (is_ascii_alpha c) with true by (symmetry; apply is_ascii_alpha_iff; lia). cbn [map].
  destruct (ascii_up_cases c) as [[Q E]|[Q E]]; rewrite E; [lia|reflexivity].
Qed.
Lemma with_letter_clean : forall u s, with_letter s -> exists f r, soundex_clean u s = f :: r.
Proof.
  intros u s (a & c & b & -> & L). change (a ++ c :: b) with (a ++ [c] ++ b). rewrite !clean_app.
  assert (X : exists d, soundex_clean u [c] = [d]).
  { unfold is_letter in L. cbn in L. rewrite clean_ascii; [|intros x [<-|[]] _; lia]. unfold ascii_letters. cbn [filter].
    replace (is_ascii_alpha c) with true by (symmetry; apply is_ascii_alpha_iff; lia). cbn [map]. now eexists. }
  destruct X as [d ->]. destruct (soundex_clean u a) as [|f r]; cbn [app]; eauto.
Qed.
Definition silent_hw (sx : soundex) (c : N) : bool := sx_special_case_h_w sx && ((c =? # "H") || (c =? # "W")).
Lemma soundex_loop_exchange : forall sx x y q, silent_hw sx x = silent_hw sx y ->
  (silent_hw sx x = true \/ get_mapping_code (sx_mapping sx) x = get_mapping_code (sx_mapping sx) y) ->
  forall p count code previous,
  soundex_loop sx count code previous (p ++ x :: q) = soundex_loop sx count code previous (p ++ y :: q).
Proof.
  intros sx x y q H1 H2 p. unfold silent_hw in *. induction p as [|c p IH]; intros count code previous; cbn [app soundex_loop].
  - destruct (Nat.ltb count 4); [|reflexivity]. rewrite <- H1. destruct (sx_special_case_h_w sx && ((x =? # "H") || (x =? # "W"))); [reflexivity|].
    destruct H2 as [H2|H2]; [discriminate H2|]. now rewrite H2.
  - destruct (Nat.ltb count 4); [|reflexivity]. destruct (sx_special_case_h_w sx && ((c =? # "H") || (c =? # "W"))); [apply IH|].
    destruct (get_mapping_code (sx_mapping sx) c) as [d| |]; cbn [bind]; [|reflexivity..].
    destruct (d =? SILENT); [apply IH|]. destruct (negb (d =? # "0") && negb (d =? previous)); apply IH.
Qed.
Lemma soundex_exchange : forall u sx x y, # "A" <= x <= # "Z" -> # "A" <= y <= # "Z" -> silent_hw sx x = silent_hw sx y ->
  (silent_hw sx x = true \/ get_mapping_code (sx_mapping sx) x = get_mapping_code (sx_mapping sx) y) ->
  exchangeable (soundex_encode u sx) with_letter any_text x y.
Proof.
  intros u sx x y Rx Ry H1 H2 a b Ha _. unfold soundex_encode.
  change (a ++ x :: b) with (a ++ [x] ++ b). change (a ++ y :: b) with (a ++ [y] ++ b). rewrite !clean_app, !letter_clean by assumption.
  destruct (with_letter_clean u a Ha) as (f & r & ->). cbn [app].
  destruct (get_mapping_code (sx_mapping sx) f) as [k| |]; cbn [bind]; [|reflexivity..].
  now rewrite (soundex_loop_exchange sx x y _ H1 H2).
Qed.
Lemma refined_loop_exchange : forall m x y q, get_mapping_code m x = get_mapping_code m y -> forall p previous,
  refined_loop m previous (p ++ x :: q) = refined_loop m previous (p ++ y :: q).
Proof.
  intros m x y q H p. induction p as [|c p IH]; intros previous; cbn [app refined_loop]; [now rewrite H|].
  destruct (get_mapping_code m c) as [d| |]; cbn [bind]; [|reflexivity..]. now rewrite IH.
Qed.
Lemma refined_exchange : forall u m x y, # "A" <= x <= # "Z" -> # "A" <= y <= # "Z" -> get_mapping_code m x = get_mapping_code m y ->
  exchangeable (refined_encode u m) with_letter any_text x y.
Proof.
  intros u m x y Rx Ry H a b Ha _. unfold refined_encode.
  change (a ++ x :: b) with (a ++ [x] ++ b). change (a ++ y :: b) with (a ++ [y] ++ b). rewrite !clean_app, !letter_clean by assumption.
  destruct (with_letter_clean u a Ha) as (f & r & ->). cbn [app].
  change (f :: r ++ x :: soundex_clean u b) with ((f :: r) ++ x :: soundex_clean u b).
  now rewrite (refined_loop_exchange m x y _ H (f :: r)).
Qed.
Lemma mapping_digit : forall m c, length m = 26%nat -> # "A" <= c <= # "Z" -> get_mapping_code m c = Ok (nth (N.to_nat (c - 65)) m 0).
Proof.
  intros m c L R. cbn in R. unfold get_mapping_code. replace (c <? 65) with false by (symmetry; apply N.ltb_ge; lia).
  replace (c - 65 <? N.of_nat (length m)) with true by (symmetry; apply N.ltb_lt; lia).
  rewrite (nth_error_nth' m 0) by lia. reflexivity.
Qed.

(** ** Cologne *)
Definition cologne_groups : list ustr := [$ "AOU"; $ "DT"; $ "EIJY"; $ "FVW"; $ "KQ"; $ "MN"; $ "SZ"].
Definition cologne_same (x y : N) : Prop := isin x AZ = true /\ isin y AZ = true /\ x <> # "H" /\ y <> # "H"
  /\ (forall onset prev next, cologne_table onset prev next x = cologne_table onset prev next y)
  /\ (forall onset next c, cologne_table onset (Some x) next c = cologne_table onset (Some y) next c)
  /\ (forall onset prev c, cologne_table onset prev (Some x) c = cologne_table onset prev (Some y) c).

Lemma cologne_checked : forall x y, together cologne_groups x y -> # "A" <= x <= # "Z" -> x = y \/ cologne_same x y.
Proof.
  intros x y [->|(g & G & Ix & Iy)] R; [now left|right]. unfold cologne_same.
  cbn in G. repeat (destruct G as [<-|G]; [cbn in Ix, Iy; repeat destruct Ix as [<-|Ix]; repeat destruct Iy as [<-|Iy]; try contradiction;
    (split; [reflexivity|split; [reflexivity|split; [discriminate|split; [discriminate|repeat split]]]])|]). destruct G.
Qed.
Lemma codes_exchange : forall x y, cologne_same x y -> forall a b, cologne_codes [] (a ++ x :: b) = cologne_codes [] (a ++ y :: b).
Proof.
  intros x y (Ax & Ay & Hx & Hy & T & P & Nx) a b. rewrite !codes_split. cbn [hd_error].
  assert (W : forall before, codes_with_next before a (Some x) = codes_with_next before a (Some y)).
  { induction a as [|c a IH]; intros before; [reflexivity|]. cbn [codes_with_next]. destruct (isin c _); [|apply IH].
    rewrite IH. destruct a as [|d a]; [now rewrite Nx|reflexivity]. }
  rewrite W. f_equal. generalize (before_after [] a). intros before. cbn [cologne_codes].
  change $ "ABCDEFGHIJKLMNOPQRSTUVWXYZ" with AZ. rewrite Ax, Ay, T. f_equal.
  destruct (N.eqb_spec x (# "H")) as [?|_]; [contradiction|]. destruct (N.eqb_spec y (# "H")) as [?|_]; [contradiction|].
  assert (G : forall r bx by', (forall n c, cologne_table false (hd_error bx) n c = cologne_table false (hd_error by') n c) ->
    forallb (fun l => l =? # "H") bx = false -> forallb (fun l => l =? # "H") by' = false -> cologne_codes bx r = cologne_codes by' r).
  { induction r as [|c r IH]; intros bx by' E F1 F2; [reflexivity|]. cbn [cologne_codes]. destruct (isin c _); [|now apply IH].
    rewrite F1, F2, E. f_equal. apply IH; [reflexivity| |]; cbn [forallb]; now rewrite ?F1, ?F2, andb_false_r. }
  apply G; cbn [hd_error forallb].
  - intros n c. apply P.
  - apply N.eqb_neq in Hx. now rewrite Hx.
  - apply N.eqb_neq in Hy. now rewrite Hy.
Qed.
Lemma upper_letter : forall u c, # "A" <= c <= # "Z" -> map fold_upper (str_upper u [c]) = [c].
Proof.
  intros u c R. cbn in R. rewrite str_upper_ascii by (intros x [<-|[]]; lia). cbn [map].
  destruct (ascii_up_cases c) as [[Q E]|[Q E]]; rewrite E; [lia|]. f_equal. unfold fold_upper.
  repeat match goal with |- context [c =? ?b] => destruct (N.eqb_spec c b); [cbn in *; lia|] end. reflexivity.
Qed.
Lemma cologne_exchange : forall u x y, # "A" <= x <= # "Z" -> # "A" <= y <= # "Z" -> together cologne_groups x y ->
  exchangeable (cologne_encode u) any_text any_text x y.
Proof.
  intros u x y Rx Ry H a b _ _. destruct (cologne_checked x y H Rx) as [->|S]; [reflexivity|].
  rewrite !encode_codes. change (a ++ x :: b) with (a ++ [x] ++ b). change (a ++ y :: b) with (a ++ [y] ++ b).
  rewrite !str_upper_app, !map_app, !upper_letter by assumption. cbn [app]. now rewrite (codes_exchange x y S).
Qed.

(** ** Match rating *)
Lemma mra_exchange : forall u x y, In x $ "AEIOU" -> In y $ "AEIOU" -> exchangeable (mra_encode u) with_substance ascii_text x y.
Proof.
  intros u x y Ix Iy a b [Aa (a1 & c & a2 & Ea & N1 & N2)] Ab.
  assert (As : forall z, In z $ "AEIOU" -> ascii_str (a ++ z :: b)).
  { intros z Iz w Hw. apply in_app_or in Hw as [Hw|[<-|Hw]]; [now apply Aa| |now apply Ab]. cbn in Iz. lia. }
  assert (Ac : c < 128) by (apply Aa; rewrite Ea; apply in_or_app; right; now left).
  rewrite !C29_code by auto.
  assert (M : mra_noise c = false). { apply isin_false. cbn in N1 |- *. intuition lia. }
  assert (Wc : is_whitespace u c = false).
  { rewrite is_whitespace_ascii by exact Ac. apply not_true_is_false. intros W.
    rewrite ?orb_true_iff, ?andb_true_iff, ?N.leb_le, ?N.eqb_eq in W. cbn in N1. intuition lia. }
  assert (T2 : forall z, In z $ "AEIOU" -> (2 <= length (trim u (a ++ z :: b)))%nat).
  { intros z Iz. apply several_trim. unfold several. rewrite Ea, <- app_assoc. cbn [app]. rewrite filter_app. cbn [filter]. rewrite Wc. cbn [negb].
    rewrite filter_app. cbn [filter].
    assert (Wz : is_whitespace u z = false) by (rewrite is_whitespace_ascii by (cbn in Iz; lia); cbn in Iz; repeat destruct Iz as [<-|Iz]; reflexivity || contradiction).
    rewrite Wz. cbn [negb]. rewrite app_length. cbn [length]. rewrite app_length. cbn [length]. lia. }
  destruct (Nat.leb_spec (length (trim u (a ++ x :: b))) 1) as [L|_]; [specialize (T2 x Ix); lia|].
  destruct (Nat.leb_spec (length (trim u (a ++ y :: b))) 1) as [L|_]; [specialize (T2 y Iy); lia|].
  f_equal. unfold mra_code. do 2 f_equal. rewrite !map_app, !filter_app.
  assert (Z : forall z, In z $ "AEIOU" -> filter (fun c => negb (mra_noise c)) (map ascii_up (z :: b)) = z :: filter (fun c => negb (mra_noise c)) (map ascii_up b)).
  { intros z Iz. cbn in Iz. repeat (destruct Iz as [<-|Iz]; [reflexivity|]). destruct Iz. }
  rewrite (Z x Ix), (Z y Iy).
  assert (V : forall z, In z $ "AEIOU" -> upper_vowel z = true) by (intros z Iz; now apply isin_In).
  destruct (filter (fun c => negb (mra_noise c)) (map ascii_up a)) as [|h t] eqn:F.
  - exfalso. assert (I : In (ascii_up c) (filter (fun c => negb (mra_noise c)) (map ascii_up a))).
    { apply filter_In. split; [apply in_map; rewrite Ea; apply in_or_app; right; now left|]. apply negb_true_iff.
      destruct (ascii_up_cases c) as [[Q E']|[Q E']]; rewrite E'; [|exact M]. apply isin_false. cbn. lia. }
    rewrite F in I. destruct I.
  - cbn [app drop_inner_vowels]. rewrite !filter_app. cbn [filter]. now rewrite (V x Ix), (V y Iy).
Qed.
