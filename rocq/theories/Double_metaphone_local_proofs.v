(** * Double Metaphone: how far a letter looks (lemmas). *)
From Verif Require Import Base UnicodeM Lib Helper BaseLemmas DoubleMetaphone.
Local Open Scope Z_scope.

Definition returns {A} (m : res A) : Prop := exists x, m = Ok x.
Lemma ret_Ok : forall A (x : A), returns (Ok x).
Proof. intros. now exists x. Qed.
Lemma ret_done : forall ops k, returns (done ops k).
Proof. intros. now eexists. Qed.
Lemma ret_bind : forall A B (m : res A) (f : A -> res B), returns m -> (forall x, m = Ok x -> returns (f x)) -> returns (bind m f).
Proof. intros A B m f [x E] H. rewrite E. exact (H x E). Qed.
Lemma ret_ifm : forall A c (x y : res A), returns c -> returns x -> returns y -> returns (bind c (fun b : bool => if b then x else y)).
Proof. intros A c x y [[|] E] X Y; rewrite E; assumption. Qed.
Lemma ret_if : forall A (b : bool) (x y : res A), returns x -> returns y -> returns (if b then x else y).
Proof. now intros A [|]. Qed.
Lemma ret_pure : forall b, returns (pure b).
Proof. intros b. now exists b. Qed.
Lemma ret_and : forall a b, returns a -> returns b -> returns (a &&! b).
Proof. intros a b [[|] E] B; unfold andr; rewrite E; [exact B|now eexists]. Qed.
Lemma ret_and_guard : forall x b, (x = true -> returns b) -> returns (pure x &&! b).
Proof. intros [|] b B; cbn; [now apply B|now eexists]. Qed.
Lemma ret_and_guard2 : forall x b c, (x = true -> returns b) -> (x = true -> returns c) -> returns (pure x &&! b &&! c).
Proof. intros [|] b c B C; cbn; [|now eexists]. apply ret_and; [now apply B|now apply C]. Qed.
Lemma ret_or : forall a b, returns a -> returns b -> returns (a ||! b).
Proof. intros a b [[|] E] B; unfold orr; rewrite E; [now eexists|exact B]. Qed.
Lemma ret_not : forall a, returns a -> returns (notr a).
Proof. intros a [x E]. unfold notr. rewrite E. now eexists. Qed.
Lemma ret_skip : forall ops b, returns b -> returns (then_skip_if ops b).
Proof. intros ops b B. unfold then_skip_if. apply ret_ifm; [assumption| |]; apply ret_done. Qed.

Section Local.
Variable value : ustr.
Notation size := (Z.of_nat (blen value)).
(** [p] is outside the text or between two characters. *)
Definition between (p : Z) : Prop := p < 0 \/ size < p \/ exists a b, value = a ++ b /\ Z.of_nat (blen a) = p.
Lemma between_split : forall p, between p -> 0 <= p <= size -> exists a b, split_byte (Z.to_nat p) value = Some (a, b).
Proof.
  intros p [H|[H|(a & b & E & <-)]] R; [lia|lia|]. exists a, b. rewrite Nat2Z.id. apply split_byte_spec. now split.
Qed.
Lemma ret_contains : forall start n cs, between start -> between (start + Z.of_nat n) -> returns (contains value start n cs).
Proof.
  intros start n cs B1 B2. unfold contains. destruct (Z.ltb_spec start 0) as [L|L]; [apply ret_Ok|]. cbv zeta.
  destruct (Nat.leb_spec (Z.to_nat start + n) (blen value)) as [K|K]; [|apply ret_Ok].
  destruct (between_split start B1 ltac:(lia)) as (a & b & E1). destruct (between_split _ B2 ltac:(lia)) as (c & d & E2).
  replace (Z.to_nat (start + Z.of_nat n)) with (Z.to_nat start + n)%nat in E2 by lia.
  apply split_byte_spec in E1 as [V1 L1]. pose proof E2 as E2'. apply split_byte_spec in E2' as [V2 L2].
  assert (P : exists m, c = a ++ m).
  { clear - V1 V2 L1 L2. revert c V2 L2. subst value. remember (Z.to_nat start) as s. clear Heqs. revert s L1.
    induction a as [|x a IH]; intros s L1 c V2 L2; [now exists c|].
    destruct c as [|y c]; [cbn [blen] in *; pose proof (utf8_len_pos x); lia|]. cbn [app] in V2. injection V2 as <- V2.
    cbn [blen] in L1, L2. destruct (IH (s - utf8_len x)%nat ltac:(lia) c V2 ltac:(lia)) as [m ->]. exists m. reflexivity. }
  destruct P as [m ->]. rewrite blen_app in L2.
  assert (M : b = m ++ d).
  { rewrite V1 in V2. rewrite <- app_assoc in V2. now apply app_inv_head in V2. }
  unfold slice. destruct (Nat.ltb_spec (Z.to_nat start + n) (Z.to_nat start)) as [F|F]; [lia|].
  replace (Z.to_nat start) with (blen a) by lia. rewrite V1 at 1. rewrite split_byte_app. unfold slice_to.
  replace (blen a + n - blen a)%nat with (blen m) by lia. rewrite M, split_byte_app. cbn [bind]. apply ret_Ok.
Qed.
Lemma ret_char_at : forall p, between p -> returns (char_at value p).
Proof.
  intros p B. unfold char_at, len. destruct ((0 <=? p) && (p <? size)) eqn:E; [|apply ret_Ok].
  apply andb_true_iff in E as [E1 E2]. apply Z.leb_le in E1. apply Z.ltb_lt in E2.
  destruct (between_split p B ltac:(lia)) as (a & b & S). unfold slice_from. rewrite S. cbn [bind]. apply ret_Ok.
Qed.
Lemma ret_at_is : forall p c, between p -> returns (at_is value p c).
Proof. intros p c B. unfold at_is. apply ret_bind; [now apply ret_char_at|]. intros. apply ret_Ok. Qed.
Lemma ret_at_vowel : forall p, between p -> returns (at_vowel value p).
Proof. intros p B. unfold at_vowel. apply ret_bind; [now apply ret_char_at|]. intros. apply ret_Ok. Qed.

Variable index : Z.
Hypothesis near : forall p, index - 4 <= p <= index + 5 -> between p.

(** The letters that also look at the beginning. *)
Definition looks_at_beginning : ustr := $ "CGJTW".
Definition looks_at_end : ustr := $ "L".
Lemma between_end : between size.
Proof. right. right. exists value, []. split; [now rewrite app_nil_r|reflexivity]. Qed.

Ltac ret := repeat first
  [ assumption | apply ret_done | apply ret_Ok | apply ret_pure | apply ret_skip
  | apply ret_contains | apply ret_at_is | apply ret_at_vowel | apply ret_char_at
  | (apply ret_and_guard; intros ?) | (apply ret_and_guard2; intros ?) | apply ret_and | apply ret_or | apply ret_not
  | apply ret_ifm | apply ret_if
  | (apply ret_bind; [|intros ? _]) ].
Ltac here := first [ apply near; lia | apply between_end ].

Lemma ret_d : returns (handle_d value index).
Proof. unfold handle_d. ret; here. Qed.
Lemma ret_gh : returns (handle_gh value index).
Proof. unfold handle_gh. ret; here. Qed.
Lemma ret_h : returns (handle_h value index).
Proof. unfold handle_h. ret; here. Qed.
Lemma ret_m : returns (condition_m0 value index).
Proof. unfold condition_m0. ret; here. Qed.
Lemma ret_p : returns (handle_p value index).
Proof. unfold handle_p. ret; here. Qed.
Lemma ret_r : forall sg, returns (handle_r value sg index).
Proof. intros sg. unfold handle_r. ret; here. Qed.
Lemma ret_sc : returns (handle_sc value index).
Proof.
  unfold handle_sc. ret; try here.
  all: match goal with H : (index =? 0) = true |- _ => apply Z.eqb_eq in H end; here.
Qed.
Lemma ret_s : forall sg, returns (handle_s value sg index).
Proof. intros sg. unfold handle_s. pose proof ret_sc. ret; first [here|assumption]. Qed.
Lemma ret_x : returns (handle_x value index).
Proof. unfold handle_x. ret; here. Qed.
Lemma ret_z : forall sg, returns (handle_z value sg index).
Proof. intros sg. unfold handle_z. ret; here. Qed.
Section Beginning.
Hypothesis beginning : forall p, 0 <= p <= 6 -> between p.
Ltac there := first [ here | apply beginning; lia
  | match goal with H : (index =? 0) = true |- _ => apply Z.eqb_eq in H; apply beginning; lia end ].
Lemma ret_c0 : returns (condition_c0 value index).
Proof. unfold condition_c0. ret; there. Qed.
Lemma ret_ch0 : returns (condition_ch0 value index).
Proof. unfold condition_ch0. destruct (Z.eqb_spec index 0) as [E|E]; cbn [negb]; cbv iota; ret; there. Qed.
Lemma ret_ch1 : returns (condition_ch1 value index).
Proof. unfold condition_ch1, contains_array. ret; there. Qed.
Lemma ret_ch : returns (handle_ch value index).
Proof. unfold handle_ch. pose proof ret_ch0. pose proof ret_ch1. ret; first [there|assumption]. Qed.
Lemma ret_cc : returns (handle_cc value index).
Proof. unfold handle_cc. ret; there. Qed.
Lemma ret_c : returns (handle_c value index).
Proof. unfold handle_c. pose proof ret_c0. pose proof ret_ch. pose proof ret_cc. ret; first [there|assumption]. Qed.
Lemma ret_g : forall sg, returns (handle_g value sg index).
Proof. intros sg. unfold handle_g, contains_array. pose proof ret_gh. ret; first [there|assumption]. Qed.
Lemma ret_j : forall sg, returns (handle_j value sg index).
Proof. intros sg. unfold handle_j, contains_array. ret; there. Qed.
Lemma ret_t : returns (handle_t value index).
Proof. unfold handle_t. ret; there. Qed.
Lemma ret_w : returns (handle_w value index).
Proof. unfold handle_w. ret; there. Qed.
End Beginning.
Section Ending.
Hypothesis ending : forall p, size - 2 <= p -> between p.
Lemma ret_l : returns (handle_l value index).
Proof. unfold handle_l, condition_l0, len. ret; first [here|apply ending; lia]. Qed.
End Ending.
End Local.
