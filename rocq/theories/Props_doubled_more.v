(** * C85, continued: doubled letters in NYSIIS and Caverphone, exactly. *)
From Verif Require Import Base UnicodeM Lib Helper Soundex Caverphone Nysiis BaseLemmas Spec_common Spec_rewrite Spec_caverphone Spec_doubled
  UnicodeLemmas Soundex_proofs Caverphone_proofs Caverphone_doubled_proofs Nysiis_doubled_proofs Props_doubled.
Local Open Scope N_scope.

(** ** NYSIIS, whether or not the key is cut at six letters *)
Lemma clean_letter : forall u c, In c $ "BFGJLSWXYbfgjlswxy" -> exists d, soundex_clean u [c] = [d] /\ In d ny_class.
Proof.
  intros u c H. cbn in H. repeat (destruct H as [<-|H]; [eexists; split; [rewrite clean_ascii by (intros x [<-|[]]; reflexivity); reflexivity|vm_compute; tauto]|]). destruct H.
Qed.
Theorem C85_nysiis : forall u strict c, In c $ "BFGJLSWXYbfgjlswxy" -> harmless (nysiis_encode u strict) any_text c.
Proof.
  intros u strict c H a b _. destruct (clean_letter u c H) as (d & Ed & Hd). unfold nysiis_encode.
  change (a ++ c :: c :: b) with (a ++ [c] ++ [c] ++ b). change (a ++ c :: b) with (a ++ [c] ++ b).
  rewrite !clean_app, Ed. cbn [app]. set (A := soundex_clean u a). set (B := soundex_clean u b).
  pose proof (finish_same d Hd strict A B) as F.
  destruct (A ++ d :: d :: B) as [|x l] eqn:E1; [destruct A; discriminate E1|].
  destruct (A ++ d :: B) as [|y m] eqn:E2; [destruct A; discriminate E2|]. exact F.
Qed.
Theorem C85_nysiis_iff : forall u strict c, In c AZ -> (harmless (nysiis_encode u strict) longer_ascii_text c <-> In c $ "BFGJLSWXY").
Proof.
  intros u strict c H. split.
  - intros K. apply isin_In. destruct (isin c $ "BFGJLSWXY") eqn:Z; [reflexivity|]. exfalso.
    cbn in H. repeat (destruct H as [<-|H]; [first [discriminate Z|clear Z]|]); [..|destruct H].
    + specialize (K $ "M" $ "C" ltac:(now apply longer_lit)). destruct strict; vm_compute in K; discriminate K.
    + specialize (K $ "S" $ "H" ltac:(now apply longer_lit)). destruct strict; vm_compute in K; discriminate K.
    + specialize (K $ "N" $ "" ltac:(now apply longer_lit)). destruct strict; vm_compute in K; discriminate K.
    + specialize (K $ "A" $ "" ltac:(now apply longer_lit)). destruct strict; vm_compute in K; discriminate K.
    + specialize (K $ "XSC" $ "CHA" ltac:(now apply longer_lit)). destruct strict; vm_compute in K; discriminate K.
    + specialize (K $ "" $ "E" ltac:(now apply longer_lit)). destruct strict; vm_compute in K; discriminate K.
    + specialize (K $ "" $ "N" ltac:(now apply longer_lit)). destruct strict; vm_compute in K; discriminate K.
    + specialize (K $ "" $ "A" ltac:(now apply longer_lit)). destruct strict; vm_compute in K; discriminate K.
    + specialize (K $ "" $ "D" ltac:(now apply longer_lit)). destruct strict; vm_compute in K; discriminate K.
    + specialize (K $ "" $ "B" ltac:(now apply longer_lit)). destruct strict; vm_compute in K; discriminate K.
    + specialize (K $ "" $ "F" ltac:(now apply longer_lit)). destruct strict; vm_compute in K; discriminate K.
    + specialize (K $ "" $ "A" ltac:(now apply longer_lit)). destruct strict; vm_compute in K; discriminate K.
    + specialize (K $ "" $ "D" ltac:(now apply longer_lit)). destruct strict; vm_compute in K; discriminate K.
    + specialize (K $ "D" $ "" ltac:(now apply longer_lit)). destruct strict; vm_compute in K; discriminate K.
    + specialize (K $ "" $ "B" ltac:(now apply longer_lit)). destruct strict; vm_compute in K; discriminate K.
    + specialize (K $ "AE" $ "" ltac:(now apply longer_lit)). destruct strict; vm_compute in K; discriminate K.
    + specialize (K $ "" $ "A" ltac:(now apply longer_lit)). destruct strict; vm_compute in K; discriminate K.
  - intros K a b _. apply C85_nysiis; [|exact I]. cbn in K. repeat (destruct K as [<-|K]; [vm_compute; tauto|]). destruct K.
Qed.

(** ** Caverphone *)
Theorem C85_caverphone1 : forall u c, In c $ "FJKLMQSVWXYZfjklmqsvwxyz" -> harmless (caverphone1_encode u) ascii_text c.
Proof.
  intros u c H a b T. rewrite !encode1_eq. f_equal. f_equal. apply (caverphone_doubled caverphone1_rules _ u c acts1); [| |exact T].
  - cbn in H. repeat (destruct H as [<-|H]; [cbn; lia|]). destruct H.
  - cbn in H. repeat (destruct H as [<-|H]; [vm_compute; reflexivity|]). destruct H.
Qed.
Theorem C85_caverphone1_iff : forall u c, In c AZ -> (harmless (caverphone1_encode u) longer_ascii_text c <-> In c $ "FJKLMQSVWXYZ").
Proof.
  intros u c H. split.
  - intros K. apply isin_In. destruct (isin c $ "FJKLMQSVWXYZ") eqn:Z; [reflexivity|]. exfalso. apply (C85_caverphone1_refuted u c); [|exact K].
    cbn in H. repeat (destruct H as [<-|H]; [first [discriminate Z|vm_compute; tauto]|]). destruct H.
  - intros K a b [T _]. apply C85_caverphone1; [|exact T]. cbn in K. repeat (destruct K as [<-|K]; [vm_compute; tauto|]). destruct K.
Qed.
Theorem C85_caverphone2 : forall u c, In c $ "FKLMQSVXZfklmqsvxz" -> harmless (caverphone2_encode u) ascii_text c.
Proof.
  intros u c H a b T. rewrite !encode2_eq. f_equal. f_equal. apply (caverphone_doubled caverphone2_rules _ u c acts2); [| |exact T].
  - cbn in H. repeat (destruct H as [<-|H]; [cbn; lia|]). destruct H.
  - cbn in H. repeat (destruct H as [<-|H]; [vm_compute; reflexivity|]). destruct H.
Qed.
Theorem C85_caverphone2_iff : forall u c, In c AZ -> (harmless (caverphone2_encode u) longer_ascii_text c <-> In c $ "FKLMQSVXZ").
Proof.
  intros u c H. split.
  - intros K. apply isin_In. destruct (isin c $ "FKLMQSVXZ") eqn:Z; [reflexivity|]. exfalso. apply (C85_caverphone2_refuted u c); [|exact K].
    cbn in H. repeat (destruct H as [<-|H]; [first [discriminate Z|vm_compute; tauto]|]). destruct H.
  - intros K a b [T _]. apply C85_caverphone2; [|exact T]. cbn in K. repeat (destruct K as [<-|K]; [vm_compute; tauto|]). destruct K.
Qed.

Example C85_more_nonvacuous :
  nysiis_encode latin1_only true $ "Willsson" = nysiis_encode latin1_only true $ "Wilson" /\ nysiis_encode latin1_only true $ "Wilson" = Ok $ "WALSAN"
  /\ caverphone1_encode latin1_only $ "Peterssen" = caverphone1_encode latin1_only $ "Petersen"
  /\ caverphone2_encode latin1_only $ "Peterssen" = caverphone2_encode latin1_only $ "Petersen"
  /\ longer_ascii_text $ "Petersen" /\ nysiis_encode latin1_only false $ "XSCHHCHA" <> nysiis_encode latin1_only false $ "XSCHCHA".
Proof.
  split; [vm_compute; reflexivity|]. split; [vm_compute; reflexivity|]. split; [vm_compute; reflexivity|]. split; [vm_compute; reflexivity|].
  split; [now apply longer_lit|]. vm_compute. discriminate.
Qed.
