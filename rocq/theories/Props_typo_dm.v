(** * C93: with Double Metaphone, one letter can move the whole code. *)
From Verif Require Import Base UnicodeM Lib DoubleMetaphone BaseLemmas Spec_common Spec_typo Typo_proofs Typo_double_metaphone_proofs Props_typo Props_size.
Local Open Scope N_scope.

(** The two codes of names of any length, with and without a W at the end. *)
Theorem C93_double_metaphone_W : forall u n,
  double_metaphone u None (times (S n) $ "GN") = Ok {| dm_primary := $ "N" ++ times n $ "N"; dm_alternate := $ "N" ++ times n $ "KN" |}
  /\ double_metaphone u None (times (S n) $ "GN" ++ $ "W") = Ok {| dm_primary := $ "N" ++ times n $ "KN"; dm_alternate := $ "N" ++ times n $ "KN" |}
  /\ double_metaphone u None (times (S n) $ "JA") = Ok {| dm_primary := $ "J" ++ times n $ "J"; dm_alternate := $ "A" ++ times n $ "H" |}
  /\ double_metaphone u None (times (S n) $ "JA" ++ $ "W") = Ok {| dm_primary := $ "J" ++ times n $ "J"; dm_alternate := $ "A" ++ times n $ "J" ++ $ "F" |}.
Proof.
  intros u n. rewrite GN_code, GNW_code, JA_code, JAW_code, !app_nil_r. repeat split.
Qed.
Lemma kinds : forall (f : N -> bool) n w, length (filter f (times n w)) = (n * length (filter f w))%nat.
Proof. induction n as [|n IH]; intros w; [reflexivity|]. rewrite times_S, filter_app, app_length, IH. reflexivity. Qed.
Theorem C93_double_metaphone_refuted : forall u k,
  ~ follows (fun c => c < 128) (fun s p => exists a, double_metaphone u None s = Ok {| dm_primary := p; dm_alternate := a |}) k
  /\ ~ follows (fun c => c < 128) (fun s a => exists p, double_metaphone u None s = Ok {| dm_primary := p; dm_alternate := a |}) k.
Proof.
  intros u k. destruct (C93_double_metaphone_W u (S k)) as (E1 & E2 & E3 & E4). split.
  - apply (too_far _ _ (fun c => c =? # "K") k (times (S (S k)) $ "GN" ++ $ "W") (times (S (S k)) $ "GN") ($ "N" ++ times (S k) $ "KN") ($ "N" ++ times (S k) $ "N")).
    + pose proof (missing (fun c => c < 128) (times (S (S k)) $ "GN") (# "W") [] ltac:(reflexivity)) as M. now rewrite app_nil_r in M.
    + eexists. exact E2.
    + eexists. exact E1.
    + rewrite !filter_app, !app_length, !kinds. cbn [filter N.eqb Pos.eqb length]. lia.
  - apply (too_far _ _ (fun c => c =? # "H") k (times (S (S k)) $ "JA") (times (S (S k)) $ "JA" ++ $ "W") ($ "A" ++ times (S k) $ "H") ($ "A" ++ times (S k) $ "J" ++ $ "F")).
    + pose proof (too_many (fun c => c < 128) (times (S (S k)) $ "JA") (# "W") [] ltac:(reflexivity)) as M. now rewrite app_nil_r in M.
    + eexists. exact E3.
    + eexists. exact E4.
    + rewrite !filter_app, !app_length, !kinds. cbn [filter N.eqb Pos.eqb length]. lia.
Qed.
Example C93_double_metaphone_nonvacuous : forall u,
  double_metaphone u None $ "GNGNGN" = Ok {| dm_primary := $ "NNN"; dm_alternate := $ "NKNKN" |}
  /\ double_metaphone u None $ "GNGNGNW" = Ok {| dm_primary := $ "NKNKN"; dm_alternate := $ "NKNKN" |}.
Proof. intros u. split; vm_compute; reflexivity. Qed.
