(** * The uppercase mappings contain no ASCII lowercase letter (hypothesis of some theorems). *)
From Verif Require Import Base UnicodeM Lib UnicodeLemmas UnicodeReal.
Local Open Scope N_scope.

(** No character has an ASCII lowercase letter in its uppercase: true of the real tables. *)
Definition UpperOK (u : Unicode) : Prop := forall c x, In x (to_upper u c) -> is_ascii_lower x = false.
Theorem real_upper_ok : UpperOK real_unicode.
Proof.
  intros c x H. destruct (N.ltb_spec c 256) as [L|L].
  - assert (G : forallb (fun c => forallb (fun x => negb (is_ascii_lower x)) (to_upper real_unicode c))
                  (map N.of_nat (seq 0 256)) = true) by (vm_compute; reflexivity).
    rewrite forallb_forall in G. assert (I : In c (map N.of_nat (seq 0 256))).
    { apply in_map_iff. exists (N.to_nat c). split; [lia|]. apply in_seq. lia. }
    apply G in I. rewrite forallb_forall in I. apply negb_true_iff. now apply I.
  - assert (E : to_upper real_unicode c = case_map upper_special upper_runs c).
    { unfold to_upper. destruct (N.ltb_spec c 256); [lia|reflexivity]. }
    rewrite E in H. unfold case_map in H. destruct (special c upper_special) as [v|] eqn:S.
    + pose proof (special_In _ _ _ S) as I.
      assert (G : forallb (fun kv : N * ustr => forallb (fun x => negb (is_ascii_lower x)) (snd kv)) upper_special = true)
        by (vm_compute; reflexivity).
      rewrite forallb_forall in G. apply G in I. cbn [snd] in I. rewrite forallb_forall in I.
      apply negb_true_iff. now apply I.
    + destruct (find (run_has c) upper_runs) as [r|] eqn:F.
      * apply find_some in F as [F1 F2].
        assert (Z : forallb (fun r : UnicodeReal.run => let '(_, _, step, _) := r in negb (step =? 0)) upper_runs = true) by (vm_compute; reflexivity).
        rewrite forallb_forall in Z. pose proof (Z _ F1) as Z1.
        apply run_has_expand in F2; [|destruct r as [[[? ?] st] ?]; destruct (N.eqb_spec st 0); [discriminate|assumption]].
        assert (G : forallb (fun r => forallb (fun c => negb (is_ascii_lower (run_map c r))) (expand r)) upper_runs = true) by (vm_compute; reflexivity).
        rewrite forallb_forall in G. apply G in F1. rewrite forallb_forall in F1. apply F1 in F2.
        destruct H as [<-|[]]. now apply negb_true_iff.
      * destruct H as [<-|[]]. unfold is_ascii_lower. apply andb_false_iff. right. apply N.leb_gt. lia.
Qed.

(** Whatever is ASCII in the uppercase of a letter is one of A to Z: true of the real tables. *)
Definition LettersOK (u : Unicode) : Prop :=
  forall c x, is_alphabetic u c = true -> In x (to_upper u c) -> x < 128 -> is_ascii_upper x = true.
Theorem real_letters_ok : LettersOK real_unicode.
Proof.
  intros c x A H X. destruct (N.ltb_spec c 256) as [L|L].
  - assert (G : forallb (fun c => implb (is_alphabetic real_unicode c)
                  (forallb (fun x => implb (x <? 128) (is_ascii_upper x)) (to_upper real_unicode c)))
                  (map N.of_nat (seq 0 256)) = true) by (vm_compute; reflexivity).
    rewrite forallb_forall in G. assert (I : In c (map N.of_nat (seq 0 256))).
    { apply in_map_iff. exists (N.to_nat c). split; [lia|]. apply in_seq. lia. }
    apply G in I. rewrite A in I. cbn [implb] in I. rewrite forallb_forall in I. apply I in H.
    apply N.ltb_lt in X. now rewrite X in H.
  - assert (E : to_upper real_unicode c = case_map upper_special upper_runs c).
    { unfold to_upper. destruct (N.ltb_spec c 256); [lia|reflexivity]. }
    rewrite E in H. unfold case_map in H. clear E A. destruct (special c upper_special) as [v|] eqn:S.
    + pose proof (special_In _ _ _ S) as I.
      assert (G : forallb (fun kv : N * ustr => forallb (fun x => implb (x <? 128) (is_ascii_upper x)) (snd kv)) upper_special = true)
        by (vm_compute; reflexivity).
      rewrite forallb_forall in G. apply G in I. cbn [snd] in I. rewrite forallb_forall in I.
      apply I in H. apply N.ltb_lt in X. now rewrite X in H.
    + destruct (find (run_has c) upper_runs) as [r|] eqn:F.
      * apply find_some in F as [F1 F2].
        assert (Z : forallb (fun r : UnicodeReal.run => let '(_, _, step, _) := r in negb (step =? 0)) upper_runs = true) by (vm_compute; reflexivity).
        rewrite forallb_forall in Z. pose proof (Z _ F1) as Z1.
        apply run_has_expand in F2; [|destruct r as [[[? ?] st] ?]; destruct (N.eqb_spec st 0); [discriminate|assumption]].
        assert (G : forallb (fun r => forallb (fun c => implb (run_map c r <? 128) (is_ascii_upper (run_map c r))) (expand r)) upper_runs = true) by (vm_compute; reflexivity).
        rewrite forallb_forall in G. apply G in F1. rewrite forallb_forall in F1. apply F1 in F2.
        destruct H as [<-|[]]. apply N.ltb_lt in X. now rewrite X in F2.
      * destruct H as [<-|[]]. lia.
Qed.

(** The cleaned text under that hypothesis. *)
Lemma clean_letters u s c : LettersOK u -> In c (soundex_clean u s) -> c < 128 -> is_ascii_upper c = true.
Proof.
  intros L. unfold soundex_clean. rewrite in_flat_map. intros [x [X I]] Y. apply filter_In in X as [X X1]. now apply (L x).
Qed.
