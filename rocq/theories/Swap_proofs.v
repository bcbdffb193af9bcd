(** * Neighbouring letters that may be swapped: general proofs. *)
From Verif Require Import Base BaseLemmas Spec_common Spec_doubled Spec_exchange Spec_leave_out Spec_swap Exchange_proofs.
Local Open Scope N_scope.

(** Letters that may be exchanged may be swapped: xy, yy, yx. *)
Lemma exchange_swap : forall A (outcome : ustr -> A) (before after : ustr -> Prop) x y,
  (forall a, before a -> before (a ++ [y])) -> (forall b, after b -> after (y :: b)) ->
  exchangeable outcome before after x y -> swappable outcome before after x y.
Proof.
  intros A outcome before after x y Kb Ka H a b Ba Bb. transitivity (outcome (a ++ y :: y :: b)).
  - apply H; [exact Ba|now apply Ka].
  - symmetry. specialize (H (a ++ [y]) b (Kb a Ba) Bb). rewrite <- !app_assoc in H. exact H.
Qed.
(** A letter that may be left out may be swapped with any other. *)
Lemma leave_out_swap : forall A (outcome : ustr -> A) (before texts after : ustr -> Prop) x y,
  (forall a, before a -> before (a ++ [y])) -> (forall a b, before a -> after b -> texts (a ++ y :: b)) ->
  may_be_left_out outcome before texts x -> swappable outcome before after x y.
Proof.
  intros A outcome before texts after x y Kb Kt H a b Ba Bb. rewrite (H a (y :: b) Ba (Kt a b Ba Bb)).
  specialize (H (a ++ [y]) b (Kb a Ba)). rewrite <- !app_assoc in H. symmetry. exact (H (Kt a b Ba Bb)).
Qed.
Lemma swap_sym : forall A (outcome : ustr -> A) (before after : ustr -> Prop) x y, swappable outcome before after x y -> swappable outcome before after y x.
Proof. intros A outcome before after x y H a b Ba Bb. symmetry. now apply H. Qed.

(** The other direction: enough texts show the order of all the other pairs. *)
Definition sparedb (groups : list ustr) (free : ustr) (x y : N) : bool := if togetherb groups x y then true else isin x free || isin y free.
Lemma sparedb_iff : forall groups free x y, sparedb groups free x y = true <-> spared groups free x y.
Proof.
  intros groups free x y. unfold sparedb, spared. rewrite <- togetherb_iff, <- !isin_In. destruct (togetherb groups x y); [tauto|].
  rewrite orb_true_iff. split; [now right|]. intros [H|H]; [discriminate H|exact H].
Qed.
Lemma shows_order : forall A (outcome : ustr -> A) (same : A -> A -> bool) before after groups free contexts,
  (forall a, same a a = true) ->
  (forall a b, In (a, b) contexts -> before a /\ after b) ->
  forallb (fun x => forallb (fun y => if sparedb groups free x y then true
    else existsb (fun ab => if same (outcome (fst ab ++ x :: y :: snd ab)) (outcome (fst ab ++ y :: x :: snd ab)) then false else true) contexts) AZ) AZ = true ->
  forall x y, # "A" <= x <= # "Z" -> # "A" <= y <= # "Z" -> swappable outcome before after x y -> spared groups free x y.
Proof.
  intros A outcome same before after groups free contexts Sm K C x y Rx Ry H. apply AZ_iff in Rx, Ry.
  rewrite forallb_forall in C. specialize (C x Rx). rewrite forallb_forall in C. specialize (C y Ry).
  apply sparedb_iff. destruct (sparedb groups free x y); [reflexivity|]. exfalso.
  apply existsb_exists in C as ((a, b) & I & C). cbn [fst snd] in C. destruct (K a b I) as [Ba Bb].
  rewrite (H a b Ba Bb), Sm in C. discriminate C.
Qed.
(** Kinds of texts that a capital letter does not change. *)
Lemma any_more : forall a y, any_text a -> any_text (a ++ [y]).
Proof. intros. exact I. Qed.
Lemma letter_more : forall a y, with_letter a -> with_letter (a ++ [y]).
Proof. intros a y (p & c & q & -> & H). exists p, c, (q ++ [y]). rewrite <- app_assoc. now split. Qed.
Lemma two_more : forall a y, with_two_letters a -> with_two_letters (a ++ [y]).
Proof. intros a y (p & c & q & d & r & -> & H). exists p, c, q, d, (r ++ [y]). split; [|exact H]. rewrite <- !app_assoc. cbn [app]. now rewrite <- app_assoc. Qed.
Lemma ascii_more : forall a y, # "A" <= y <= # "Z" -> ascii_text a -> ascii_text (a ++ [y]).
Proof. intros a y Y H c I. apply in_app_or in I as [I|[<-|[]]]; [now apply H|]. change (# "Z") with 90 in Y. lia. Qed.
Lemma ascii_front : forall b y, # "A" <= y <= # "Z" -> ascii_text b -> ascii_text (y :: b).
Proof. intros b y Y H c [<-|I]; [|now apply H]. change (# "Z") with 90 in Y. lia. Qed.
Lemma latin1_more : forall a y, # "A" <= y <= # "Z" -> latin1_text a -> latin1_text (a ++ [y]).
Proof. intros a y Y H c I. apply in_app_or in I as [I|[<-|[]]]; [now apply H|]. change (# "Z") with 90 in Y. lia. Qed.
