(** * Counting words. *)
From Verif Require Import Base BaseLemmas Spec_common Spec_codes Spec_how_many.
Local Open Scope N_scope.

Lemma hm_ext : forall A (P Q : A -> Prop) k, (forall x, P x <-> Q x) -> how_many P k -> how_many Q k.
Proof. intros A P Q k E (l & N & L & I). exists l. split; [exact N|split; [exact L|]]. intros x. now rewrite I, E. Qed.
Lemma nodup_app : forall A (a b : list A), NoDup a -> NoDup b -> (forall x, In x a -> In x b -> False) -> NoDup (a ++ b).
Proof.
  induction a as [|x a IH]; intros b Na Nb D; [exact Nb|]. inversion Na as [|? ? NI Na']; subst. cbn [app]. constructor.
  - intros I. apply in_app_or in I as [I|I]; [contradiction|]. apply (D x); [now left|exact I].
  - apply IH; [exact Na'|exact Nb|]. intros y Iy. apply D. now right.
Qed.
Lemma hm_union : forall A (P Q : A -> Prop) j k, (forall x, P x -> Q x -> False) -> how_many P j -> how_many Q k -> how_many (fun x => P x \/ Q x) (j + k).
Proof.
  intros A P Q j k D (l & N & L & I) (m & N' & L' & I'). exists (l ++ m). split; [|split].
  - apply nodup_app; [exact N|exact N'|]. intros x H H'. apply (D x); [now apply I|now apply I'].
  - rewrite app_length. lia.
  - intros x. rewrite in_app_iff, I, I'. reflexivity.
Qed.
Lemma hm_image : forall A B (f : A -> B) (P : A -> Prop) k, (forall x y, P x -> P y -> f x = f y -> x = y) -> how_many P k ->
  how_many (fun y => exists x, P x /\ y = f x) k.
Proof.
  intros A B f P k J (l & N & L & I). exists (map f l). split; [|split].
  - clear L. assert (K : forall x, In x l -> P x) by (intros x; apply I). clear I. induction N as [|x l NI N IH]; [constructor|]. cbn [map]. constructor.
    + intros H. apply in_map_iff in H as (y & E & Iy). apply NI. rewrite <- (J y x); [exact Iy|apply K; now right|apply K; now left|exact E].
    + apply IH. intros y Iy. apply K. now right.
  - now rewrite map_length.
  - intros y. rewrite in_map_iff. split.
    + intros (x & <- & Ix). exists x. split; [now apply I|reflexivity].
    + intros (x & Px & ->). exists x. split; [reflexivity|now apply I].
Qed.
Lemma hm_pairs : forall A B (P : A -> Prop) (Q : B -> Prop) j k, how_many P j -> how_many Q k -> how_many (fun p => P (fst p) /\ Q (snd p)) (j * k).
Proof.
  intros A B P Q j k (l & N & L & I) (m & N' & L' & I'). exists (list_prod l m). split; [|split].
  - clear L I. induction N as [|x l NI N IH]; [constructor|]. cbn [list_prod]. apply nodup_app; [|exact IH|].
    + clear L' I' IH. induction N' as [|y m NI' N' IHm]; [constructor|]. cbn [map]. constructor; [|exact IHm].
      intros H. apply in_map_iff in H as (z & [= ->] & Iz). contradiction.
    + intros (a & b) H H'. apply in_map_iff in H as (z & [= -> ->] & Iz). apply in_prod_iff in H' as [H' _]. contradiction.
  - rewrite prod_length. lia.
  - intros (a & b). rewrite in_prod_iff, I, I'. reflexivity.
Qed.
Lemma hm_members : forall set : ustr, NoDup set -> how_many (fun c => In c set) (N.of_nat (length set)).
Proof. intros set H. exists set. split; [exact H|split; reflexivity]. Qed.
Lemma hm_one : forall A (x : A), how_many (fun y => y = x) 1.
Proof. intros A x. exists [x]. split; [constructor; [intros []|constructor]|split; [reflexivity|]]. intros y. cbn. split; [intros [H|[]]; congruence|intros H; left; congruence]. Qed.

(** A letter of [set] in front of the words of [P]. *)
Lemma hm_cons : forall (set : ustr) (P : ustr -> Prop) k, NoDup set -> how_many P k ->
  how_many (fun w : ustr => exists c v, In c set /\ P v /\ w = c :: v) (N.of_nat (length set) * k).
Proof.
  intros set P k D H. pose proof (hm_pairs _ _ _ _ _ _ (hm_members set D) H) as K.
  apply (hm_image _ _ (fun p => fst p :: snd p)) in K.
  - revert K. apply hm_ext. intros w. split; [intros ((c, v) & [Ic Pv] & ->); now exists c, v|intros (c & v & Ic & Pv & ->); exists (c, v); now split].
  - intros (a & b) (c & d) _ _ E. cbn in E. now injection E as -> ->.
Qed.
(** 1 + b + ... + b^n *)
Fixpoint sum_to (b : N) (n : nat) : N := match n with O => 1 | S n => 1 + b * sum_to b n end.
Lemma hm_short : forall (set : ustr) n, NoDup set -> how_many (fun w : ustr => made_of set w /\ (length w <= n)%nat) (sum_to (N.of_nat (length set)) n).
Proof.
  intros set n D. induction n as [|n IH]; cbn [sum_to].
  - apply (hm_ext _ (fun w : ustr => w = [])); [|apply hm_one]. intros w. split; [intros ->; split; [intros c []|cbn; lia]|].
    intros [_ L]. destruct w; [reflexivity|cbn in L; lia].
  - apply (hm_ext _ (fun w : ustr => w = [] \/ exists c v, In c set /\ (made_of set v /\ (length v <= n)%nat) /\ w = c :: v)).
    + intros w. split.
      * intros [->|(c & v & Ic & [M L] & ->)]; [split; [intros c []|cbn; lia]|]. split; [|cbn; lia]. intros d [<-|I]; [exact Ic|now apply M].
      * intros [M L]. destruct w as [|c v]; [now left|right]. exists c, v. split; [apply M; now left|]. split; [|reflexivity].
        split; [intros d I; apply M; now right|cbn in L; lia].
    + apply hm_union; [|apply hm_one|now apply hm_cons]. intros w -> (c & v & _ & _ & E). discriminate E.
Qed.

(** Filling up. *)
Lemma filled_injective : forall fill n (v w : ustr), ~ In fill v -> ~ In fill w -> (length v <= n)%nat -> (length w <= n)%nat ->
  v ++ repeat fill (n - length v) = w ++ repeat fill (n - length w) -> v = w.
Proof.
  intros fill n v. revert n. induction v as [|c v IH]; intros n [|d w] Nv Nw Lv Lw E; [reflexivity|exfalso..|].
  - destruct n as [|n]; [cbn in Lw; lia|]. cbn [app length repeat Nat.sub] in E. injection E as E _. apply Nw. now left.
  - destruct n as [|n]; [cbn in Lv; lia|]. cbn [app length repeat Nat.sub] in E. injection E as E _. apply Nv. now left.
  - destruct n as [|n]; [cbn in Lv; lia|]. cbn [app length Nat.sub] in E. injection E as -> E. f_equal.
    apply (IH n); [intros I; apply Nv; now right|intros I; apply Nw; now right|cbn in Lv; lia|cbn in Lw; lia|exact E].
Qed.
Lemma hm_filled : forall fill n (P : ustr -> Prop) k, (forall w, P w -> ~ In fill w /\ (length w <= n)%nat) -> how_many P k ->
  how_many (fun code => exists w, P w /\ filled n fill w code) k.
Proof.
  intros fill n P k H K. apply (hm_image _ _ (fun w : ustr => w ++ repeat fill (n - length w))) in K.
  - revert K. apply hm_ext. intros code. unfold filled. split.
    + intros (w & Pw & ->). exists w. split; [exact Pw|]. split; [apply H, Pw|reflexivity].
    + intros (w & Pw & _ & ->). exists w. now split.
  - intros v w Pv Pw. destruct (H v Pv), (H w Pw). now apply filled_injective.
Qed.

(** A letter of [set] in front of words that depend on it. *)
Lemma hm_cons_dep : forall (set : ustr) (P : N -> ustr -> Prop) k, NoDup set -> (forall c, In c set -> how_many (P c) k) ->
  how_many (fun w : ustr => exists c v, In c set /\ P c v /\ w = c :: v) (N.of_nat (length set) * k).
Proof.
  intros set P k D. induction D as [|x set NI D IH]; intros H.
  - exists []. split; [constructor|split; [reflexivity|]]. intros w. split; [intros []|intros (c & v & [] & _)].
  - apply (hm_ext _ (fun w : ustr => (exists v, P x v /\ w = x :: v) \/ exists c v, In c set /\ P c v /\ w = c :: v)).
    + intros w. split.
      * intros [(v & Pv & ->)|(c & v & Ic & Pv & ->)]; [exists x, v|exists c, v]; cbn [In]; auto.
      * intros (c & v & [<-|Ic] & Pv & ->); [left; now exists v|right; now exists c, v].
    + replace (N.of_nat (length (x :: set)) * k) with (k + N.of_nat (length set) * k) by (cbn [length]; lia).
      apply hm_union; [|apply (hm_image _ _ (cons x)); [intros v w _ _ [= ->]; reflexivity|apply H; now left]|apply IH; intros c Ic; apply H; now right].
      intros w (v & _ & ->) (c & v' & Ic & _ & [= <- _]). contradiction.
Qed.
(** Words of six letters without repetitions, after a letter of the set, or after another one. *)
Definition unrepeated (set : ustr) (before : N) (n : nat) (w : ustr) : Prop :=
  made_of set w /\ no_adjacent_equal (before :: w) /\ (length w <= n)%nat.
Lemma unrepeated_S : forall set before n w, unrepeated set before (S n) w <->
  w = [] \/ exists c v, In c (filter (fun c => negb (c =? before)) set) /\ unrepeated set c n v /\ w = c :: v.
Proof.
  intros set before n w. unfold unrepeated. split.
  - intros (M & A & L). destruct w as [|c v]; [now left|right]. exists c, v. split; [|split; [|reflexivity]].
    + apply filter_In. split; [apply M; now left|]. apply negb_true_iff, N.eqb_neq. cbn in A. destruct A as [A _]. congruence.
    + split; [intros d I; apply M; now right|]. split; [cbn in A; apply A|cbn in L; lia].
  - intros [->|(c & v & Ic & (M & A & L) & ->)]; [split; [intros c []|split; [cbn; auto|cbn; lia]]|].
    apply filter_In in Ic as [Ic NE]. apply negb_true_iff, N.eqb_neq in NE.
    split; [intros d [<-|I]; [exact Ic|now apply M]|]. split; [|cbn; lia]. cbn. split; [congruence|exact A].
Qed.
Definition six : ustr := $ "123456".
Lemma six_but : forall d, In d six -> filter (fun c => negb (c =? d)) six <> [] /\ NoDup (filter (fun c => negb (c =? d)) six)
  /\ N.of_nat (length (filter (fun c => negb (c =? d)) six)) = 5.
Proof.
  intros d I. vm_compute in I. repeat (destruct I as [<-|I]; [split; [discriminate|split; [|reflexivity]]; vm_compute;
    repeat (apply NoDup_cons; [intros J; cbn [In] in J; repeat (destruct J as [J|J]; [discriminate J|]); destruct J|]); apply NoDup_nil|]). destruct I.
Qed.
Lemma six_all : forall d, ~ In d six -> filter (fun c => negb (c =? d)) six = six.
Proof.
  intros d NI. assert (E : forall c, In c six -> negb (c =? d) = true) by (intros c Ic; apply negb_true_iff, N.eqb_neq; congruence).
  assert (G : forall l : ustr, (forall c, In c l -> negb (c =? d) = true) -> filter (fun c => negb (c =? d)) l = l).
  { induction l as [|c l IH]; intros H; [reflexivity|]. cbn [filter]. rewrite (H c) by now left. f_equal. apply IH. intros x I. apply H. now right. }
  now apply G.
Qed.
Lemma six_nodup : NoDup six.
Proof. vm_compute. repeat (apply NoDup_cons; [intros J; cbn [In] in J; repeat (destruct J as [J|J]; [discriminate J|]); destruct J|]). apply NoDup_nil. Qed.
Lemma hm_step : forall d n k set, filter (fun c => negb (c =? d)) six = set -> NoDup set -> (forall c, In c set -> how_many (unrepeated six c n) k) ->
  how_many (unrepeated six d (S n)) (1 + N.of_nat (length set) * k).
Proof.
  intros d n k set E D H. apply (hm_ext _ (fun w : ustr => w = [] \/ exists c v, In c set /\ unrepeated six c n v /\ w = c :: v)).
  - intros w. rewrite unrepeated_S, E. reflexivity.
  - apply hm_union; [intros w -> (c & v & _ & _ & X); discriminate X|apply hm_one|now apply hm_cons_dep].
Qed.
Lemma hm_unrepeated_in : forall n d, In d six -> how_many (unrepeated six d n) (sum_to 5 n).
Proof.
  induction n as [|n IH]; intros d Id.
  - apply (hm_ext _ (fun w : ustr => w = [])); [|apply hm_one]. intros w. unfold unrepeated. split; [intros ->; split; [intros c []|split; cbn; auto]|].
    intros (_ & _ & L). destruct w; [reflexivity|cbn in L; lia].
  - destruct (six_but d Id) as (_ & D & E). cbn [sum_to]. replace (1 + 5 * sum_to 5 n) with (1 + N.of_nat (length (filter (fun c => negb (c =? d)) six)) * sum_to 5 n) by now rewrite E. apply hm_step; [reflexivity|exact D|].
    intros c Ic. apply filter_In in Ic as [Ic _]. now apply IH.
Qed.
Lemma hm_unrepeated_out : forall n d, ~ In d six -> how_many (unrepeated six d (S n)) (1 + 6 * sum_to 5 n).
Proof.
  intros n d NI. change 6 with (N.of_nat (length six)). apply hm_step; [now apply six_all|exact six_nodup|].
  intros c Ic. now apply hm_unrepeated_in.
Qed.
