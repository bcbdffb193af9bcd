(** * C93: a spelling mistake moves the code a bounded way; and how close three codes are. *)
From Verif Require Import Base UnicodeM Lib Helper Soundex Cologne Metaphone BmRule BmLanguages Api
  BaseLemmas Spec_common Lib_proofs UnicodeLemmas Soundex_proofs Metaphone_proofs Spec_typo Typo_proofs Typo_metaphone_proofs.
Local Open Scope N_scope.

(** ** What a mistake is: nothing but the two texts *)
(** Each mistake adds or takes at most one character of any kind. *)
Lemma mistakes_kind : forall ok (f : N -> bool) n s t, mistakes ok n s t -> (length (filter f s) <= length (filter f t) + n)%nat.
Proof.
  intros ok f n s t H. induction H as [n s|n s t w M _ IH]; [lia|].
  destruct M as [a c b _|a c b _|a c d b _ _]; rewrite !filter_app, !app_length in *; cbn [filter] in *;
    repeat match goal with |- context [if f ?c then _ else _] => destruct (f c) | H : context [if f ?c then _ else _] |- _ => destruct (f c) end; cbn [length] in *; lia.
Qed.

(** ** The codes that follow *)
Theorem C93_refined : forall u m, length m = 26%nat -> follows (fun c => c < 128) (fun s p => refined_encode u m s = Ok p) 2.
Proof. exact refined_follows. Qed.
Theorem C93_cologne : forall u, follows (fun c => (length (to_upper u c) <= 1)%nat) (fun s p => cologne_encode u s = Ok p) 5.
Proof. exact cologne_follows. Qed.
Theorem C93_metaphone : forall u, follows (fun c => c < 128) (fun s p => ascii_str s /\ metaphone_encode u None s = Ok p) 5.
Proof. exact metaphone_follows. Qed.

(** ** No smaller number will do *)
Lemma too_far : forall ok (code : ustr -> ustr -> Prop) f k s t p q, mistake ok s t -> code s p -> code t q ->
  (length (filter f q) + k < length (filter f p))%nat -> ~ follows ok code k.
Proof.
  intros ok code f k s t p q M P Q L F.
  pose proof (mistakes_kind _ f _ _ _ (F 1%nat s t p q (one_more ok 0 s t t M (no_mistake ok 0 t)) P Q)). lia.
Qed.
Theorem C93_refined_reached : forall u k, (k < 2)%nat ->
  ~ follows (fun c => c < 128) (fun s p => refined_encode u ENGLISH_MAPPING s = Ok p) k.
Proof.
  intros u k K. apply (too_far _ _ (fun _ => true) _ ($ "ABA") ($ "AA") ($ "A010") ($ "A0")).
  - apply (missing _ ($ "A") (# "B") ($ "A")). reflexivity.
  - vm_compute. reflexivity.
  - vm_compute. reflexivity.
  - cbn. lia.
Qed.
Theorem C93_cologne_reached : forall u k, (k < 5)%nat ->
  ~ follows (fun c => (length (to_upper u c) <= 1)%nat) (fun s p => cologne_encode u s = Ok p) k.
Proof.
  intros u k K. apply (too_far _ _ (fun _ => true) _ ($ "CDXCX") ($ "CDSCX") ($ "824848") ($ "8")).
  - apply (mistaken _ ($ "CD") (# "X") (# "S") ($ "CX")); cbn; lia.
  - vm_compute. reflexivity.
  - vm_compute. reflexivity.
  - cbn. lia.
Qed.
Theorem C93_metaphone_reached : forall u k, (k < 5)%nat ->
  ~ follows (fun c => c < 128) (fun s p => ascii_str s /\ metaphone_encode u None s = Ok p) k.
Proof.
  intros u k K. apply (too_far _ _ (fun c => negb (isin c ($ "AJ"))) _ ($ "ADGXYA") ($ "ADGYA") ($ "ATKKSY") ($ "AJ")).
  - apply (missing _ ($ "ADG") (# "X") ($ "YA")). reflexivity.
  - split; [intros c I; cbn in I; repeat (destruct I as [<-|I]; [reflexivity|]); destruct I|vm_compute; reflexivity].
  - split; [intros c I; cbn in I; repeat (destruct I as [<-|I]; [reflexivity|]); destruct I|vm_compute; reflexivity].
  - cbn. lia.
Qed.
Example C93_nonvacuous : forall u,
  mistake (fun c => c < 128) ($ "Thompson") ($ "Thomson")
  /\ metaphone_encode u None ($ "Thompson") = Ok ($ "0MPSN") /\ metaphone_encode u None ($ "Thomson") = Ok ($ "0MSN")
  /\ refined_encode u ENGLISH_MAPPING ($ "Thompson") = Ok ($ "T6081308") /\ refined_encode u ENGLISH_MAPPING ($ "Thomson") = Ok ($ "T608308").
Proof.
  intros u. split; [|repeat split; vm_compute; reflexivity].
  apply (missing _ ($ "Thom") (# "p") ($ "son")). reflexivity.
Qed.

(** ** Three texts: how close two are limits how far a third can be *)
Lemma agreeing_triangle : forall b a c, (agreeing_positions a b + agreeing_positions b c <= length b + agreeing_positions a c)%nat.
Proof.
  induction b as [|y b IH]; intros a c.
  - rewrite (agreeing_nil_r a), agreeing_nil_l. cbn [length]. lia.
  - destruct a as [|x a]; [rewrite !agreeing_nil_l; pose proof (agreeing_le_l (y :: b) c); lia|].
    destruct c as [|z c]; [rewrite !agreeing_nil_r; pose proof (agreeing_le_r (x :: a) (y :: b)); lia|].
    specialize (IH a c). rewrite !agreeing_cons. cbn [length].
    destruct (N.eqb_spec x y), (N.eqb_spec y z), (N.eqb_spec x z); subst; try lia; now contradiction.
Qed.
Theorem C02_triangle : forall (enc : encoder) a b c m n k cb,
  difference enc a b = Ok m -> difference enc b c = Ok n -> difference enc a c = Ok k -> enc b = Ok cb -> (m + n <= length cb + k)%nat.
Proof.
  intros enc a b c m n k cb M N' K B.
  apply difference_spec in M as (ca & cb1 & A1 & B1 & ->). apply difference_spec in N' as (cb2 & cc & B2 & C2 & ->).
  apply difference_spec in K as (ca' & cc' & A3 & C3 & ->).
  rewrite B in B1, B2. injection B1 as <-. injection B2 as <-. rewrite A1 in A3. injection A3 as <-. rewrite C2 in C3. injection C3 as <-.
  apply agreeing_triangle.
Qed.
(** Two names that both have the whole code of a third have each other's, as far as that goes. *)
Theorem C02_shared : forall (enc : encoder) a b c cb k,
  enc b = Ok cb -> difference enc a b = Ok (length cb) -> difference enc b c = Ok (length cb) -> difference enc a c = Ok k -> (length cb <= k)%nat.
Proof. intros enc a b c cb k B M N' K. pose proof (C02_triangle enc a b c _ _ k cb M N' K B). lia. Qed.

(** ** The words of the error texts *)
Theorem C76_error_words : forall s,
  map phonetic_error_display (map BMErr [UnknownNameType s; UnknownRuleType s; ParseConfiguration s; WrongFilename s; WrongPhoneme s; BadContextRegex s; NotABoolean s; BadRule s])
  = [$ "Error : Unknown NameType " ++ s; $ "Error : Unknown RuleType " ++ s; $ "Error : Error reading files " ++ s; $ "Error : Wrong file name : " ++ s;
     $ "Error : Wrong phoneme : " ++ s; $ "Error : " ++ s; $ "Error : " ++ s ++ $ " is not a boolean"; $ "Error : Ill formated rule : " ++ s].
Proof. intros s. reflexivity. Qed.
