(** * C81: how many codes there are. *)
From Verif Require Import Base UnicodeM Lib Soundex Caverphone Helper Phonex Metaphone DoubleMetaphone RulesParser DaitchMokotoff DmRules
  BaseLemmas Spec_common Spec_soundex Spec_codes Spec_how_many Props_caverphone_spec How_many_proofs Props_codes.
Local Open Scope N_scope.

Ltac nodup := repeat (apply NoDup_cons; [intros I; cbn [In] in I; repeat (destruct I as [I|I]; [discriminate I|]); destruct I|]); apply NoDup_nil.
(** Soundex: the empty code and 26 * (1 + 6 + 36 + 216) others. *)
Theorem C81_how_many_soundex : forall u, how_many (fun code => exists s, soundex_encode u soundex_default s = Ok code) 6735.
Proof.
  intros u. apply (hm_ext _ (fun code => code = [] \/ exists w, (exists f digits, In f $ "ABCDEFGHIJKLMNOPQRSTUVWXYZ"
    /\ (made_of $ "123456" digits /\ (length digits <= 3)%nat) /\ w = f :: digits) /\ filled 4 (# "0") w code)).
  - intros code. rewrite C81_soundex. unfold soundex_form. split.
    + intros [->|(w & (f & digits & If & [M L] & ->) & F)]; [now left|right]. now exists f, digits.
    + intros [->|(f & digits & If & M & F)]; [now left|right]. exists (f :: digits). split; [|exact F]. exists f, digits.
      split; [exact If|split; [split; [exact M|]|reflexivity]]. destruct F as [F _]. cbn [length] in F. lia.
  - change 6735 with (1 + N.of_nat (length $ "ABCDEFGHIJKLMNOPQRSTUVWXYZ") * sum_to (N.of_nat (length $ "123456")) 3).
    apply hm_union; [|apply hm_one|].
    + intros code -> (w & (f & digits & _ & _ & ->) & _ & E). discriminate E.
    + apply hm_filled; [|apply hm_cons; [nodup|apply hm_short; nodup]].
      intros w (f & digits & If & [M L] & ->). split; [|cbn [length]; lia]. intros [E|I]; [subst f; vm_compute in If|apply M in I; vm_compute in I];
        repeat match goal with H : _ \/ _ |- _ => destruct H as [H|H]; [discriminate H|] end; contradiction.
Qed.
Ltac out_of H := vm_compute in H; repeat (destruct H as [H|H]; [discriminate H|]); destruct H.

(** Caverphone 1 *)
Theorem C81_how_many_caverphone1 : forall u,
  how_many (fun code => exists s, (forall c, In c (letters_of u s) -> c < 128) /\ caverphone1_encode u s = Ok code) 2125873.
Proof.
  intros u. apply (hm_ext _ (fun code => exists w, ((made_of $ "FKLMNPRSTWY" w /\ (length w <= 6)%nat)
    \/ (exists c v, In c $ "A" /\ (made_of $ "FKLMNPRSTWY" v /\ (length v <= 5)%nat) /\ w = c :: v)) /\ filled 6 (# "1") w code)).
  - intros code. rewrite C81_caverphone1. unfold caverphone1_form. split.
    + intros (w & [[M L]|(c & v & [<-|[]] & [M L] & ->)] & F); [exists [], w|exists $ "A", v]; auto.
    + intros (front & body & [->| ->] & M & F); eexists; (split; [|exact F]); cbn [app] in *; destruct F as [F _]; [left; now split|right].
      exists (# "A"), body. split; [now left|split; [split; [exact M|]|reflexivity]]. cbn [app length] in F. lia.
  - apply hm_filled.
    + intros w [[M L]|(c & v & [<-|[]] & [M L] & ->)]; (split; [|cbn [length]; lia]); [intros I; apply M in I; out_of I|].
      intros [I|I]; [discriminate I|apply M in I; out_of I].
    + change 2125873 with (sum_to (N.of_nat (length $ "FKLMNPRSTWY")) 6 + N.of_nat (length $ "A") * sum_to (N.of_nat (length $ "FKLMNPRSTWY")) 5).
      apply hm_union; [|apply hm_short; nodup|apply hm_cons; [nodup|apply hm_short; nodup]].
      intros w [M _] (c & v & [<-|[]] & _ & ->). specialize (M (# "A") ltac:(now left)). out_of M.
Qed.

(** Daitch-Mokotoff with the embedded rules *)
Theorem C81_how_many_daitch_mokotoff : forall u, how_many (fun code => exists s, dms_encode u dms_default s = Ok code) 374490.
Proof.
  intros u. set (D := $ "13456789").
  apply (hm_ext _ (fun code => (exists w, ((made_of D w /\ (length w <= 6)%nat) \/ (exists c v, In c $ "2" /\ (made_of D v /\ (length v <= 5)%nat) /\ w = c :: v)) /\ filled 6 (# "0") w code)
    \/ (exists x, (exists w, (exists c v, In c D /\ (made_of D v /\ (length v <= 4)%nat) /\ w = c :: v) /\ filled 5 (# "0") w x) /\ code = # "0" :: x))).
  - intros code. rewrite C81_daitch_mokotoff_encode. unfold daitch_form. fold D. split.
    + intros [(w & [[M L]|(c & v & [<-|[]] & [M L] & ->)] & F)|(x & (w & (c & v & Ic & [M L] & ->) & [F ->]) & ->)].
      * exists [], w. cbn [In app]. auto.
      * exists $ "2", v. cbn [In app]. auto.
      * exists $ "0", (c :: v). split; [cbn [In]; auto|]. split; [intros d [<-|I]; [exact Ic|now apply M]|]. split; [cbn [app length] in *; lia|reflexivity].
    + intros (front & digits & [<-|[<-|[<-|[]]]] & M & [L ->]); cbn [app] in *.
      * left. exists digits. split; [left; now split|now split].
      * destruct digits as [|c v]; [left; exists []; split; [left; split; [intros d []|cbn; lia]|split; [cbn; lia|reflexivity]]|right].
        exists ((c :: v) ++ repeat (# "0") (5 - length (c :: v))). split; [|reflexivity]. exists (c :: v). cbn [length] in L. split; [|split; [cbn [length]; lia|reflexivity]].
        exists c, v. split; [apply M; now left|split; [split; [intros d I; apply M; now right|lia]|reflexivity]].
      * left. exists (# "2" :: digits). cbn [length] in L. split; [right; exists (# "2"), digits; split; [now left|split; [split; [exact M|lia]|reflexivity]]|split; [cbn [length]; lia|reflexivity]].
  - change 374490 with ((sum_to (N.of_nat (length D)) 6 + N.of_nat (length $ "2") * sum_to (N.of_nat (length D)) 5) + N.of_nat (length D) * sum_to (N.of_nat (length D)) 4).
    assert (ND : NoDup D) by (unfold D; nodup).
    apply hm_union.
    + intros code (w & W & [L ->]) (x & (w' & (c & v & Ic & _ & ->) & [_ ->]) & E). destruct w as [|d w].
      * cbn [app length Nat.sub repeat] in E. injection E as E _. subst c. out_of Ic.
      * cbn [app] in E. injection E as -> _. destruct W as [[M _]|(e & v' & [<-|[]] & _ & E)]; [specialize (M (# "0") ltac:(now left)); out_of M|discriminate E].
    + apply hm_filled.
      * intros w [[M L]|(c & v & [<-|[]] & [M L] & ->)]; (split; [|cbn [length]; lia]); [intros I; apply M in I; out_of I|].
        intros [I|I]; [discriminate I|apply M in I; out_of I].
      * apply hm_union; [|now apply hm_short|apply hm_cons; [nodup|now apply hm_short]].
        intros w [M _] (c & v & [<-|[]] & _ & ->). specialize (M (# "2") ltac:(now left)). out_of M.
    + apply hm_image; [intros v w _ _ E; now injection E|]. apply hm_filled; [|apply hm_cons; [exact ND|now apply hm_short]].
      intros w (c & v & Ic & [M L] & ->). split; [|cbn [length]; lia]. intros [I|I]; [subst c; out_of Ic|apply M in I; out_of I].
Qed.

(** Primary codes of Double Metaphone, at most 4 characters *)
Theorem C81_how_many_double_metaphone : forall u,
  how_many (fun code => exists s alternate, double_metaphone u (Some 4%nat) s = Ok {| dm_primary := code; dm_alternate := alternate |}) 33321.
Proof.
  intros u. apply (hm_ext _ (fun code : ustr => (made_of $ "FHJKLMNPRSTX0" code /\ (length code <= 4)%nat)
    \/ (exists c v, In c $ "A" /\ (made_of $ "FHJKLMNPRSTX0" v /\ (length v <= 3)%nat) /\ code = c :: v))).
  - intros code. rewrite C81_double_metaphone_limit. unfold double_metaphone_form. split.
    + intros [[M L]|(c & v & [<-|[]] & [M L] & ->)]; [split; [exists code; now split; [|left]|exact L]|].
      split; [exists v; split; [exact M|now right]|cbn [length]; lia].
    + intros [(sounds & M & [->| ->]) L]; [left; now split|right]. exists (# "A"), sounds. cbn [length] in L.
      split; [now left|split; [split; [exact M|lia]|reflexivity]].
  - change 33321 with (sum_to (N.of_nat (length $ "FHJKLMNPRSTX0")) 4 + N.of_nat (length $ "A") * sum_to (N.of_nat (length $ "FHJKLMNPRSTX0")) 3).
    apply hm_union; [|apply hm_short; nodup|apply hm_cons; [nodup|apply hm_short; nodup]].
    intros w [M _] (c & v & [<-|[]] & _ & ->). specialize (M (# "A") ltac:(now left)). out_of M.
Qed.
(** Phonex codes of four characters *)
Theorem C81_how_many_phonex : forall u,
  how_many (fun code => exists s, letters_are_ascii (is_alphabetic u) s /\ phonex_encode u 4 s = Ok code) 2806.
Proof.
  intros u. apply (hm_ext _ (fun code => code = repeat (# "0") 4 \/ exists w, (exists f digits, In f $ "ABCDFGHLMNRSTWX"
    /\ unrepeated six (# "0") 3 digits /\ w = f :: digits) /\ filled 4 (# "0") w code)).
  - intros code. rewrite C81_phonex by lia. unfold phonex_form. split.
    + intros [->|(w & (f & digits & If & (M & A & L) & ->) & F)]; [now left|right]. exists f, digits. split; [exact If|split; [exact M|split; [|exact F]]].
      destruct digits; [exact Logic.I|apply A].
    + intros [->|(f & digits & If & M & A & F)]; [now left|right]. exists (f :: digits). split; [|exact F]. exists f, digits.
      split; [exact If|split; [|reflexivity]]. split; [exact M|split; [|destruct F as [F _]; cbn [length] in F; lia]].
      destruct digits as [|d digits]; [exact Logic.I|]. split; [|exact A]. intros E. specialize (M d ltac:(now left)). subst d. out_of M.
  - change 2806 with (1 + N.of_nat (length $ "ABCDFGHLMNRSTWX") * (1 + 6 * sum_to 5 2)).
    apply hm_union; [|apply hm_one|].
    + intros code -> (w & (f & digits & If & _ & ->) & _ & E). cbn [app repeat] in E. injection E as E _. subst f. out_of If.
    + apply hm_filled; [|apply hm_cons; [nodup|apply hm_unrepeated_out; intros I; out_of I]].
      intros w (f & digits & If & (M & _ & L) & ->). split; [|cbn [length]; lia]. intros [E|I]; [subst f; out_of If|apply M in I; out_of I].
Qed.

(** Genealogy Soundex *)
Theorem C81_how_many_genealogy : forall u,
  how_many (fun code => exists s, soundex_encode u (soundex_from DEFAULT_US_ENGLISH_GENEALOGY_MAPPING_SOUNDEX) s = Ok code) 4305.
Proof.
  intros u. set (quiet := $ "AEIOUHWY"). set (loud := $ "BCDFGJKLMNPQRSTVXZ").
  assert (K : forall f, In f $ "ABCDEFGHIJKLMNOPQRSTUVWXYZ" <-> In f quiet \/ In f loud).
  { intros f. unfold quiet, loud. cbn. tauto. }
  assert (Q : forall f, In f quiet -> american_digit f = # "0") by (intros f I; cbn in I; repeat (destruct I as [<-|I]; [reflexivity|]); destruct I).
  assert (L : forall f, In f loud -> In (american_digit f) six) by (intros f I; cbn in I; repeat (destruct I as [<-|I]; [vm_compute; tauto|]); destruct I).
  apply (hm_ext _ (fun code => code = [] \/ exists w,
    ((exists f digits, In f quiet /\ unrepeated six (# "0") 3 digits /\ w = f :: digits)
     \/ (exists f digits, In f loud /\ unrepeated six (american_digit f) 3 digits /\ w = f :: digits)) /\ filled 4 (# "0") w code)).
  - intros code. rewrite C81_genealogy. unfold genealogy_form. split.
    + intros [->|(w & [(f & digits & If & (M & A & Le) & ->)|(f & digits & If & (M & A & Le) & ->)] & F)]; [now left|right..]; exists f, digits.
      * rewrite (Q f If). split; [apply K; now left|now split].
      * split; [apply K; now right|now split].
    + intros [->|(f & digits & If & M & A & F)]; [now left|right]. exists (f :: digits). split; [|exact F].
      assert (Le : (length digits <= 3)%nat) by (destruct F as [F _]; cbn [length] in F; lia).
      apply K in If as [If|If]; [left|right]; exists f, digits; (split; [exact If|split; [|reflexivity]]); [rewrite (Q f If) in A|]; now split.
  - change 4305 with (1 + (N.of_nat (length quiet) * (1 + 6 * sum_to 5 2) + N.of_nat (length loud) * sum_to 5 3)).
    apply hm_union; [|apply hm_one|].
    + intros code -> (w & [(f & digits & _ & _ & ->)|(f & digits & _ & _ & ->)] & _ & E); discriminate E.
    + apply hm_filled.
      * assert (Z : forall f, In f quiet \/ In f loud -> f <> # "0") by (intros f I ->; apply K in I; out_of I).
        intros w [(f & digits & If & (M & _ & Le) & ->)|(f & digits & If & (M & _ & Le) & ->)]; (split; [|cbn [length]; lia]);
          (intros [E|I]; [apply (Z f); [tauto|exact E]|apply M in I; out_of I]).
      * apply hm_union.
        -- intros w (f & digits & If & _ & ->) (g & digits' & Ig & _ & E). injection E as <- _. apply L in Ig. rewrite (Q f If) in Ig. out_of Ig.
        -- apply hm_cons; [unfold quiet; nodup|apply hm_unrepeated_out; intros I; out_of I].
        -- apply hm_cons_dep; [unfold loud; nodup|]. intros f If. apply hm_unrepeated_in. now apply L.
Qed.

(** Metaphone codes of at most four characters (the default limit) of ASCII texts *)
Theorem C81_how_many_metaphone : forall u, how_many (fun code => exists s, ascii_str s /\ metaphone_encode u (Some 4%nat) s = Ok code) 91831.
Proof.
  intros u. set (S := $ "BFHJKLMNPRSTWXY0"). set (V := $ "AEIOU").
  set (others := filter (fun c => negb ((97 <=? c) && (c <=? 122)) && negb (isin c S) && negb (isin c V)) (map N.of_nat (seq 0 128))).
  assert (O : forall c, In c others <-> c < 128 /\ ~ (97 <= c <= 122) /\ ~ In c S /\ ~ In c V).
  { intros c. unfold others. rewrite filter_In, in_map_iff, !andb_true_iff, !negb_true_iff, andb_false_iff, !N.leb_gt, <- !not_true_iff_false, !isin_In.
    split.
    - intros ((k & <- & I) & (R & A) & B). apply in_seq in I. repeat split; [lia|lia|exact A|exact B].
    - intros (R & T & A & B). split; [exists (N.to_nat c); split; [lia|apply in_seq; lia]|]. split; [split; [lia|exact A]|exact B]. }
  apply (hm_ext _ (fun code : ustr => (exists c, In c others /\ code = [c]) \/ ((made_of S code /\ (length code <= 4)%nat)
    \/ (exists c v, In c V /\ (made_of S v /\ (length v <= 3)%nat) /\ code = c :: v)))).
  - intros code. rewrite C81_metaphone_limit. unfold metaphone_form. fold S V. split.
    + intros [(c & Ic & ->)|[[M Le]|(c & v & Ic & [M Le] & ->)]].
      * apply O in Ic as (R & T & _). split; [left; now exists c|cbn; lia].
      * split; [right; exists code; auto|cbn; lia].
      * split; [right; exists v; split; [exact M|right; now exists c]|cbn [length]; cbn; lia].
    + intros [[(c & R & T & ->)|(sounds & M & [->|(v & Iv & ->)])] Le].
      * destruct (isin c S) eqn:IS; [right; left; split; [intros d [<-|[]]; now apply isin_In|cbn; lia]|].
        destruct (isin c V) eqn:IV; [right; right; exists c, []; split; [now apply isin_In|split; [split; [intros d []|cbn; lia]|reflexivity]]|].
        left. exists c. split; [|reflexivity]. apply O. rewrite <- !isin_In, IS, IV. repeat split; try assumption; discriminate.
      * right; left. split; [exact M|cbn in Le; lia].
      * right; right. exists v, sounds. split; [exact Iv|split; [split; [exact M|cbn in Le; lia]|reflexivity]].
  - change 91831 with (N.of_nat (length others) + (sum_to (N.of_nat (length S)) 4 + N.of_nat (length V) * sum_to (N.of_nat (length S)) 3)).
    assert (NS : NoDup S) by (unfold S; nodup). assert (NV : NoDup V) by (unfold V; nodup).
    assert (NO : NoDup others).
    { unfold others. apply NoDup_filter. assert (G : forall l, NoDup l -> NoDup (map N.of_nat l)).
      { induction 1 as [|k l NI ND IH]; [constructor|]. cbn [map]. constructor; [|exact IH]. intros I. apply in_map_iff in I as (j & E & I).
        apply Nat2N.inj in E. now subst j. }
      apply G, seq_NoDup. }
    assert (D : forall c, In c V -> ~ In c S) by (intros c Ic Is; unfold V in Ic; cbn in Ic; repeat (destruct Ic as [<-|Ic]; [out_of Is|]); destruct Ic).
    apply hm_union.
    + intros code (c & Ic & ->). apply O in Ic as (_ & _ & A & B). intros [[M _]|(d & v & Id & _ & E)]; [apply A, M; now left|].
      injection E as -> _. now apply B.
    + apply hm_image; [intros a b _ _ E; now injection E|]. now apply hm_members.
    + apply hm_union; [|now apply hm_short|apply hm_cons; [exact NV|now apply hm_short]].
      intros w [M _] (c & v & Ic & _ & ->). apply (D c Ic), M. now left.
Qed.

(** There is one such number only, so the numbers say something; and other numbers are wrong. *)
Theorem C81_how_many_once : forall A (P : A -> Prop) j k, how_many P j -> how_many P k -> j = k.
Proof.
  intros A P j k (l & N1 & <- & I1) (m & N2 & <- & I2).
  assert (H1 : (length l <= length m)%nat) by (apply NoDup_incl_length; [exact N1|intros x; rewrite I1, I2; auto]).
  assert (H2 : (length m <= length l)%nat) by (apply NoDup_incl_length; [exact N2|intros x; rewrite I1, I2; auto]).
  lia.
Qed.
Theorem C81_how_many_nonvacuous : forall u, ~ how_many (fun code => exists s, soundex_encode u soundex_default s = Ok code) 8918.
Proof. intros u H. pose proof (C81_how_many_once _ _ _ _ H (C81_how_many_soundex u)). discriminate. Qed.
