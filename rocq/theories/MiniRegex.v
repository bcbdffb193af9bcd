(** * A small regular-expression semantics.

    This is a specification, not a model of rphonetic code: the denotation of the
    fragment of regular expressions that occurs in the rule files (literals, [.],
    character lists, groups, alternatives, the anchors [^] and [$]), written
    independently of the optimised matcher, plus an executable matcher for that
    fragment which the conformance tests plug in where the code calls the
    [regex] crate. *)
From Verif Require Import Base UnicodeM BmRegex.
Local Open Scope N_scope.

Inductive re :=
| REps
| RChr (c : N)
| RAny
| RSet (negated : bool) (l : ustr)
| RBol
| REol
| RCat (a b : re)
| RAlt (a b : re).

(** [re_at r before mid after]: in the text [before ++ mid ++ after], [r]
    matches exactly the occurrence [mid]. *)
Fixpoint re_at (r : re) (before mid after : ustr) : Prop :=
  match r with
  | REps => mid = []
  | RChr c => mid = [c]
  | RAny => exists c, mid = [c] /\ c <> 10
  | RSet neg l => exists c, mid = [c] /\ (if neg then ~ In c l else In c l)
  | RBol => mid = [] /\ before = []
  | REol => mid = [] /\ after = []
  | RCat a b => exists m1 m2, mid = m1 ++ m2 /\ re_at a before m1 (m2 ++ after)
                              /\ re_at b (before ++ m1) m2 after
  | RAlt a b => re_at a before mid after \/ re_at b before mid after
  end.

(** [is_match]: there is an occurrence somewhere. *)
Definition re_search (r : re) (s : ustr) : Prop :=
  exists before mid after, s = before ++ mid ++ after /\ re_at r before mid after.

(** Executable matcher (continuation style). *)
Fixpoint re_run (r : re) (at_start : bool) (s : ustr) (k : bool -> ustr -> bool) : bool :=
  match r with
  | REps => k at_start s
  | RChr c => match s with x :: t => (x =? c) && k false t | [] => false end
  | RAny => match s with x :: t => negb (x =? 10) && k false t | [] => false end
  | RSet neg l => match s with x :: t => xorb neg (isin x l) && k false t | [] => false end
  | RBol => at_start && k at_start s
  | REol => match s with [] => k at_start s | _ => false end
  | RCat a b => re_run a at_start s (fun st t => re_run b st t k)
  | RAlt a b => re_run a at_start s k || re_run b at_start s k
  end.
Fixpoint re_find (r : re) (at_start : bool) (s : ustr) : bool :=
  re_run r at_start s (fun _ _ => true)
  || match s with [] => false | _ :: t => re_find r false t end.
Definition re_is_match (r : re) (s : ustr) : bool := re_find r true s.

(** Parser for the fragment. *)
Fixpoint parse_set (s acc : ustr) : option (ustr * ustr) :=
  match s with
  | [] => None
  | c :: t => if c =? # "]" then Some (rev acc, t) else parse_set t (c :: acc)
  end.
Definition is_special (c : N) : bool := isin c $ "\*+?{}()|]".
Fixpoint parse_re (fuel : nat) (s : ustr) : option (re * ustr) :=   (* alternatives *)
  match fuel with
  | O => None
  | S f =>
      match parse_seq f s with
      | Some (a, c :: t) =>
          if c =? # "|" then
            match parse_re f t with Some (b, t') => Some (RAlt a b, t') | None => None end
          else Some (a, c :: t)
      | x => x
      end
  end
with parse_seq (fuel : nat) (s : ustr) : option (re * ustr) :=
  match fuel with
  | O => None
  | S f =>
      match s with
      | [] => Some (REps, [])
      | c :: t =>
          if (c =? # "|") || (c =? # ")") then Some (REps, s)
          else
            let atom :=
              if c =? # "(" then
                match parse_re f t with
                | Some (a, d :: t') => if d =? # ")" then Some (a, t') else None
                | _ => None
                end
              else if c =? # "[" then
                match t with
                | d :: t' =>
                    if d =? # "^" then
                      match parse_set t' [] with Some (l, r) => Some (RSet true l, r) | None => None end
                    else match parse_set t [] with Some (l, r) => Some (RSet false l, r) | None => None end
                | [] => None
                end
              else if c =? # "^" then Some (RBol, t)
              else if c =? # "$" then Some (REol, t)
              else if c =? # "." then Some (RAny, t)
              else if is_special c then None
              else Some (RChr c, t)
            in
            match atom with
            | Some (a, t') =>
                match parse_seq f t' with Some (b, t'') => Some (RCat a b, t'') | None => None end
            | None => None
            end
      end
  end.
Definition compile_re (s : ustr) : option re :=
  match parse_re (2 * length s + 2) s with Some (r, []) => Some r | _ => None end.

(** The instance used for computing. *)
Definition mini_engine : RegexEngine := {|
  rx_valid := fun p => match compile_re p with Some _ => true | None => false end;
  rx_error := fun _ => [];
  rx_match := fun p s => match compile_re p with Some r => re_is_match r s | None => false end
|}.

(** The executable matcher decides the denotation. *)
Lemma re_run_spec : forall r before s k,
  re_run r (match before with [] => true | _ => false end) s k = true <->
  exists mid after, s = mid ++ after /\ re_at r before mid after
                    /\ k (match before ++ mid with [] => true | _ => false end) after = true.
Proof.
  assert (Hf : forall (before : ustr) c, (match before ++ [c] with [] => true | _ => false end) = false)
    by (intros [|x b] c; reflexivity).
  induction r as [|c| |neg l| | |a IHa b IHb|a IHa b IHb]; intros before s k; cbn [re_run re_at].
  - split.
    + intros H. exists [], s. rewrite app_nil_r. auto.
    + intros (m & a & -> & -> & H). rewrite app_nil_r in H. exact H.
  - split.
    + destruct s as [|x t]; [discriminate|]. intros H. apply andb_true_iff in H as [H1 H2].
      apply N.eqb_eq in H1. subst x. exists [c], t. rewrite Hf. auto.
    + intros (m & a & -> & -> & H). rewrite Hf in H. cbn. now rewrite N.eqb_refl.
  - split.
    + destruct s as [|x t]; [discriminate|]. intros H. apply andb_true_iff in H as [H1 H2].
      exists [x], t. rewrite Hf. repeat split; auto. exists x. split; auto.
      intros ->. discriminate.
    + intros (m & a & -> & (c & -> & Hc) & H). rewrite Hf in H. cbn.
      apply N.eqb_neq in Hc. now rewrite Hc.
  - assert (Hin : forall x, xorb neg (isin x l) = true <-> (if neg then ~ In x l else In x l)).
    { intros x. unfold isin. assert (E : existsb (N.eqb x) l = true <-> In x l).
      { rewrite existsb_exists. split.
        - intros (y & Hy & Hxy). apply N.eqb_eq in Hxy. now subst.
        - intros Hx. exists x. split; auto. apply N.eqb_refl. }
      destruct (existsb (N.eqb x) l); destruct neg; cbn; intuition congruence. }
    split.
    + destruct s as [|x t]; [discriminate|]. intros H. apply andb_true_iff in H as [H1 H2].
      exists [x], t. rewrite Hf. repeat split; auto. exists x. split; auto. now apply Hin.
    + intros (m & a & -> & (c & -> & Hc) & H). rewrite Hf in H. cbn.
      apply Hin in Hc. now rewrite Hc.
  - split.
    + intros H. apply andb_true_iff in H as [H1 H2]. destruct before; [|discriminate].
      exists [], s. auto.
    + intros (m & a & -> & (-> & ->) & H). exact H.
  - split.
    + destruct s; [|discriminate]. intros H. exists [], [].
      rewrite (app_nil_r before). auto.
    + intros (m & a & -> & (-> & ->) & H). rewrite app_nil_r in H. exact H.
  - rewrite IHa. split.
    + intros (m1 & r1 & E & Ha & H). apply IHb in H as (m2 & r2 & E2 & Hb & H).
      exists (m1 ++ m2), r2. subst r1 s. split; [apply app_assoc|]. rewrite <- app_assoc in H. split; [|exact H].
      exists m1, m2. auto.
    + intros (m & r & E & (m1 & m2 & E2 & Ha & Hb) & H). subst m s.
      exists m1, (m2 ++ r). split; [symmetry; apply app_assoc|]. split; [exact Ha|].
      apply IHb. exists m2, r. rewrite <- app_assoc. auto.
  - rewrite orb_true_iff, IHa, IHb. split.
    + intros [(m & r & -> & Ha & H)|(m & r & -> & Ha & H)]; exists m, r; auto.
    + intros (m & r & -> & [Ha|Ha] & H); [left|right]; exists m, r; auto.
Qed.

Lemma re_find_spec : forall r s before,
  re_find r (match before with [] => true | _ => false end) s = true <->
  exists b mid after, s = b ++ mid ++ after /\ re_at r (before ++ b) mid after.
Proof.
  induction s as [|x t IH]; intros before; cbn [re_find].
  - rewrite orb_false_r, re_run_spec. split.
    + intros (m & a & E & H & _). exists [], m, a. rewrite app_nil_r. auto.
    + intros (b & m & a & E & H). destruct b; [|discriminate]. rewrite app_nil_r in H.
      exists m, a. auto.
  - rewrite orb_true_iff, re_run_spec.
    assert (IH' := IH (before ++ [x])).
    replace (match before ++ [x] with [] => true | _ :: _ => false end) with false in IH'
      by (destruct before; reflexivity).
    rewrite IH'. split.
    + intros [(m & a & E & H & _)|(b & m & a & -> & H)].
      * exists [], m, a. rewrite app_nil_r. auto.
      * exists (x :: b), m, a. rewrite <- app_assoc in H. auto.
    + intros (b & m & a & E & H). destruct b as [|y b].
      * left. rewrite app_nil_r in H. exists m, a. auto.
      * right. injection E as <- ->. exists b, m, a. rewrite <- app_assoc. auto.
Qed.

Theorem re_is_match_spec : forall r s, re_is_match r s = true <-> re_search r s.
Proof. intros r s. exact (re_find_spec r s []). Qed.
