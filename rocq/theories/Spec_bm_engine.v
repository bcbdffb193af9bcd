(** * Beider-Morse engine (specification).

    How a table of rules rewrites a text, written as relations over positions,
    without loops, builders or panics. *)
From Verif Require Import Base UnicodeM DaitchMokotoff BmLanguages BmRegex BmRule BmEngine Spec_bm.
Local Open Scope N_scope.

(** A rule applies at position [i] of a text: the pattern is there, the text
    after it satisfies the right context and the text before it the left one. *)
Definition rule_applies (rx : RegexEngine) (r : BmRule) (text : ustr) (i : nat) : Prop :=
  exists before after, text = before ++ bm_pattern r ++ after /\ length before = i
    /\ context_is_match rx (bm_left r) before = true
    /\ context_is_match rx (bm_right r) after = true.

(** The rules filed under the character at position [i]. *)
Definition candidates (rules : RuleMap) (text : ustr) (i : nat) : list BmRule :=
  match nth_error text i with
  | Some c => match assoc c rules with Some l => l | None => [] end
  | None => []
  end.

(** The first candidate that applies, if any. *)
Inductive chosen (rx : RegexEngine) (rules : RuleMap) (text : ustr) (i : nat) : option BmRule -> Prop :=
| chosen_some : forall pre r post, candidates rules text i = pre ++ r :: post ->
    (forall x, In x pre -> ~ rule_applies rx x text i) -> rule_applies rx r text i ->
    chosen rx rules text i (Some r)
| chosen_none : (forall x, In x (candidates rules text i) -> ~ rule_applies rx x text i) ->
    chosen rx rules text i None.

(** ** Combining phonemes *)

(** All the pairs of a phoneme so far and a phoneme of the rule, in order, whose
    languages are compatible. *)
Definition combinations (b : list Phoneme) (e : PhonemeList) : list Phoneme :=
  flat_map (fun l => flat_map (fun r =>
    let languages := shared (ph_languages l) (ph_languages r) in
    if no_language languages then []
    else [{| ph_text := ph_text l ++ ph_text r; ph_languages := languages |}]) e) b.

(** [b'] holds the first of them, one per text, as many as the limit allows. *)
Definition combined (b : list Phoneme) (e : PhonemeList) (max : nat) (b' : list Phoneme) : Prop :=
  exists n, distinct_of (firstn n (combinations b e)) b'
    /\ (length b' <= max)%nat
    /\ (length b' = max \/ firstn n (combinations b e) = combinations b e).

(** ** Scans *)

(** Main rules: a character to which no rule applies is dropped. *)
Inductive main_scan (rx : RegexEngine) (rules : RuleMap) (max : nat) (text : ustr)
  : nat -> list Phoneme -> list Phoneme -> Prop :=
| ms_end : forall i b, (length text <= i)%nat -> main_scan rx rules max text i b b
| ms_rule : forall i b r b1 b', (i < length text)%nat -> chosen rx rules text i (Some r) ->
    combined b (bm_phoneme r) max b1 ->
    main_scan rx rules max text (i + length (bm_pattern r)) b1 b' ->
    main_scan rx rules max text i b b'
| ms_skip : forall i b b', (i < length text)%nat -> chosen rx rules text i None ->
    main_scan rx rules max text (i + 1) b b' ->
    main_scan rx rules max text i b b'.

(** Final rules: a character to which no rule applies is kept (at the end of
    every phoneme, which are then sorted again). *)
Inductive final_scan (rx : RegexEngine) (rules : RuleMap) (max : nat) (text : ustr)
  : nat -> list Phoneme -> list Phoneme -> Prop :=
| fs_end : forall i b, (length text <= i)%nat -> final_scan rx rules max text i b b
| fs_rule : forall i b r b1 b', (i < length text)%nat -> chosen rx rules text i (Some r) ->
    combined b (bm_phoneme r) max b1 ->
    final_scan rx rules max text (i + length (bm_pattern r)) b1 b' ->
    final_scan rx rules max text i b b'
| fs_keep : forall i b c b1 b', nth_error text i = Some c -> chosen rx rules text i None ->
    distinct_of (map (fun p => {| ph_text := ph_text p ++ [c]; ph_languages := ph_languages p |}) b) b1 ->
    final_scan rx rules max text (i + 1) b1 b' ->
    final_scan rx rules max text i b b'.

(** One start phoneme without text. *)
Definition start (languages : LanguageSet) : list Phoneme := [{| ph_text := []; ph_languages := languages |}].

(** ** Rule tables *)

(** What reading a rule file guarantees: a rule is filed under the first
    character of its non-empty pattern. *)
Definition rule_ok (k : N) (r : BmRule) : Prop :=
  hd_error (bm_pattern r) = Some k /\ bm_pattern_length_char r = length (bm_pattern r).
Definition table_ok (rules : RuleMap) : Prop :=
  forall k l r, In (k, l) rules -> In r l -> rule_ok k r.

(** ** The final rules *)

(** The phonemes obtained from each phoneme, in order, each with the languages of
    the phoneme it comes from. *)
Inductive contributions (rx : RegexEngine) (rules : RuleMap) (max : nat)
  : list Phoneme -> list (LanguageSet * Phoneme) -> Prop :=
| ct_nil : contributions rx rules max [] []
| ct_cons : forall p ps q cs, final_scan rx rules max (ph_text p) 0 (start (ph_languages p)) q ->
    contributions rx rules max ps cs ->
    contributions rx rules max (p :: ps) (map (pair (ph_languages p)) q ++ cs).

(** The languages of a text: those of its first contribution, merged with those
    of the phonemes every later contribution comes from. *)
Definition collected (cs : list (LanguageSet * Phoneme)) (x : ustr) : option LanguageSet :=
  match filter (fun c => seq_eqb (ph_text (snd c)) x) cs with
  | [] => None
  | (_, n) :: rest => Some (fold_left (fun a c => ls_merge a (fst c)) rest (ph_languages n))
  end.

Definition final_step (rx : RegexEngine) (rules : RuleMap) (max : nat) (b b' : list Phoneme) : Prop :=
  (rules = [] /\ b' = b)
  \/ (rules <> [] /\ psorted b'
      /\ exists cs, contributions rx rules max b cs
         /\ forall ph, In ph b' <-> collected cs (ph_text ph) = Some (ph_languages ph)).

(** The phonemes of one word. *)
Definition word_phonemes (rx : RegexEngine) (rules final1 final2 : RuleMap) (max : nat)
           (languages : LanguageSet) (text : ustr) (b : list Phoneme) : Prop :=
  exists b1 b2, main_scan rx rules max text 0 (start languages) b1
    /\ final_step rx final1 max b1 b2 /\ final_step rx final2 max b2 b.

(** ** Unicode *)

(** Lowercasing is stable: lowercase characters are their own lowercase. *)
Definition LowerOK (u : Unicode) : Prop :=
  (forall c x, In x (to_lower u c) -> to_lower u x = [x] /\ x <> 931)
  /\ to_lower u 962 = [962] /\ to_lower u 963 = [963].
