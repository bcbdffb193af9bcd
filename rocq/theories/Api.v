(** * The public values: constructors, defaults, accessors and texts. *)
From Coq Require Import Decimal DecimalN.
From Verif Require Import Base UnicodeM Lib Helper Soundex Cologne Caverphone Nysiis Phonex Metaphone DoubleMetaphone
  MatchRating RulesParser DaitchMokotoff DmRules BmLanguages.
Local Open Scope N_scope.

(** ** Encoders with settings *)

(** [String::with_capacity] panics ("capacity overflow") beyond [isize::MAX] bytes (64-bit target).
    That the allocator may abort the process for smaller capacities is not modelled. *)
Definition isize_max : N := 9223372036854775807.
Definition with_capacity {A} (n : nat) (k : res A) : res A :=
  if N.of_nat n <=? isize_max then k else Panic.

(** src/nysiis.rs:66-68 *)
Record NysiisE := { ny_strict : bool }.
(** src/nysiis.rs:76-78, [Nysiis::new]. *)
Definition nysiis_new (strict : bool) : NysiisE := {| ny_strict := strict |}.
(** src/nysiis.rs:123-127, [Default]. *)
Definition nysiis_default : NysiisE := {| ny_strict := true |}.
(** src/nysiis.rs:131-186, [encode]. *)
Definition nysiis_enc (u : Unicode) (e : NysiisE) : encoder := nysiis_encode u (ny_strict e).

(** src/phonex.rs:34-36 *)
Record PhonexE := { px_max_code_length : nat }.
(** src/phonex.rs:45-47, [Phonex::new]. *)
Definition phonex_new (max : nat) : PhonexE := {| px_max_code_length := max |}.
(** src/phonex.rs:144-148, [Default]. *)
Definition phonex_default : PhonexE := {| px_max_code_length := 4 |}.
(** src/phonex.rs:152-217, [encode]; the capacity is requested at line 160. *)
Definition phonex_enc (u : Unicode) (e : PhonexE) : encoder := fun s =>
  with_capacity (px_max_code_length e) (phonex_encode u (px_max_code_length e) s).

(** src/metaphone.rs:39-41 *)
Record MetaphoneE := { mt_max_code_length : option nat }.
(** src/metaphone.rs:50-52, [Metaphone::new]. *)
Definition metaphone_new (max : option nat) : MetaphoneE := {| mt_max_code_length := max |}.
(** src/metaphone.rs:77-83, [Default]. *)
Definition metaphone_default : MetaphoneE := {| mt_max_code_length := metaphone_default_max |}.
(** src/metaphone.rs:85-288, [encode]. *)
Definition metaphone_enc (u : Unicode) (e : MetaphoneE) : encoder := metaphone_encode u (mt_max_code_length e).

(** src/double_metaphone.rs:161-163 *)
Record DoubleMetaphoneE := { dm_max_code_length : option nat }.
(** src/double_metaphone.rs:181-183, [DoubleMetaphone::new]. *)
Definition dmetaphone_new (max : option nat) : DoubleMetaphoneE := {| dm_max_code_length := max |}.
(** src/double_metaphone.rs:165-172, [Default]. *)
Definition dmetaphone_default : DoubleMetaphoneE := {| dm_max_code_length := dm_default_max |}.

(** src/double_metaphone.rs:36-40, [DoubleMetaphoneResult]: the codes and the limit. *)
Record DMResult := { dmr_primary : ustr; dmr_alternate : ustr; dmr_max_length : option nat }.
(** src/double_metaphone.rs:276-391: the codes computed by the model [double_metaphone], with the limit
    given to [DoubleMetaphoneResult::new] (line 277), which requests two buffers of that capacity, or of
    10 without limit (lines 56-64). *)
Definition dmetaphone (u : Unicode) (e : DoubleMetaphoneE) (s : ustr) : res DMResult :=
  with_capacity (match dm_max_code_length e with Some n => n | None => 10%nat end)
  (rmap (fun r => {| dmr_primary := dm_primary r; dmr_alternate := dm_alternate r; dmr_max_length := dm_max_code_length e |})
    (double_metaphone u (dm_max_code_length e) s)).
(** src/double_metaphone.rs:208-216, [is_double_metaphone_equal]. *)
Definition dmetaphone_equal (u : Unicode) (e : DoubleMetaphoneE) (a b : ustr) (alternate : bool) : res bool :=
  ra <- dmetaphone u e a ;;
  rb <- dmetaphone u e b ;;
  Ok (if alternate then seq_eqb (dmr_alternate ra) (dmr_alternate rb) else seq_eqb (dmr_primary ra) (dmr_primary rb)).
(** src/double_metaphone.rs:1030-1043, [encode]. *)
Definition dmetaphone_enc (u : Unicode) (e : DoubleMetaphoneE) : encoder := fun s => rmap dmr_primary (dmetaphone u e s).
(** src/double_metaphone.rs:194-196, [encode_alternate]. *)
Definition dmetaphone_alt (u : Unicode) (e : DoubleMetaphoneE) : encoder := fun s => rmap dmr_alternate (dmetaphone u e s).
(** The derived [==] of [DoubleMetaphoneResult] (src/double_metaphone.rs:35): field by field. *)
Definition opt_nat_eqb (a b : option nat) : bool :=
  match a, b with Some x, Some y => Nat.eqb x y | None, None => true | _, _ => false end.
Definition dmr_eqb (a b : DMResult) : bool :=
  seq_eqb (dmr_primary a) (dmr_primary b) && seq_eqb (dmr_alternate a) (dmr_alternate b)
  && opt_nat_eqb (dmr_max_length a) (dmr_max_length b).

(** ** The builder of Daitch-Mokotoff encoders *)

(** src/daitch_mokotoff.rs:429-433 *)
Record DMSBuilder := { dmb_rules : ustr; dmb_ascii_folding : bool }.
(** src/daitch_mokotoff.rs:439-446, [Default]. *)
Definition dmb_default : DMSBuilder := {| dmb_rules := dmrules_text; dmb_ascii_folding := true |}.
(** src/daitch_mokotoff.rs:450-455, [with_rules]. *)
Definition dmb_with_rules (rules : ustr) : DMSBuilder := {| dmb_rules := rules; dmb_ascii_folding := true |}.
(** src/daitch_mokotoff.rs:458-462, [ascii_folding]. *)
Definition dmb_folding (b : DMSBuilder) (flag : bool) : DMSBuilder :=
  {| dmb_rules := dmb_rules b; dmb_ascii_folding := flag |}.
(** src/daitch_mokotoff.rs:469-528, [build]. *)
Definition dmb_build (b : DMSBuilder) : res (DMS + ParseError) := dms_build (dmb_rules b) (dmb_ascii_folding b).
(** src/daitch_mokotoff.rs:259-263, [DaitchMokotoffSoundex::default]: unwraps the result. *)
Definition daitch_default : res DMS :=
  r <- dmb_build dmb_default ;; match r with inl d => Ok d | inr _ => Panic end.

(** ** CharSequence *)

(** src/helper.rs:98-100, [len]. *)
Definition cs_length (s : CharSequence) : N := cs_len s.
(** src/helper.rs:103-105, [is_empty]. *)
Definition cs_is_empty (s : CharSequence) : bool := cs_len s =? 0.
(** src/helper.rs:108-110, [as_str]. *)
Definition cs_as_str (s : CharSequence) : ustr := cs_inner s.
(** src/helper.rs:123-127, [From<CharSequence> for &str]. *)
Definition cs_into_str (s : CharSequence) : ustr := cs_inner s.
(** src/helper.rs:89-93, [Display]. *)
Definition cs_display (s : CharSequence) : ustr := cs_inner s.

(** ** Texts *)

(** [Display] of [usize]: decimal notation. *)
Fixpoint uint_text (d : uint) : ustr :=
  match d with
  | Nil => []
  | D0 d => # "0" :: uint_text d | D1 d => # "1" :: uint_text d | D2 d => # "2" :: uint_text d
  | D3 d => # "3" :: uint_text d | D4 d => # "4" :: uint_text d | D5 d => # "5" :: uint_text d
  | D6 d => # "6" :: uint_text d | D7 d => # "7" :: uint_text d | D8 d => # "8" :: uint_text d
  | D9 d => # "9" :: uint_text d
  end.
Definition usize_text (n : nat) : ustr := uint_text (N.to_uint (N.of_nat n)).

(** src/double_metaphone.rs:42-50, [Display]. *)
Definition dmr_display (r : DMResult) : ustr :=
  $ "[primary=" ++ dmr_primary r ++ $ ", alternate=" ++ dmr_alternate r ++ $ "]".
(** src/beider_morse/languages.rs:102-117, [Display] of [LanguageSet]. *)
Definition ls_display (s : LanguageSet) : ustr :=
  match s with
  | LAny => $ "ANY_LANGUAGE"
  | NoLanguages => $ "NO_LANGUAGES"
  | SomeLanguages l => join $ "," l
  end.
(** src/lib.rs:90, [Display] of [ParseError]. *)
Definition pe_display (e : ParseError) : ustr :=
  match pe_filename e with Some f => f | None => $ "Unknown" end ++ $ ":" ++ usize_text (pe_line_number e) ++ $ " "
  ++ pe_description e ++ $ " : " ++ pe_line_content e.
(** src/lib.rs:102-111, [Display] of [PhoneticError]; the texts of [BMError] are [bm_error_text]. *)
Definition phonetic_error_display (e : PhoneticError) : ustr :=
  match e with
  | ParseRuleError e => $ "Error parsing rule file " ++ pe_display e
  | BMErr e => $ "Error : " ++ bm_error_text e
  end.
(** src/lib.rs:113-117 with src/beider_morse/mod.rs:67-71, [From<std::io::Error>]; [text] is the
    text of the operating system's error. *)
Definition phonetic_error_of_io (text : ustr) : PhoneticError := BMErr (ParseConfiguration text).
(** src/lib.rs:119-123 with src/beider_morse/mod.rs:57, [From<regex::Error>]. *)
Definition phonetic_error_of_regex (text : ustr) : PhoneticError := BMErr (BadContextRegex text).
