(** * The serialised forms of the public types (the [Serialize, Deserialize] derives).

    The code that serde's derive macros generate is modelled as a self-describing, human-readable
    format such as JSON drives it: a struct is written as an object with its fields in order of
    declaration, and is read from an object (each field once, in any order, other members ignored, a
    missing field being an error unless its type is [Option]) or from an array of all fields in order;
    a unit struct is [null]; a variant without data is its name, or, when reading, an object with that
    name only and [null]; a variant with data is an object with its name; [None] is [null]; a [char] is
    a text of one character; arrays, vectors and sets are arrays.  The texts of the errors are not
    modelled ([None] is any error), nor is the syntax of the format itself. *)
From Verif Require Import Base UnicodeM Lib Helper Soundex BmLanguages Api.
Local Open Scope N_scope.

(** Numbers that are negative or have a fraction are not distinguished. *)
Inductive json :=
| JNull
| JBool (b : bool)
| JNum (n : N)
| JOtherNum
| JStr (s : ustr)
| JArr (l : list json)
| JObj (l : list (ustr * json)).

(** ** Values of the standard types *)
(** [usize::MAX] + 1, on a 64-bit target. *)
Definition usize_bound : N := 18446744073709551616.
Definition ser_usize (n : nat) : json := JNum (N.of_nat n).
Definition de_usize (j : json) : option nat :=
  match j with JNum n => if n <? usize_bound then Some (N.to_nat n) else None | _ => None end.
Definition de_bool (j : json) : option bool := match j with JBool b => Some b | _ => None end.
Definition de_string (j : json) : option ustr := match j with JStr s => Some s | _ => None end.
Definition ser_char (c : N) : json := JStr [c].
Definition de_char (j : json) : option N := match j with JStr [c] => Some c | _ => None end.
Definition ser_option {A} (f : A -> json) (o : option A) : json := match o with Some x => f x | None => JNull end.
Definition de_option {A} (f : json -> option A) (j : json) : option (option A) :=
  match j with JNull => Some None | _ => match f j with Some x => Some (Some x) | None => None end end.
Fixpoint de_all {A} (f : json -> option A) (l : list json) : option (list A) :=
  match l with
  | [] => Some []
  | j :: r => match f j with
              | Some x => match de_all f r with Some xs => Some (x :: xs) | None => None end
              | None => None
              end
  end.
(** [[char; 26]] *)
Definition ser_mapping (m : ustr) : json := JArr (map ser_char m).
Definition de_mapping (j : json) : option ustr :=
  match j with JArr l => if Nat.eqb (length l) 26 then de_all de_char l else None | _ => None end.
(** [BTreeSet<String>] *)
Definition ser_set (l : list ustr) : json := JArr (map JStr l).
Definition de_set (j : json) : option (list ustr) :=
  match j with JArr l => match de_all de_string l with Some xs => Some (sset_of_list xs) | None => None end | _ => None end.

(** ** Structs *)
(** The value of the field [name]: [missing] when no member has that name, an error when several have. *)
Fixpoint values_of (name : ustr) (members : list (ustr * json)) : list json :=
  match members with
  | [] => []
  | (k, v) :: r => if seq_eqb k name then v :: values_of name r else values_of name r
  end.
Definition field {A} (f : json -> option A) (missing : option A) (name : ustr) (members : list (ustr * json)) : option A :=
  match values_of name members with
  | [] => missing
  | [v] => f v
  | _ => None
  end.
Definition obind {A B} (o : option A) (f : A -> option B) : option B := match o with Some x => f x | None => None end.

Definition de_struct1 {A X} (n1 : ustr) (f1 : json -> option A) (m1 : option A) (mk : A -> X) (j : json) : option X :=
  match j with
  | JObj l => obind (field f1 m1 n1 l) (fun a => Some (mk a))
  | JArr [x] => obind (f1 x) (fun a => Some (mk a))
  | _ => None
  end.
Definition de_struct2 {A B X} (n1 : ustr) (f1 : json -> option A) (m1 : option A)
           (n2 : ustr) (f2 : json -> option B) (m2 : option B) (mk : A -> B -> X) (j : json) : option X :=
  match j with
  | JObj l => obind (field f1 m1 n1 l) (fun a => obind (field f2 m2 n2 l) (fun b => Some (mk a b)))
  | JArr [x; y] => obind (f1 x) (fun a => obind (f2 y) (fun b => Some (mk a b)))
  | _ => None
  end.
Definition de_struct3 {A B C X} (n1 : ustr) (f1 : json -> option A) (m1 : option A)
           (n2 : ustr) (f2 : json -> option B) (m2 : option B)
           (n3 : ustr) (f3 : json -> option C) (m3 : option C) (mk : A -> B -> C -> X) (j : json) : option X :=
  match j with
  | JObj l => obind (field f1 m1 n1 l) (fun a => obind (field f2 m2 n2 l) (fun b =>
              obind (field f3 m3 n3 l) (fun c => Some (mk a b c))))
  | JArr [x; y; z] => obind (f1 x) (fun a => obind (f2 y) (fun b => obind (f3 z) (fun c => Some (mk a b c))))
  | _ => None
  end.
Definition de_struct4 {A B C D X} (n1 : ustr) (f1 : json -> option A) (m1 : option A)
           (n2 : ustr) (f2 : json -> option B) (m2 : option B)
           (n3 : ustr) (f3 : json -> option C) (m3 : option C)
           (n4 : ustr) (f4 : json -> option D) (m4 : option D) (mk : A -> B -> C -> D -> X) (j : json) : option X :=
  match j with
  | JObj l => obind (field f1 m1 n1 l) (fun a => obind (field f2 m2 n2 l) (fun b =>
              obind (field f3 m3 n3 l) (fun c => obind (field f4 m4 n4 l) (fun d => Some (mk a b c d)))))
  | JArr [x; y; z; t] => obind (f1 x) (fun a => obind (f2 y) (fun b => obind (f3 z) (fun c =>
                         obind (f4 t) (fun d => Some (mk a b c d)))))
  | _ => None
  end.

(** ** The public types *)

(** src/soundex.rs:74-78 *)
Definition ser_soundex (s : soundex) : json :=
  JObj [($ "mapping", ser_mapping (sx_mapping s)); ($ "special_case_h_w", JBool (sx_special_case_h_w s))].
Definition de_soundex : json -> option soundex :=
  de_struct2 $ "mapping" de_mapping None $ "special_case_h_w" de_bool None
    (fun m h => {| sx_mapping := m; sx_special_case_h_w := h |}).

(** src/refined_soundex.rs:40-43: the encoder is its mapping. *)
Definition ser_refined (m : ustr) : json := JObj [($ "mapping", ser_mapping m)].
Definition de_refined : json -> option ustr := de_struct1 $ "mapping" de_mapping None (fun m => m).

(** src/nysiis.rs:65-68 *)
Definition ser_nysiis (e : NysiisE) : json := JObj [($ "strict", JBool (ny_strict e))].
Definition de_nysiis : json -> option NysiisE := de_struct1 $ "strict" de_bool None (fun b => {| ny_strict := b |}).

(** src/phonex.rs:34-37 *)
Definition ser_phonex (e : PhonexE) : json := JObj [($ "max_code_length", ser_usize (px_max_code_length e))].
Definition de_phonex : json -> option PhonexE :=
  de_struct1 $ "max_code_length" de_usize None (fun n => {| px_max_code_length := n |}).

(** src/metaphone.rs:38-41: a missing field of type [Option] is [None]. *)
Definition ser_metaphone (e : MetaphoneE) : json :=
  JObj [($ "max_code_length", ser_option ser_usize (mt_max_code_length e))].
Definition de_metaphone : json -> option MetaphoneE :=
  de_struct1 $ "max_code_length" (de_option de_usize) (Some None) (fun n => {| mt_max_code_length := n |}).

(** src/double_metaphone.rs:160-163 *)
Definition ser_dmetaphone (e : DoubleMetaphoneE) : json :=
  JObj [($ "max_code_length", ser_option ser_usize (dm_max_code_length e))].
Definition de_dmetaphone : json -> option DoubleMetaphoneE :=
  de_struct1 $ "max_code_length" (de_option de_usize) (Some None) (fun n => {| dm_max_code_length := n |}).

(** src/double_metaphone.rs:35-40 *)
Definition ser_dmresult (r : DMResult) : json :=
  JObj [($ "primary", JStr (dmr_primary r)); ($ "alternate", JStr (dmr_alternate r));
        ($ "max_length", ser_option ser_usize (dmr_max_length r))].
Definition de_dmresult : json -> option DMResult :=
  de_struct3 $ "primary" de_string None $ "alternate" de_string None $ "max_length" (de_option de_usize) (Some None)
    (fun p a m => {| dmr_primary := p; dmr_alternate := a; dmr_max_length := m |}).

(** src/lib.rs:89-100 *)
Definition ser_parse_error (e : ParseError) : json :=
  JObj [($ "line_number", ser_usize (pe_line_number e)); ($ "filename", ser_option JStr (pe_filename e));
        ($ "line_content", JStr (pe_line_content e)); ($ "description", JStr (pe_description e))].
Definition de_parse_error : json -> option ParseError :=
  de_struct4 $ "line_number" de_usize None $ "filename" (de_option de_string) (Some None)
    $ "line_content" de_string None $ "description" de_string None
    (fun n f c d => {| pe_line_number := n; pe_filename := f; pe_line_content := c; pe_description := d |}).

(** src/helper.rs:83-87.  The text is borrowed from the document: a format that has to rewrite it (for
    an escape sequence) refuses; that is not modelled. *)
Definition ser_char_sequence (c : CharSequence) : json :=
  JObj [($ "inner", JStr (cs_inner c)); ($ "len_in_char", JNum (cs_len c))].
Definition de_usize_N (j : json) : option N :=
  match j with JNum n => if n <? usize_bound then Some n else None | _ => None end.
Definition de_char_sequence : json -> option CharSequence :=
  de_struct2 $ "inner" de_string None $ "len_in_char" de_usize_N None (fun s n => {| cs_inner := s; cs_len := n |}).

(** Unit structs: src/caverphone.rs:35-36 and 153-154, src/cologne.rs:65-66,
    src/match_rating_approach.rs:82-83. *)
Definition ser_unit (x : unit) : json := JNull.
Definition de_unit (j : json) : option unit := match j with JNull => Some tt | _ => None end.

(** A variant without data, by name. *)
Definition de_unit_variant {A} (variants : list (ustr * A)) (j : json) : option A :=
  let find s := match filter (fun v => seq_eqb (fst v) s) variants with (_, x) :: _ => Some x | [] => None end in
  match j with
  | JStr s => find s
  | JObj [(s, JNull)] => find s
  | _ => None
  end.
(** src/beider_morse/mod.rs:89-102, with the names of [serde(rename)]. *)
Definition ser_name_type (n : NameType) : json :=
  JStr (match n with Ashkenazi => $ "ash" | Generic => $ "gen" | Sephardic => $ "sep" end).
Definition de_name_type : json -> option NameType :=
  de_unit_variant [($ "ash", Ashkenazi); ($ "gen", Generic); ($ "sep", Sephardic)].
(** src/beider_morse/rule.rs:27-33 *)
Definition ser_rule_type (r : RuleType) : json := JStr (match r with RtApprox => $ "Approx" | RtExact => $ "Exact" end).
Definition de_rule_type : json -> option RuleType := de_unit_variant [($ "Approx", RtApprox); ($ "Exact", RtExact)].
(** src/beider_morse/languages.rs:12-20 *)
Definition ser_language_set (s : LanguageSet) : json :=
  match s with
  | LAny => JStr $ "Any"
  | NoLanguages => JStr $ "NoLanguages"
  | SomeLanguages l => JObj [($ "SomeLanguages", ser_set l)]
  end.
Definition de_language_set (j : json) : option LanguageSet :=
  match de_unit_variant [($ "Any", LAny); ($ "NoLanguages", NoLanguages)] j with
  | Some s => Some s
  | None =>
      match j with
      | JObj [(k, v)] => if seq_eqb k $ "SomeLanguages"
                         then match de_set v with Some l => Some (SomeLanguages l) | None => None end
                         else None
      | _ => None
      end
  end.
