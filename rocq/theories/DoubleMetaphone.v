(** * DoubleMetaphone (src/double_metaphone.rs).

    The [handle_*] functions of the code never read [result]: they only append
    to it and return how many characters to skip.  In the model they return the
    list of their append operations, in order, together with the skip count;
    [dm_apply] then performs the operations exactly like the methods of
    [DoubleMetaphoneResult].  Indices are [isize] in the code and [Z] here. *)
From Verif Require Import Base UnicodeM Lib Helper.
Local Open Scope N_scope.

(** Lazy boolean operators on computations that may panic. *)
Definition pure (b : bool) : res bool := Ok b.
Definition andr (a b : res bool) : res bool := x <- a ;; if x then b else Ok false.
Definition orr (a b : res bool) : res bool := x <- a ;; if x then Ok true else b.
Definition notr (a : res bool) : res bool := x <- a ;; Ok (negb x).
Notation "a &&! b" := (andr a b) (at level 40, left associativity).
Notation "a ||! b" := (orr a b) (at level 50, left associativity).
Notation "'ifm' c 'thenm' x 'elsem' y" :=
  (bind c (fun b__ : bool => if b__ then x else y)) (at level 200, right associativity).

(** src/double_metaphone.rs:26-31 *)
Definition SILENT_START : list ustr := [$ "GN"; $ "KN"; $ "PN"; $ "WR"; $ "PS"].
Definition L_R_N_M_B_H_F_V_W_SPACE : list ustr :=
  [$ "L"; $ "R"; $ "N"; $ "M"; $ "B"; $ "H"; $ "F"; $ "V"; $ "W"; $ " "].
Definition ES_EP_EB_EL_EY_IB_IL_IN_IE_EI_ER : list ustr :=
  [$ "ES"; $ "EP"; $ "EB"; $ "EL"; $ "EY"; $ "IB"; $ "IL"; $ "IN"; $ "IE"; $ "EI"; $ "ER"].
Definition L_T_K_S_N_M_B_Z : list ustr :=
  [$ "L"; $ "T"; $ "K"; $ "S"; $ "N"; $ "M"; $ "B"; $ "Z"].

(** One append operation on the result: the arguments of [append_char],
    [append_char_primary], [append_char_alternate], [append_str]. *)
Inductive app_op :=
| AppChar (c : N) (alternate : option N)
| AppPrimary (c : N)
| AppAlternate (c : N)
| AppStr (value : ustr) (alternate : option ustr).

(** src/double_metaphone.rs:36-40; [max_length] is a parameter of the functions
    below. *)
Record dm_result := { dm_primary : ustr; dm_alternate : ustr }.

(** src/double_metaphone.rs:81-99: append one character to a code, unless full. *)
Definition dm_push (max : option nat) (code : ustr) (c : N) : ustr :=
  match max with
  | Some v => if Nat.ltb (blen code) v then code ++ [c] else code
  | None => code ++ [c]
  end.

(** src/double_metaphone.rs:106-130: append a string to a code, truncated; the
    subtraction [v - len] panics (with overflow checks) when the code is longer
    than [v], which never happens. *)
Definition dm_push_str (max : option nat) (code value : ustr) : res ustr :=
  match max with
  | Some v =>
      if Nat.ltb v (blen code) then Panic
      else
        let length_remaining := (v - blen code)%nat in
        if Nat.leb (blen value) length_remaining then Ok (code ++ value)
        else t <- slice 0 length_remaining value ;; Ok (code ++ t)
  | None => Ok (code ++ value)
  end.

Definition opt_or {A} (o : option A) (d : A) : A := match o with Some x => x | None => d end.

(** src/double_metaphone.rs:76-79, 101-104. *)
Definition dm_apply1 (max : option nat) (r : dm_result) (op : app_op) : res dm_result :=
  match op with
  | AppChar c alt =>
      Ok {| dm_primary := dm_push max (dm_primary r) c;
            dm_alternate := dm_push max (dm_alternate r) (opt_or alt c) |}
  | AppPrimary c => Ok {| dm_primary := dm_push max (dm_primary r) c; dm_alternate := dm_alternate r |}
  | AppAlternate c => Ok {| dm_primary := dm_primary r; dm_alternate := dm_push max (dm_alternate r) c |}
  | AppStr v alt =>
      p <- dm_push_str max (dm_primary r) v ;;
      a <- dm_push_str max (dm_alternate r) (opt_or alt v) ;;
      Ok {| dm_primary := p; dm_alternate := a |}
  end.
Fixpoint dm_apply (max : option nat) (r : dm_result) (ops : list app_op) : res dm_result :=
  match ops with
  | [] => Ok r
  | op :: ops' => r' <- dm_apply1 max r op ;; dm_apply max r' ops'
  end.

(** src/double_metaphone.rs:135-139, [is_complete]. *)
Definition dm_is_complete (max : option nat) (r : dm_result) : bool :=
  match max with
  | Some v => Nat.leb v (blen (dm_primary r)) && Nat.leb v (blen (dm_alternate r))
  | None => false
  end.

(** src/double_metaphone.rs:218-222, [is_slavo_germanic]. *)
Definition is_slavo_germanic (value : ustr) : bool :=
  existsb (fun c => (c =? # "W") || (c =? # "K")) value
  || contains_str value $ "CZ" || contains_str value $ "WITZ".

Section Handlers.
Variable value : ustr.
Local Open Scope Z_scope.

Definition len : Z := Z.of_nat (blen value).

(** src/double_metaphone.rs:224-239, [contains] (and 241-255,
    [contains_array], the same function on a slice). *)
Definition contains (start : Z) (length : nat) (criteria : list ustr) : res bool :=
  if start <? 0 then Ok false
  else
    let start := Z.to_nat start in
    if Nat.leb (start + length) (blen value) then
      target <- slice start (start + length) value ;;
      Ok (existsb (seq_eqb target) criteria)
    else Ok false.
Definition contains_array := contains.

(** src/double_metaphone.rs:257-263, [char_at]. *)
Definition char_at (index : Z) : res (option N) :=
  if (0 <=? index) && (index <? len) then
    t <- slice_from (Z.to_nat index) value ;; Ok (hd_error t)
  else Ok None.

(** [Self::char_at(value, i) == Some(c)] *)
Definition at_is (index : Z) (c : N) : res bool := x <- char_at index ;; Ok (opt_is x c).
(** [is_vowel(Self::char_at(value, i).map(|c| c.to_ascii_lowercase()), true)] *)
Definition at_vowel (index : Z) : res bool :=
  x <- char_at index ;; Ok (is_vowel (option_map ascii_low x) true).

Definition step := res (list app_op * nat).
Definition done (ops : list app_op) (skip : nat) : step := Ok (ops, skip).
Definition ac (c : N) : list app_op := [AppChar c None].
Definition ac2 (c alt : N) : list app_op := [AppChar c (Some alt)].
Definition astr (s : ustr) : list app_op := [AppStr s None].
Definition astr2 (s alt : ustr) : list app_op := [AppStr s (Some alt)].

(** [if char_at(index + 1) == Some(c) { 1 } else { 0 }] after an append. *)
Definition then_skip_if (ops : list app_op) (b : res bool) : step :=
  ifm b thenm done ops 1 elsem done ops 0.

(** src/double_metaphone.rs:443-469, [condition_c0]. *)
Definition condition_c0 (index : Z) : res bool :=
  ifm contains index 4 [$ "CHIA"] thenm Ok true
  elsem
  if index <? 1 then Ok false
  else
  ifm pure (index <? 2) ||! at_vowel (index - 2) thenm Ok false
  elsem
  ifm pure (0 <? index) &&! notr (contains (index - 1) 3 [$ "ACH"]) thenm Ok false
  elsem
  (c <- char_at (index + 2) ;;
   if index <? 2 then Ok false
   else
     pure (match c with
           | None => true
           | Some c => negb (N.eqb c (# "I")) && negb (N.eqb c (# "E"))
           end)
     ||! contains (index - 2) 6 [$ "BACHER"; $ "MACHER"]).

(** src/double_metaphone.rs:492-504, [condition_ch0]. *)
Definition condition_ch0 (index : Z) : res bool :=
  if negb (index =? 0) then Ok false
  else
  ifm notr (contains (index + 1) 5 [$ "HARAC"; $ "HARIS"])
      &&! notr (contains (index + 1) 3 [$ "HOR"; $ "HYM"; $ "HIA"; $ "HEM"])
  thenm Ok false
  elsem notr (contains 0 5 [$ "CHORE"]).

(** src/double_metaphone.rs:506-515, [condition_ch1].  [value.len() - 1] cannot
    underflow here: [value] is not empty. *)
Definition condition_ch1 (index : Z) : res bool :=
  (contains 0 4 [$ "VAN"; $ "VON"] ||! contains 0 3 [$ "SCH"])
  ||! (pure (1 <? index) &&! contains (index - 2) 6 [$ "ORCHES"; $ "ARCHIT"; $ "ORCHID"])
  ||! (pure (1 <? index) &&! contains (index + 2) 1 [$ "T"; $ "S"])
  ||! ((pure (index =? 0) ||! contains (index - 1) 1 [$ "A"; $ "O"; $ "U"; $ "E"])
       &&! (contains_array (index + 2) 1 L_R_N_M_B_H_F_V_W_SPACE
            ||! pure (index + 1 =? len - 1))).

(** src/double_metaphone.rs:471-490, [handle_ch]. *)
Definition handle_ch (index : Z) : step :=
  ifm pure (0 <? index) &&! contains index 4 [$ "CHAE"] thenm done (ac2 (# "K") (# "X")) 1
  elsem
  ifm condition_ch0 index ||! condition_ch1 index thenm done (ac (# "K")) 1
  elsem
  if 0 <? index then
    ifm contains 0 2 [$ "MC"] thenm done (ac (# "K")) 1
    elsem done (ac2 (# "X") (# "K")) 1
  else done (ac (# "X")) 1.

(** src/double_metaphone.rs:517-537, [handle_cc]. *)
Definition handle_cc (index : Z) : step :=
  ifm contains (index + 2) 1 [$ "I"; $ "E"; $ "H"] &&! notr (contains (index + 2) 2 [$ "HU"])
  thenm
    (ifm (pure (index =? 1) &&! at_is (index - 1) (# "A"))
         ||! contains (index - 1) 5 [$ "UCCEE"; $ "UCCES"]
     thenm done (astr $ "KS") 2
     elsem done (ac (# "X")) 2)
  elsem done (ac (# "K")) 1.

(** src/double_metaphone.rs:393-441, [handle_c]. *)
Definition handle_c (index : Z) : step :=
  ifm condition_c0 index thenm done (ac (# "K")) 1
  elsem
  ifm pure (index =? 0) &&! contains index 6 [$ "CAESAR"] thenm done (ac (# "S")) 1
  elsem
  ifm contains index 2 [$ "CH"] thenm handle_ch index
  elsem
  ifm contains index 2 [$ "CZ"]
      &&! (pure (index <? 2) ||! notr (contains (index - 2) 4 [$ "WICZ"]))
  thenm done (ac2 (# "S") (# "X")) 1
  elsem
  ifm contains (index + 1) 3 [$ "CIA"] thenm done (ac (# "X")) 2
  elsem
  ifm contains index 2 [$ "CC"] &&! notr (pure (index =? 1) &&! at_is 0 (# "M"))
  thenm handle_cc index
  elsem
  ifm contains index 2 [$ "CK"; $ "CG"; $ "CQ"] thenm done (ac (# "K")) 1
  elsem
  ifm contains index 2 [$ "CI"; $ "CE"; $ "CY"] thenm
    (ifm contains index 3 [$ "CIO"; $ "CIE"; $ "CIA"]
     thenm done (ac2 (# "S") (# "X")) 1 elsem done (ac (# "S")) 1)
  elsem
  ifm contains (index + 1) 2 [$ " C"; $ " Q"; $ " G"] thenm done (ac (# "K")) 2
  elsem
  ifm contains (index + 1) 1 [$ "C"; $ "K"; $ "Q"]
      &&! notr (contains (index + 1) 2 [$ "CE"; $ "CI"])
  thenm done (ac (# "K")) 1
  elsem done (ac (# "K")) 0.

(** src/double_metaphone.rs:539-555, [handle_d]. *)
Definition handle_d (index : Z) : step :=
  ifm contains index 2 [$ "DG"] thenm
    (ifm contains (index + 2) 1 [$ "I"; $ "E"; $ "Y"] thenm done (ac (# "J")) 2
     elsem done (astr $ "TK") 1)
  elsem
  ifm contains index 2 [$ "DT"; $ "DD"] thenm done (ac (# "T")) 1
  elsem done (ac (# "T")) 0.

(** src/double_metaphone.rs:624-659, [handle_gh]. *)
Definition handle_gh (index : Z) : step :=
  ifm pure (0 <? index) &&! notr (at_vowel (index - 1)) thenm done (ac (# "K")) 1
  elsem
  if index =? 0 then
    ifm at_is (index + 2) (# "I") thenm done (ac (# "J")) 1 elsem done (ac (# "K")) 1
  else
  ifm (pure (1 <? index) &&! contains (index - 2) 1 [$ "B"; $ "H"; $ "D"])
      ||! (pure (2 <? index) &&! contains (index - 3) 1 [$ "B"; $ "H"; $ "D"])
      ||! (pure (3 <? index) &&! contains (index - 4) 1 [$ "B"; $ "H"])
  thenm done [] 1
  elsem
  ifm pure (2 <? index) &&! at_is (index - 1) (# "U")
      &&! contains (index - 3) 1 [$ "C"; $ "G"; $ "L"; $ "R"; $ "T"]
  thenm done (ac (# "F")) 1
  elsem
  ifm pure (0 <? index) &&! notr (at_is (index - 1) (# "I")) thenm done (ac (# "K")) 1
  elsem done [] 1.

(** src/double_metaphone.rs:557-622, [handle_g]. *)
Definition handle_g (slavo_germanic : bool) (index : Z) : step :=
  ifm at_is (index + 1) (# "H") thenm handle_gh index
  elsem
  ifm at_is (index + 1) (# "N") thenm
    (ifm pure (index =? 1) &&! at_vowel 0 &&! pure (negb slavo_germanic)
     thenm done (astr2 $ "KN" $ "N") 1
     elsem
     ifm notr (contains (index + 2) 2 [$ "EY"]) &&! notr (at_is (index + 1) (# "Y"))
         &&! pure (negb slavo_germanic)
     thenm done (astr2 $ "N" $ "KN") 1
     elsem done (astr $ "KN") 1)
  elsem
  ifm contains (index + 1) 2 [$ "LI"] &&! pure (negb slavo_germanic)
  thenm done (astr2 $ "KL" $ "L") 1
  elsem
  ifm (pure (index =? 0)
       &&! (at_is (index + 1) (# "Y")
            ||! contains_array (index + 1) 2 ES_EP_EB_EL_EY_IB_IL_IN_IE_EI_ER))
      ||! ((contains (index + 1) 2 [$ "ER"] ||! at_is (index + 1) (# "Y"))
           &&! notr (contains 0 6 [$ "DANGER"; $ "RANGER"; $ "MANGER"])
           &&! (pure (index =? 0) ||! notr (contains (index - 1) 1 [$ "E"; $ "I"]))
           &&! (pure (index =? 0) ||! notr (contains (index - 1) 3 [$ "RGY"; $ "OGY"])))
  thenm done (ac2 (# "K") (# "J")) 1
  elsem
  ifm contains (index + 1) 1 [$ "E"; $ "I"; $ "Y"]
      ||! (pure (0 <? index) &&! contains (index - 1) 4 [$ "AGGI"; $ "OGGI"])
  thenm
    (ifm contains 0 4 [$ "VAN "; $ "VON "] ||! contains 0 3 [$ "SCH"]
         ||! contains (index + 1) 2 [$ "ET"]
     thenm done (ac (# "K")) 1
     elsem
     ifm contains (index + 1) 3 [$ "IER"] thenm done (ac (# "J")) 1
     elsem done (ac2 (# "J") (# "K")) 1)
  elsem
  ifm at_is (index + 1) (# "G") thenm done (ac (# "K")) 1
  elsem done (ac (# "K")) 0.

(** src/double_metaphone.rs:661-679, [handle_h]. *)
Definition handle_h (index : Z) : step :=
  ifm (pure (index =? 0) ||! at_vowel (index - 1)) &&! at_vowel (index + 1)
  thenm done (ac (# "H")) 1
  elsem done [] 0.

(** src/double_metaphone.rs:681-726, [handle_j]. *)
Definition handle_j (slavo_germanic : bool) (index : Z) : step :=
  ifm contains index 4 [$ "JOSE"] ||! contains 0 4 [$ "SAN "] thenm
    (ifm ((pure (index =? 0) &&! at_is (index + 4) (# " ")) ||! pure (len =? 4))
         ||! contains 0 4 [$ "SAN "]
     thenm done (ac (# "H")) 0
     elsem done (ac2 (# "J") (# "H")) 0)
  elsem
  (ops <-
     (ifm pure (index =? 0) &&! notr (contains index 4 [$ "JOSE"])
      thenm Ok (ac2 (# "J") (# "A"))
      elsem
      ifm pure (0 <? index) &&! at_vowel (index - 1) &&! pure (negb slavo_germanic)
          &&! (at_is (index + 1) (# "A") ||! at_is (index + 1) (# "O"))
      thenm Ok (ac2 (# "J") (# "H"))
      elsem
      if index =? len - 1 then Ok (ac2 (# "J") (# " "))
      else
      ifm notr (contains_array (index + 1) 1 L_T_K_S_N_M_B_Z)
          &&! (pure (index =? 0) ||! notr (contains (index - 1) 1 [$ "S"; $ "K"; $ "L"]))
      thenm Ok (ac (# "J"))
      elsem Ok []) ;;
   then_skip_if ops (at_is (index + 1) (# "J"))).

(** src/double_metaphone.rs:742-756, [condition_l0]. *)
Definition condition_l0 (index : Z) : res bool :=
  ifm pure (3 <=? len) &&! pure (index =? len - 3) &&! pure (0 <? index)
      &&! contains (index - 1) 4 [$ "ILLO"; $ "ILLA"; $ "ALLE"]
  thenm Ok true
  elsem
  (((pure (1 <? len) &&! contains (len - 2) 2 [$ "AS"; $ "OS"])
    ||! (pure (0 <? len) &&! contains (len - 1) 1 [$ "A"; $ "O"]))
   &&! pure (0 <? len)
   &&! contains (index - 1) 4 [$ "ALLE"]).

(** src/double_metaphone.rs:728-740, [handle_l]. *)
Definition handle_l (index : Z) : step :=
  ifm at_is (index + 1) (# "L") thenm
    (ifm condition_l0 index thenm done [AppPrimary (# "L")] 1 elsem done (ac (# "L")) 1)
  elsem done (ac (# "L")) 0.

(** src/double_metaphone.rs:758-767, [condition_m0]. *)
Definition condition_m0 (index : Z) : res bool :=
  ifm at_is (index + 1) (# "M") thenm Ok true
  elsem
  (pure (0 <? index) &&! contains (index - 1) 3 [$ "UMB"]
   &&! (pure (index + 1 =? len - 1) ||! contains (index + 2) 2 [$ "ER"])).

(** src/double_metaphone.rs:769-781, [handle_p]. *)
Definition handle_p (index : Z) : step :=
  ifm at_is (index + 1) (# "H") thenm done (ac (# "F")) 1
  elsem then_skip_if (ac (# "P")) (contains (index + 1) 1 [$ "P"; $ "B"]).

(** src/double_metaphone.rs:783-804, [handle_r]. *)
Definition handle_r (slavo_germanic : bool) (index : Z) : step :=
  ops <-
    (ifm pure (3 <? index) &&! pure (index =? len - 1) &&! pure (negb slavo_germanic)
         &&! contains (index - 2) 2 [$ "IE"] &&! notr (contains (index - 4) 2 [$ "ME"; $ "MA"])
     thenm Ok [AppAlternate (# "R")]
     elsem Ok (ac (# "R"))) ;;
  then_skip_if ops (at_is (index + 1) (# "R")).

(** src/double_metaphone.rs:870-903, [handle_sc]. *)
Definition handle_sc (index : Z) : step :=
  ifm at_is (index + 2) (# "H") thenm
    (ifm contains (index + 3) 2 [$ "OO"; $ "ER"; $ "EN"; $ "UY"; $ "ED"; $ "EM"] thenm
       (ifm contains (index + 3) 2 [$ "ER"; $ "EN"] thenm done (astr2 $ "X" $ "SK") 2
        elsem done (astr $ "SK") 2)
     elsem
     ifm pure (index =? 0) &&! notr (at_vowel 3) &&! notr (at_is 3 (# "W"))
     thenm done (ac2 (# "X") (# "S")) 2
     elsem done (ac (# "X")) 2)
  elsem
  ifm contains (index + 2) 1 [$ "I"; $ "E"; $ "Y"] thenm done (ac (# "S")) 2
  elsem done (astr $ "SK") 2.

(** src/double_metaphone.rs:806-868, [handle_s]. *)
Definition handle_s (slavo_germanic : bool) (index : Z) : step :=
  ifm pure (0 <? index) &&! contains (index - 1) 3 [$ "ISL"; $ "YSL"] thenm done [] 0
  elsem
  ifm pure (index =? 0) &&! contains index 5 [$ "SUGAR"] thenm done (ac2 (# "X") (# "S")) 0
  elsem
  ifm contains index 2 [$ "SH"] thenm
    (ifm contains (index + 1) 4 [$ "HEIM"; $ "HOEK"; $ "HOLM"; $ "HOLZ"]
     thenm done (ac (# "S")) 1
     elsem done (ac (# "X")) 1)
  elsem
  ifm contains index 3 [$ "SIO"; $ "SIA"] ||! contains index 4 [$ "SIAN"] thenm
    (if slavo_germanic then done (ac (# "S")) 2 else done (ac2 (# "S") (# "X")) 2)
  elsem
  ifm (pure (index =? 0) &&! contains (index + 1) 1 [$ "M"; $ "N"; $ "L"; $ "W"])
      ||! contains (index + 1) 1 [$ "Z"]
  thenm then_skip_if (ac2 (# "S") (# "X")) (contains (index + 1) 1 [$ "Z"])
  elsem
  ifm contains index 2 [$ "SC"] thenm handle_sc index
  elsem
  (ops <-
     (ifm pure (1 <? index) &&! pure (index =? len - 1) &&! contains (index - 2) 2 [$ "AI"; $ "OI"]
      thenm Ok [AppAlternate (# "S")]
      elsem Ok (ac (# "S"))) ;;
   then_skip_if ops (contains (index + 1) 1 [$ "S"; $ "Z"])).

(** src/double_metaphone.rs:905-932, [handle_t]. *)
Definition handle_t (index : Z) : step :=
  ifm contains index 4 [$ "TION"] ||! contains index 3 [$ "TIA"; $ "TCH"]
  thenm done (ac (# "X")) 2
  elsem
  ifm contains index 2 [$ "TH"] ||! contains index 3 [$ "TTH"] thenm
    (ifm contains (index + 2) 2 [$ "OM"; $ "AM"] ||! contains 0 4 [$ "VAN "; $ "VON "]
         ||! contains 0 3 [$ "SCH"]
     thenm done (ac (# "T")) 1
     elsem done (ac2 (# "0") (# "T")) 1)
  elsem then_skip_if (ac (# "T")) (contains (index + 1) 1 [$ "T"; $ "D"]).

(** src/double_metaphone.rs:934-981, [handle_w]. *)
Definition handle_w (index : Z) : step :=
  ifm contains index 2 [$ "WR"] thenm done (ac (# "R")) 1
  elsem
  ifm pure (index =? 0) &&! (at_vowel (index + 1) ||! contains index 2 [$ "WH"]) thenm
    (ifm at_vowel (index + 1) thenm done (ac2 (# "A") (# "F")) 0
     elsem done (ac (# "A")) 0)
  elsem
  ifm (pure (0 <? index) &&! pure (index =? len - 1) &&! at_vowel (index - 1))
      ||! (pure (0 <? index)
           &&! contains (index - 1) 5 [$ "EWSKI"; $ "EWSKY"; $ "OWSKI"; $ "OWSKY"])
      ||! contains 0 3 [$ "SCH"]
  thenm done [AppAlternate (# "F")] 0
  elsem
  ifm contains index 4 [$ "WICZ"; $ "WITZ"] thenm done (astr2 $ "TS" $ "FX") 3
  elsem done [] 0.

(** src/double_metaphone.rs:983-1001, [handle_x]. *)
Definition handle_x (index : Z) : step :=
  if index =? 0 then done (ac (# "S")) 0
  else
    ops <-
      (ifm notr (pure (index =? len - 1)
                 &&! ((pure (2 <? index) &&! contains (index - 3) 3 [$ "IAU"; $ "EAU"])
                      ||! (pure (1 <? index) &&! contains (index - 2) 2 [$ "AU"; $ "OU"])))
       thenm Ok (astr $ "KS")
       elsem Ok []) ;;
    then_skip_if ops (contains (index + 1) 1 [$ "C"; $ "X"]).

(** src/double_metaphone.rs:1003-1027, [handle_z]. *)
Definition handle_z (slavo_germanic : bool) (index : Z) : step :=
  ifm at_is (index + 1) (# "H") thenm done (ac (# "J")) 1
  elsem
  (ops <-
     (ifm contains (index + 1) 2 [$ "ZO"; $ "ZI"; $ "ZA"]
          ||! (pure slavo_germanic &&! (pure (0 <? index) &&! notr (at_is (index - 1) (# "T"))))
      thenm Ok (astr2 $ "S" $ "TS")
      elsem Ok (ac (# "S"))) ;;
   then_skip_if ops (at_is (index + 1) (# "Z"))).

(** src/double_metaphone.rs:297-382: the [match] on the current character. *)
Definition dm_char (slavo_germanic : bool) (index : Z) (c : N) : step :=
  if isin c $ "AEIOUY" then (if index =? 0 then done (ac (# "A")) 0 else done [] 0)
  else if N.eqb c (# "B") then then_skip_if (ac (# "P")) (at_is (index + 1) (# "B"))
  else if N.eqb c (# "Ç") then done (ac (# "S")) 0
  else if N.eqb c (# "C") then handle_c index
  else if N.eqb c (# "D") then handle_d index
  else if N.eqb c (# "F") then then_skip_if (ac (# "F")) (at_is (index + 1) (# "F"))
  else if N.eqb c (# "G") then handle_g slavo_germanic index
  else if N.eqb c (# "H") then handle_h index
  else if N.eqb c (# "J") then handle_j slavo_germanic index
  else if N.eqb c (# "K") then then_skip_if (ac (# "K")) (at_is (index + 1) (# "K"))
  else if N.eqb c (# "L") then handle_l index
  else if N.eqb c (# "M") then then_skip_if (ac (# "M")) (condition_m0 index)
  else if N.eqb c (# "N") then then_skip_if (ac (# "N")) (at_is (index + 1) (# "N"))
  else if N.eqb c (# "Ñ") then done (ac (# "N")) 0
  else if N.eqb c (# "P") then handle_p index
  else if N.eqb c (# "Q") then then_skip_if (ac (# "K")) (at_is (index + 1) (# "Q"))
  else if N.eqb c (# "R") then handle_r slavo_germanic index
  else if N.eqb c (# "S") then handle_s slavo_germanic index
  else if N.eqb c (# "T") then handle_t index
  else if N.eqb c (# "V") then then_skip_if (ac (# "F")) (at_is (index + 1) (# "V"))
  else if N.eqb c (# "W") then handle_w index
  else if N.eqb c (# "X") then handle_x index
  else if N.eqb c (# "Z") then handle_z slavo_germanic index
  else done [] 0.

(** src/double_metaphone.rs:293-388: the loop.  [items] are the (byte offset,
    character) pairs from the current one on; [skip] counts the items that
    [iterator.nth(skip)] passes over. *)
Fixpoint dm_loop (max : option nat) (slavo_germanic : bool) (skip : nat)
         (items : list (nat * N)) (r : dm_result) : res dm_result :=
  match items with
  | [] => Ok r
  | (offset, c) :: items' =>
      match skip with
      | S k => dm_loop max slavo_germanic k items' r
      | O =>
          if dm_is_complete max r then Ok r
          else
            '(ops, skip') <- dm_char slavo_germanic (Z.of_nat offset) c ;;
            r' <- dm_apply max r ops ;;
            dm_loop max slavo_germanic skip' items' r'
      end
  end.

End Handlers.

(** src/double_metaphone.rs:276-391, [double_metaphone]. *)
Definition double_metaphone (u : Unicode) (max : option nat) (value : ustr) : res dm_result :=
  let value := trim u value in
  match value with
  | [] => Ok {| dm_primary := []; dm_alternate := [] |}
  | _ =>
      let value := str_upper u value in
      let skip := if existsb (starts_with value) SILENT_START then 1%nat else 0%nat in
      dm_loop value max (is_slavo_germanic value) skip (char_indices value)
        {| dm_primary := []; dm_alternate := [] |}
  end.

(** src/double_metaphone.rs:1040-1042, [encode]. *)
Definition dm_encode (u : Unicode) (max : option nat) : encoder := fun value =>
  rmap dm_primary (double_metaphone u max value).
(** src/double_metaphone.rs:194-196, [encode_alternate]. *)
Definition dm_encode_alternate (u : Unicode) (max : option nat) : encoder := fun value =>
  rmap dm_alternate (double_metaphone u max value).
(** src/double_metaphone.rs:208-216, [is_double_metaphone_equal]. *)
Definition is_double_metaphone_equal (u : Unicode) (max : option nat) (value1 value2 : ustr)
           (alternate : bool) : res bool :=
  r1 <- double_metaphone u max value1 ;;
  r2 <- double_metaphone u max value2 ;;
  Ok (if alternate then seq_eqb (dm_alternate r1) (dm_alternate r2)
      else seq_eqb (dm_primary r1) (dm_primary r2)).
(** src/double_metaphone.rs:165-172, [Default]. *)
Definition dm_default_max : option nat := Some 4%nat.
