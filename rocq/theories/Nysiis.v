(** * Nysiis (src/nysiis.rs). *)
From Verif Require Import Base UnicodeM Lib Helper.
Local Open Scope N_scope.

(** src/nysiis.rs:46 *)
Definition TRUE_LENGTH : nat := 6.

(** [is_vowel(Some(c.to_ascii_lowercase()), false)] *)
Definition ny_vowel (c : N) : bool := is_vowel (Some (ascii_low c)) false.
Definition ny_vowel_opt (c : option N) : bool := is_vowel (option_map ascii_low c) false.

(** src/nysiis.rs:80-120, [transcode]. *)
Definition ny_transcode (previous current : N) (next next_next : option N) : ustr :=
  if (current =? # "E") && opt_is next (# "V") then $ "AF"
  else if ny_vowel current then $ "A"
  else if current =? # "Q" then $ "G"
  else if current =? # "Z" then $ "S"
  else if current =? # "M" then $ "N"
  else if (current =? # "K") && opt_is next (# "N") then $ "NN"
  else if current =? # "K" then $ "C"
  else if (current =? # "S") && opt_is next (# "C") && opt_is next_next (# "H") then $ "SSS"
  else if (current =? # "P") && opt_is next (# "H") then $ "FF"
  else if ((current =? # "H") && (negb (ny_vowel previous) || negb (ny_vowel_opt next)))
          || ((current =? # "W") && ny_vowel previous)
       then [previous]
       else [current].

(** [if tmp.starts_with(p) { tmp.replace_range(..p.len(), to) }] *)
Definition ny_replace_start (p to tmp : ustr) : ustr :=
  match strip_prefix p tmp with Some rest => to ++ rest | None => tmp end.

(** [tmp.replace_range(tmp.len() - 2.., to)] after a test that [tmp] ends with a
    pattern of two ASCII letters. *)
Definition ny_replace_last2 (to tmp : ustr) : ustr := firstn (length tmp - 2) tmp ++ to.

(** src/nysiis.rs:139-153: the beginning of the name. *)
Definition ny_start (tmp : ustr) : ustr :=
  let tmp := ny_replace_start $ "MAC" $ "MCC" tmp in
  let tmp := ny_replace_start $ "KN" $ "NN" tmp in
  let tmp := ny_replace_start $ "K" $ "C" tmp in
  let tmp := if starts_with tmp $ "PH" || starts_with tmp $ "PF"
             then $ "FF" ++ skipn 2 tmp else tmp in
  ny_replace_start $ "SCH" $ "SSS" tmp.

(** src/nysiis.rs:155-165: the end of the name. *)
Definition ny_end (tmp : ustr) : ustr :=
  let tmp := if ends_with tmp $ "EE" || ends_with tmp $ "IE"
             then ny_replace_last2 $ "Y" tmp else tmp in
  if ends_with tmp $ "DT" || ends_with tmp $ "RT" || ends_with tmp $ "RD"
     || ends_with tmp $ "NT" || ends_with tmp $ "ND"
  then ny_replace_last2 $ "D" tmp else tmp.

(** src/nysiis.rs:179-193: the loop over the array [chars].  [previous] is
    [chars[index - 1]] and [chars] the array from [index] on; writing the
    transcoded characters at [index..] panics if they do not fit.  [n] is the
    number of characters left ([len - index]). Returns the characters pushed. *)
Fixpoint ny_loop (n : nat) (previous : N) (chars : ustr) : res ustr :=
  match chars with
  | [] => Ok []
  | current :: rest =>
      match n with
      | O => NoFuel
      | S n' =>
          let t := ny_transcode previous current (hd_error rest) (hd_error (tl rest)) in
          if Nat.ltb (length chars) (length t) then Panic
          else
            match t ++ skipn (length t) chars with
            | [] => Panic
            | current' :: rest' =>
                pushed <- ny_loop n' current' rest' ;;
                Ok (if previous =? current' then pushed else current' :: pushed)
            end
      end
  end.

(** src/nysiis.rs:195-214: the end of the key.  The removed characters are
    ASCII, so the byte offsets are on character boundaries and dropping one byte
    is dropping the last character; the tests on [tmp.len()] are in bytes. *)
Definition ny_finish (key : ustr) : ustr :=
  if Nat.ltb 1 (blen key) then
    let tmp := key in
    let tmp := if ends_with tmp $ "S" then firstn (length tmp - 1) tmp else tmp in
    let tmp := if Nat.ltb 2 (blen tmp) && ends_with tmp $ "AY"
               then firstn (length tmp - 2) tmp ++ skipn (length tmp - 1) tmp else tmp in
    if ends_with tmp $ "A" then firstn (length tmp - 1) tmp else tmp
  else key.

(** src/nysiis.rs:132-222, [encode].  ([result], lines 167-170, is a write-only
    variable shadowed later; it is not modelled.) *)
Definition nysiis_encode (u : Unicode) (strict : bool) : encoder := fun value =>
  let tmp := soundex_clean u value in
  match tmp with
  | [] => Ok []
  | _ =>
      match ny_end (ny_start tmp) with
      | [] => Panic (* chars[0] *)
      | c :: rest =>
          pushed <- ny_loop (length rest) c rest ;;
          let result := ny_finish (c :: pushed) in
          if strict then slice_to (Nat.min (blen result) TRUE_LENGTH) result
          else Ok result
      end
  end.
