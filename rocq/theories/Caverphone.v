(** * Caverphone 1 and 2 (src/caverphone.rs). *)
From Verif Require Import Base UnicodeM Lib Helper.
Local Open Scope N_scope.

(** [if txt.starts_with(p) { txt.replacen(p, to, 1) } else { txt }]: when the
    text starts with [p] the first match is that prefix. *)
Definition replace_start (p to txt : ustr) : ustr :=
  match strip_prefix p txt with
  | Some rest => to ++ rest
  | None => txt
  end.

(** src/caverphone.rs:92-98 (218-224). *)
Definition first_vowel_to_A (txt : ustr) : ustr :=
  replace_char txt (fun i c => if Nat.eqb i 0 && is_vowel (Some c) false then # "A" else c).
(** src/caverphone.rs:100-106 (226-232). *)
Definition vowels_to_3 (txt : ustr) : ustr :=
  replace_char txt (fun _ c => if is_vowel (Some c) false then # "3" else c).

(** Run the passes one after the other. *)
Definition run_passes (passes : list (ustr -> ustr)) (txt : ustr) : ustr :=
  fold_left (fun t f => f t) passes txt.

(** src/caverphone.rs:21-22 *)
Definition SIX_1 : ustr := $ "111111".
Definition TEN_1 : ustr := $ "1111111111".

(** src/caverphone.rs:48-134: the successive rewriting passes of Caverphone1::encode, in order. *)
Definition caverphone1_passes : list (ustr -> ustr) := [
  replace_start $ "cough" $ "cou2f" (* 48-52 *);
  replace_start $ "rough" $ "rou2f" (* 53-57 *);
  replace_start $ "tough" $ "tou2f" (* 58-62 *);
  replace_start $ "enough" $ "enou2f" (* 63-67 *);
  replace_start $ "gn" $ "2n" (* 68-72 *);
  (fun t => replace_end t $ "mb" $ "m2") (* 74 *);
  replace $ "cq" $ "2q" (* 75 *);
  replace $ "ci" $ "si" (* 76 *);
  replace $ "ce" $ "se" (* 77 *);
  replace $ "cy" $ "sy" (* 78 *);
  replace $ "tch" $ "2ch" (* 79 *);
  replace $ "c" $ "k" (* 80 *);
  replace $ "q" $ "k" (* 81 *);
  replace $ "x" $ "k" (* 82 *);
  replace $ "v" $ "f" (* 83 *);
  replace $ "dg" $ "2g" (* 84 *);
  replace $ "tio" $ "sio" (* 85 *);
  replace $ "tia" $ "sia" (* 86 *);
  replace $ "d" $ "t" (* 87 *);
  replace $ "ph" $ "fh" (* 88 *);
  replace $ "b" $ "p" (* 89 *);
  replace $ "sh" $ "s2" (* 90 *);
  replace $ "z" $ "s" (* 91 *);
  first_vowel_to_A (* 92-98 *);
  vowels_to_3 (* 100-106 *);
  replace $ "3gh3" $ "3kh3" (* 107 *);
  replace $ "gh" $ "22" (* 108 *);
  replace $ "g" $ "k" (* 109 *);
  (fun t => replace_compact_all_to_uppercase t $ "stpkfmn") (* 110-111 *);
  replace $ "w3" $ "W3" (* 112 *);
  replace $ "wy" $ "Wy" (* 113 *);
  replace $ "wh3" $ "Wh3" (* 114 *);
  replace $ "why" $ "Why" (* 115 *);
  replace $ "w" $ "2" (* 116 *);
  replace_start $ "h" $ "A" (* 117-121 *);
  replace $ "h" $ "2" (* 122 *);
  replace $ "r3" $ "R3" (* 123 *);
  replace $ "ry" $ "Ry" (* 124 *);
  replace $ "r" $ "2" (* 125 *);
  replace $ "l3" $ "L3" (* 126 *);
  replace $ "ly" $ "Ly" (* 127 *);
  replace $ "l" $ "2" (* 128 *);
  replace $ "j" $ "y" (* 129 *);
  replace $ "y3" $ "Y3" (* 130 *);
  replace $ "y" $ "2" (* 131 *);
  replace $ "2" $ "" (* 133 *);
  replace $ "3" $ "" (* 134 *)
].

(** src/caverphone.rs:166-269: the successive rewriting passes of Caverphone2::encode, in order. *)
Definition caverphone2_passes : list (ustr -> ustr) := [
  (fun t => replace_end t $ "e" $ "") (* 166 *);
  replace_start $ "cough" $ "cou2f" (* 168-172 *);
  replace_start $ "rough" $ "rou2f" (* 173-177 *);
  replace_start $ "tough" $ "tou2f" (* 178-182 *);
  replace_start $ "enough" $ "enou2f" (* 183-187 *);
  replace_start $ "trough" $ "trou2f" (* 188-192 *);
  replace_start $ "gn" $ "2n" (* 193-197 *);
  (fun t => replace_end t $ "mb" $ "m2") (* 199 *);
  replace $ "cq" $ "2q" (* 201 *);
  replace $ "ci" $ "si" (* 202 *);
  replace $ "ce" $ "se" (* 203 *);
  replace $ "cy" $ "sy" (* 204 *);
  replace $ "tch" $ "2ch" (* 205 *);
  replace $ "c" $ "k" (* 206 *);
  replace $ "q" $ "k" (* 207 *);
  replace $ "x" $ "k" (* 208 *);
  replace $ "v" $ "f" (* 209 *);
  replace $ "dg" $ "2g" (* 210 *);
  replace $ "tio" $ "sio" (* 211 *);
  replace $ "tia" $ "sia" (* 212 *);
  replace $ "d" $ "t" (* 213 *);
  replace $ "ph" $ "fh" (* 214 *);
  replace $ "b" $ "p" (* 215 *);
  replace $ "sh" $ "s2" (* 216 *);
  replace $ "z" $ "s" (* 217 *);
  first_vowel_to_A (* 218-224 *);
  vowels_to_3 (* 226-232 *);
  replace $ "j" $ "y" (* 233 *);
  replace_start $ "y3" $ "Y3" (* 234-238 *);
  replace_start $ "y" $ "A" (* 239-243 *);
  replace $ "y" $ "3" (* 244 *);
  replace $ "3gh3" $ "3kh3" (* 245 *);
  replace $ "gh" $ "22" (* 246 *);
  replace $ "g" $ "k" (* 247 *);
  (fun t => replace_compact_all_to_uppercase t $ "stpkfmn") (* 248-249 *);
  replace $ "w3" $ "W3" (* 250 *);
  replace $ "wh3" $ "Wh3" (* 251 *);
  (fun t => replace_end t $ "w" $ "3") (* 252 *);
  replace $ "w" $ "2" (* 253 *);
  replace_start $ "h" $ "A" (* 254-258 *);
  replace $ "h" $ "2" (* 259 *);
  replace $ "r3" $ "R3" (* 260 *);
  (fun t => replace_end t $ "r" $ "3") (* 261 *);
  replace $ "r" $ "2" (* 262 *);
  replace $ "l3" $ "L3" (* 263 *);
  (fun t => replace_end t $ "l" $ "3") (* 264 *);
  replace $ "l" $ "2" (* 265 *);
  replace $ "2" $ "" (* 267 *);
  (fun t => replace_end t $ "3" $ "A") (* 268 *);
  replace $ "3" $ "" (* 269 *)
].

(** src/caverphone.rs:39-139, [Caverphone1::encode]. *)
Definition caverphone1_encode (u : Unicode) : encoder := fun s =>
  match s with
  | [] => Ok SIX_1
  | _ =>
      let txt := remove_all_non_letter u (str_lower u s) in
      let txt := run_passes caverphone1_passes txt in
      slice 0 (blen SIX_1) (txt ++ SIX_1)
  end.

(** src/caverphone.rs:157-274, [Caverphone2::encode]. *)
Definition caverphone2_encode (u : Unicode) : encoder := fun s =>
  match s with
  | [] => Ok TEN_1
  | _ =>
      let txt := remove_all_non_letter u (str_lower u s) in
      let txt := run_passes caverphone2_passes txt in
      slice 0 (blen TEN_1) (txt ++ TEN_1)
  end.
