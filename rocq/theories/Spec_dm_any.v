(** * Daitch-Mokotoff coding with any rule file and any text (specification).

    Replacements need not be ASCII: codes are cut at six bytes. *)
From Verif Require Import Base UnicodeM Spec_common DaitchMokotoff Spec_dm Spec_dm_file.
Local Open Scope N_scope.

(** The text that is scanned: no white space, the first character of every
    lowercase mapping, folded by the file's foldings when folding is on. *)
Definition dm_folded (items : list dm_item) (flag : bool) (c : N) : N :=
  if flag then match folding_of items c with Some y => y | None => c end else c.
Definition dm_text (u : Unicode) (items : list dm_item) (flag : bool) (value : ustr) : ustr :=
  flat_map (fun c => if is_whitespace u c then []
                     else match to_lower u c with
                          | [] => [c]
                          | l :: _ => [dm_folded items flag l]
                          end) value.

(** [b] is the beginning of [k] of six bytes, or all of [k] if it is shorter. *)
Definition first_six_bytes (k b : ustr) : Prop :=
  (exists rest, k = b ++ rest) /\ (blen b = 6%nat \/ b = k /\ (blen k < 6)%nat).
(** A character of [k] lies across the end of the sixth byte. *)
Definition torn (k : ustr) : Prop :=
  exists a c b, k = a ++ c :: b /\ (blen a < 6)%nat /\ (6 < blen a + utf8_len c)%nat.

(** The code of a selection. *)
Definition byte_code (sel : list (ustr * bool)) (code : ustr) : Prop :=
  exists b, first_six_bytes (kept None sel) b /\ code = b ++ repeat (# "0") (6 - blen b).
(** Two selections the encoder does not tell apart. *)
Definition byte_indistinct (a b : list (ustr * bool)) : Prop :=
  (exists c, first_six_bytes (kept None a) c /\ first_six_bytes (kept None b) c)
  /\ hd_error (rev (map fst a)) = hd_error (rev (map fst b)).
