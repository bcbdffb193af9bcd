(** * Specification of the Kölner Phonetik as a table (next: the following
      character of the text, prev: the preceding letter). *)
From Verif Require Import Base Spec_common.
Local Open Scope N_scope.

Definition one_of (o : option N) (l : ustr) : bool :=
  match o with Some c => isin c l | None => false end.

(** [onset]: no letter other than H precedes. *)
Definition cologne_table (onset : bool) (prev next : option N) (c : N) : ustr :=
  if isin c $ "AEIJOUY" then $ "0"
  else if isin c $ "B" then $ "1"
  else if isin c $ "P" then (if one_of next $ "H" then $ "3" else $ "1")
  else if isin c $ "DT" then (if one_of next $ "CSZ" then $ "8" else $ "2")
  else if isin c $ "FVW" then $ "3"
  else if isin c $ "GKQ" then $ "4"
  else if isin c $ "C" then
    (if onset then (if one_of next $ "AHKLOQRUX" then $ "4" else $ "8")
     else if one_of prev $ "SZ" then $ "8"
     else if one_of next $ "AHKOQUX" then $ "4" else $ "8")
  else if isin c $ "X" then (if one_of prev $ "CKQ" then $ "8" else $ "48")
  else if isin c $ "L" then $ "5"
  else if isin c $ "MN" then $ "6"
  else if isin c $ "R" then $ "7"
  else if isin c $ "SZ" then $ "8"
  else $ "-". (* H *)

(** The codes of all letters of an uppercase text; [before] lists the letters
    already seen, latest first. *)
Fixpoint cologne_codes (before text : ustr) : ustr :=
  match text with
  | [] => []
  | c :: rest =>
      if isin c $ "ABCDEFGHIJKLMNOPQRSTUVWXYZ"
      then cologne_table (forallb (fun l => l =? # "H") before) (hd_error before) (hd_error rest) c
             ++ cologne_codes (c :: before) rest
      else cologne_codes before rest
  end.

(** Collapse runs, drop the silent marks, drop every 0 but a leading one. *)
Definition cologne_reduce (codes : ustr) : ustr :=
  match filter (fun d => negb (d =? # "-")) (collapse codes) with
  | [] => []
  | d :: ds => d :: filter (fun d => negb (d =? # "0")) ds
  end.

Definition umlaut_base (c : N) : N :=
  if c =? # "Ä" then # "A" else if c =? # "Ö" then # "O" else if c =? # "Ü" then # "U"
  else if c =? # "ä" then # "a" else if c =? # "ö" then # "o" else if c =? # "ü" then # "u"
  else c.

Definition cologne_code (uppercase_text : ustr) : ustr :=
  cologne_reduce (cologne_codes [] (map umlaut_base uppercase_text)).
