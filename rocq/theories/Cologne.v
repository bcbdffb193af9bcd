(** * Cologne (src/cologne.rs). *)
From Verif Require Import Base UnicodeM Lib.
Local Open Scope N_scope.

(** src/cologne.rs:21-30 *)
Definition CHAR_IGNORE : N := # "-".
Definition AEIJOUY : ustr := $ "AEIJOUY".
Definition CSZ : ustr := $ "CSZ".
Definition FPVW : ustr := $ "FPVW".
Definition GKQ : ustr := $ "GKQ".
Definition CKQ : ustr := $ "CKQ".
Definition AHKLOQRUX : ustr := $ "AHKLOQRUX".
Definition SZ : ustr := $ "SZ".
Definition AHKOQUX : ustr := $ "AHKOQUX".
Definition DTX : ustr := $ "DTX".

(** src/cologne.rs:32-35.  The [buffer] is kept in reverse. *)
Record CologneOutput := { co_last : N; co_rev_buffer : ustr }.

(** src/cologne.rs:38-43 *)
Definition co_new : CologneOutput := {| co_last := # "/"; co_rev_buffer := [] |}.

Definition co_is_empty (o : CologneOutput) : bool :=
  match co_rev_buffer o with [] => true | _ => false end.

(** src/cologne.rs:45-51, [push]. *)
Definition co_push (o : CologneOutput) (c : N) : CologneOutput :=
  {| co_last := c;
     co_rev_buffer :=
       if negb (c =? CHAR_IGNORE) && negb (co_last o =? c) && (negb (c =? # "0") || co_is_empty o)
       then c :: co_rev_buffer o
       else co_rev_buffer o |}.

(** src/cologne.rs:87-126: the treatment of one uppercase ASCII letter [c],
    given the letter handled before ([last_char]) and the next character. *)
Definition cologne_step (o : CologneOutput) (last_char c next_char : N) : CologneOutput :=
  if isin c AEIJOUY then co_push o (# "0")
  else if (c =? # "B") || ((c =? # "P") && negb (next_char =? # "H")) then co_push o (# "1")
  else if ((c =? # "D") || (c =? # "T")) && negb (isin next_char CSZ) then co_push o (# "2")
  else if isin c FPVW then co_push o (# "3")
  else if isin c GKQ then co_push o (# "4")
  else if (c =? # "X") && negb (isin last_char CKQ) then co_push (co_push o (# "4")) (# "8")
  else if (c =? # "S") || (c =? # "Z") then co_push o (# "8")
  else if c =? # "C" then
    if co_is_empty o then
      if isin next_char AHKLOQRUX then co_push o (# "4") else co_push o (# "8")
    else if isin last_char SZ || negb (isin next_char AHKOQUX) then co_push o (# "8")
    else co_push o (# "4")
  else if isin c DTX then co_push o (# "8")
  else if c =? # "R" then co_push o (# "7")
  else if c =? # "L" then co_push o (# "5")
  else if (c =? # "M") || (c =? # "N") then co_push o (# "6")
  else if c =? # "H" then co_push o CHAR_IGNORE
  else o.

(** src/cologne.rs:82-129: the loop.  [peek] is the head of the rest. *)
Fixpoint cologne_loop (o : CologneOutput) (last_char : N) (chars : ustr) : CologneOutput :=
  match chars with
  | [] => o
  | c :: r =>
      if negb (is_ascii_upper c) then cologne_loop o last_char r
      else cologne_loop (cologne_step o last_char c (hd CHAR_IGNORE r)) c r
  end.

(** src/cologne.rs:73-76: uppercase, then umlaut transcription. *)
Definition cologne_prepare (u : Unicode) (s : ustr) : ustr :=
  replace $ "Ö" $ "O" (replace $ "Ü" $ "U" (replace $ "Ä" $ "A" (str_upper u s))).

(** src/cologne.rs:69-132, [encode]: no operation in it can panic. *)
Definition cologne_encode (u : Unicode) : encoder := fun s =>
  Ok (rev (co_rev_buffer (cologne_loop co_new CHAR_IGNORE (cologne_prepare u s)))).
