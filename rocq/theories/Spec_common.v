(** * Shared specification vocabulary (independent of the model's helpers). *)
From Verif Require Import Base.
Local Open Scope N_scope.

(** Runs of equal adjacent elements are collapsed to one. *)
Fixpoint collapse (l : ustr) : ustr :=
  match l with
  | [] => []
  | x :: r => match r with
              | [] => [x]
              | y :: _ => if x =? y then collapse r else x :: collapse r
              end
  end.

(** No two adjacent elements are equal. *)
Fixpoint no_adjacent_equal (l : ustr) : Prop :=
  match l with
  | [] => True
  | x :: r => match r with [] => True | y :: _ => x <> y /\ no_adjacent_equal r end
  end.

(** Cut to [n] elements, filling up with [fill]. *)
Definition pad_to (n : nat) (fill : N) (l : ustr) : ustr :=
  firstn n (l ++ repeat fill n).

(** The number of positions at which two words carry the same character. *)
Definition agreeing_positions (a b : ustr) : nat :=
  length (filter (fun i => match nth_error a i, nth_error b i with
                           | Some x, Some y => x =? y
                           | _, _ => false
                           end) (seq 0 (length a))).

(** Every alphabetic character of the text is an ASCII letter. *)
Definition letters_are_ascii (is_letter : N -> bool) (s : ustr) : Prop :=
  forall c, In c s -> is_letter c = true -> c < 128.

(** The ASCII letters of a text, uppercased. *)
Definition ascii_letters (s : ustr) : ustr := map ascii_up (filter is_ascii_alpha s).
