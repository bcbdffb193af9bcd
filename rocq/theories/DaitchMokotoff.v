(** * Daitch-Mokotoff soundex (src/daitch_mokotoff.rs). *)
From Verif Require Import Base UnicodeM Lib Helper RulesParser.
Local Open Scope N_scope.

(** src/daitch_mokotoff.rs:30 *)
Definition MAX_LENGTH : nat := 6.

(** src/daitch_mokotoff.rs:33-36; line 38-45 is [branch_default]. *)
Record Branch := { br_builder : ustr; br_last : option ustr }.
Definition branch_default : Branch := {| br_builder := []; br_last := None |}.

(** Derived [PartialEq] on [Branch] (src/daitch_mokotoff.rs:32). *)
Definition branch_eqb (a b : Branch) : bool :=
  seq_eqb (br_builder a) (br_builder b)
  && match br_last a, br_last b with
     | None, None => true
     | Some x, Some y => seq_eqb x y
     | _, _ => false
     end.

(** src/daitch_mokotoff.rs:49-53, [finish]. *)
Definition br_finish (b : Branch) : ustr :=
  br_builder b ++ repeat (# "0") (MAX_LENGTH - blen (br_builder b)).

(** src/daitch_mokotoff.rs:55-69, [process_next_replacement]. *)
Definition process_next_replacement (b : Branch) (replacement : ustr) (append_force : bool)
  : res Branch :=
  let append := match br_last b with
                | None => true
                | Some v => negb (ends_with v replacement)
                end || append_force in
  builder <-
    (if append && Nat.ltb (blen (br_builder b)) MAX_LENGTH then
       let builder := br_builder b ++ replacement in
       if Nat.ltb MAX_LENGTH (blen builder) then slice 0 MAX_LENGTH builder else Ok builder
     else Ok (br_builder b)) ;;
  Ok {| br_builder := builder; br_last := Some replacement |}.

(** src/daitch_mokotoff.rs:73-78 *)
Record Rule := {
  r_pattern : ustr;
  r_at_start : list ustr;
  r_before_vowel : list ustr;
  r_default : list ustr
}.

(** [str::split(c)]: always at least one piece. *)
Fixpoint split_on (sep : N) (s : ustr) : list ustr :=
  match s with
  | [] => [[]]
  | c :: r =>
      if c =? sep then [] :: split_on sep r
      else match split_on sep r with
           | p :: ps => (c :: p) :: ps
           | [] => [[c]]
           end
  end.

(** src/daitch_mokotoff.rs:81-83, [parse_branch]. *)
Definition parse_branch (p : ustr) : list ustr := split_on (# "|") p.

(** src/daitch_mokotoff.rs:109-126, [TryFrom<(..)>] (it never fails). *)
Definition rule_of_parts (p : ustr * ustr * ustr * ustr) : Rule :=
  let '(p1, p2, p3, p4) := p in
  {| r_pattern := p1; r_at_start := parse_branch p2;
     r_before_vowel := parse_branch p3; r_default := parse_branch p4 |}.

(** src/daitch_mokotoff.rs:89-91, [matches]. *)
Definition rule_matches (r : Rule) (context : ustr) : bool := starts_with context (r_pattern r).

(** src/daitch_mokotoff.rs:93-106, [get_replacements]: the index of the next
    character is the byte length of the pattern, used as a character index. *)
Definition get_replacements (r : Rule) (context : ustr) (at_start : bool) : list ustr :=
  if at_start then r_at_start r
  else
    let next_index := blen (r_pattern r) in
    if Nat.ltb next_index (blen context) && is_vowel (nth_char context next_index) false
    then r_before_vowel r
    else r_default r.

(** src/daitch_mokotoff.rs:252-256.  The two [BTreeMap]s are association lists
    with unique keys (only lookups are observable). *)
Record DMS := {
  dms_ascii_folding : bool;
  dms_rules : list (N * list Rule);
  dms_folding_rules : list (N * N)
}.

(** [BTreeMap::get]. *)
Fixpoint assoc {A} (k : N) (l : list (N * A)) : option A :=
  match l with
  | [] => None
  | (k', v) :: r => if k' =? k then Some v else assoc k r
  end.

(** [BTreeMap::insert]: replaces the value of an existing key. *)
Fixpoint assoc_insert {A} (k : N) (v : A) (l : list (N * A)) : list (N * A) :=
  match l with
  | [] => [(k, v)]
  | (k', v') :: r => if k' =? k then (k, v) :: r else (k', v') :: assoc_insert k v r
  end.

(** [rules.entry(ch).or_default().push(rule)]. *)
Fixpoint entry_push (k : N) (x : Rule) (l : list (N * list Rule)) : list (N * list Rule) :=
  match l with
  | [] => [(k, [x])]
  | (k', v) :: r => if k' =? k then (k', v ++ [x]) :: r else (k', v) :: entry_push k x r
  end.

Section DM.
Variable u : Unicode.
Variable d : DMS.

(** src/daitch_mokotoff.rs:321-339: the cleaned source.  Only the first
    character of the lowercase mapping is used. *)
Definition dms_char (c : N) : N :=
  match to_lower u c with
  | [] => c
  | lower :: _ =>
      if dms_ascii_folding d
      then match assoc lower (dms_folding_rules d) with Some e => e | None => lower end
      else lower
  end.
Definition dms_source (value : ustr) : ustr :=
  map dms_char (filter (fun c => negb (is_whitespace u c)) value).

(** [next_branches.contains(&next_branch)] then [push]. *)
Definition push_branch (l : list Branch) (b : Branch) : list Branch :=
  if existsb (fun b' => branch_eqb b' b) l then l else l ++ [b].

(** src/daitch_mokotoff.rs:360-372: the replacements of a rule applied to one
    branch; without branching only the first one is used. *)
Fixpoint apply_replacements (branching force : bool) (branch : Branch) (replacements : list ustr)
         (next : list Branch) : res (list Branch) :=
  match replacements with
  | [] => Ok next
  | r :: rs =>
      nb <- process_next_replacement branch r force ;;
      let next := push_branch next nb in
      if branching then apply_replacements branching force branch rs next else Ok next
  end.

(** src/daitch_mokotoff.rs:359-373. *)
Fixpoint apply_to_branches (branching force : bool) (branches : list Branch)
         (replacements : list ustr) (next : list Branch) : res (list Branch) :=
  match branches with
  | [] => Ok next
  | b :: bs =>
      next <- apply_replacements branching force b replacements next ;;
      apply_to_branches branching force bs replacements next
  end.

(** src/daitch_mokotoff.rs:345-389: the scan.  [chars] is the source from the
    current position on ([context]); [skip] counts the characters still to be
    consumed by [iterator.nth(len - 2)] after a match. *)
Fixpoint dms_loop (branching : bool) (skip : nat) (last_char : N) (branches : list Branch)
         (chars : ustr) : res (list Branch) :=
  match chars with
  | [] => Ok branches
  | c :: r =>
      match skip with
      | S k => dms_loop branching k last_char branches r
      | O =>
          match assoc c (dms_rules d) with
          | None => dms_loop branching 0 last_char branches r
          | Some rules =>
              match find (fun rule => rule_matches rule chars) rules with
              | None => dms_loop branching 0 c branches r
              | Some rule =>
                  let force := ((last_char =? # "m") && (c =? # "n"))
                               || ((last_char =? # "n") && (c =? # "m")) in
                  next <- apply_to_branches branching force branches
                            (get_replacements rule chars (last_char =? 0)) [] ;;
                  dms_loop branching (blen (r_pattern rule) - 1) c next r
              end
          end
      end
  end.

(** src/daitch_mokotoff.rs:320-398, [inner_soundex]. *)
Definition inner_soundex (value : ustr) (branching : bool) : res (list ustr) :=
  branches <- dms_loop branching 0 0 [branch_default] (dms_source value) ;;
  Ok (map br_finish branches).

(** src/daitch_mokotoff.rs:420-425, [encode]. *)
Definition dms_encode : encoder := fun s =>
  l <- inner_soundex s false ;;
  Ok (match l with x :: _ => x | [] => [] end).

(** [join("|")] *)
Fixpoint join (sep : ustr) (l : list ustr) : ustr :=
  match l with
  | [] => []
  | [x] => x
  | x :: r => x ++ sep ++ join sep r
  end.

(** src/daitch_mokotoff.rs:284-286, [soundex]. *)
Definition dms_soundex (value : ustr) : res ustr :=
  l <- inner_soundex value true ;; Ok (join $ "|" l).

End DM.

(* ------------------------------------------------------------------ *)
(** ** The builder *)

(** src/daitch_mokotoff.rs:521: stable sort by decreasing byte length of the
    pattern (any stable sort gives the same list; insertion from the right). *)
Fixpoint insert_rule (x : Rule) (l : list Rule) : list Rule :=
  match l with
  | [] => [x]
  | y :: r => if Nat.leb (blen (r_pattern y)) (blen (r_pattern x)) then x :: l
              else y :: insert_rule x r
  end.
Fixpoint sort_rules (l : list Rule) : list Rule :=
  match l with [] => [] | x :: r => insert_rule x (sort_rules r) end.

Definition CANT_RECOGNIZE : ustr := $ "Can't recognize line".

(** src/daitch_mokotoff.rs:474-516: the loop.  [fuel] bounds the number of
    iterations; every iteration consumes at least one character. *)
Fixpoint dms_parse (fuel : nat) (rules : list (N * list Rule)) (foldings : list (N * N))
         (line_number : nat) (remains : ustr)
  : res ((list (N * list Rule) * list (N * N)) + ParseError) :=
  match remains with
  | [] => Ok (inl (rules, foldings))
  | _ =>
      match fuel with
      | O => NoFuel
      | S fuel' =>
          let line_number := S line_number in
          match quadruplet remains with
          | Some (q, rm) =>
              let rule := rule_of_parts q in
              c <- unwrap (hd_error (r_pattern rule)) ;;
              dms_parse fuel' (entry_push c rule rules) foldings line_number rm
          | None =>
          match folding remains with
          | Some ((pattern, replacement), rm) =>
              dms_parse fuel' rules (assoc_insert pattern replacement foldings) line_number rm
          | None =>
          match end_of_line remains with
          | Some (_, rm) => dms_parse fuel' rules foldings line_number rm
          | None =>
          match multiline_comment remains with
          | Some (ln, rm) => dms_parse fuel' rules foldings (line_number + ln) rm
          | None => Ok (inr (build_error line_number None remains CANT_RECOGNIZE))
          end end end end
      end
  end.

(** src/daitch_mokotoff.rs:469-528, [build]: [inl] is [Ok], [inr] is [Err]. *)
Definition dms_build (text : ustr) (ascii_folding : bool) : res (DMS + ParseError) :=
  r <- dms_parse (length text) [] [] 0 text ;;
  Ok (match r with
      | inl (rules, foldings) =>
          inl {| dms_ascii_folding := ascii_folding;
                 dms_rules := map (fun kv => (fst kv, sort_rules (snd kv))) rules;
                 dms_folding_rules := foldings |}
      | inr e => inr e
      end).
