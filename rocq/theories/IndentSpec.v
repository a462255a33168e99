(** What indenting should do to the lines of a text. *)
From Verif Require Import Base BlockSpec CursorModel IndentModel.

(** ** Lines *)

(** Apply a function to all lines, with their number. *)
Fixpoint each_line (n : nat) (f : nat -> str -> str) (lines : list str) : list str :=
  match lines with [] => [] | l :: lines => f n l :: each_line (S n) f lines end.

(** The lines of a cursor: those that have not ended at its start, and begin at or before its start or before its
    end. The separator belongs to the line before it. *)
Definition selects (sep : str) (c : cursor) (b : nat * nat) : bool :=
  (c_pos c <? snd b + length sep)
  && ((fst b <=? c_pos c) || match c_end c with Some e => fst b <? e | None => true end).

(** Where line [k] is. *)
Definition place (sep : str) (lines : list str) (k : nat) : nat * nat := nth k (spans sep 0 lines) (0, 0).

(** No character of the separator is in the string. *)
Definition apart (sep s : str) : Prop := forall x, In x s -> ~ In x sep.

(** ** White space *)
Section Space.
Variable space : nat -> bool.

(** The white space a line starts with, if there is something else in the line. *)
Fixpoint leading (l : str) : str :=
  match l with [] => [] | x :: l => if space x then x :: leading l else [] end.
Definition all_space (l : str) : Prop := Forall (fun x => space x = true) l.
Definition has_text (l : str) : Prop := exists x, In x l /\ space x = false.
Definition blank (l : str) : bool := forallb space l.
End Space.

(** ** Events *)
Definition is_no_indent (e : event) : bool := match e with NO_INDENT => true | _ => false end.
Definition is_no_strip (e : event) : bool := match e with NO_STRIP => true | _ => false end.
Definition is_blank (e : event) : bool := match e with BLANK => true | _ => false end.
Definition is_current (e : event) : bool := match e with CURRENT_INDENT _ => true | _ => false end.
Definition may_indent (es : list event) : bool := negb (existsb is_no_indent es).
Definition may_strip (es : list event) : bool := negb (existsb is_no_strip es).

(** The last [CURRENT_INDENT], or the white space the line starts with; a line of only white space has no
    indent. *)
Definition current_of (e : event) : list str := match e with CURRENT_INDENT a => [a] | _ => [] end.
Definition indent_of (space : nat -> bool) (es : list event) (l : str) : str :=
  match flat_map current_of es with
  | [] => if blank space l then [] else leading space l
  | a => last a []
  end.

(** Only events that open and close, or that say something about the line as a whole. *)
Definition plain (e : event) : Prop :=
  match e with PREFER_INDENT _ | CURRENT_INDENT _ | ALIGN _ => False | _ => True end.

(** How deep it is after an event, and after those that count for the line itself: the [DEDENT]s before the first
    [INDENT] or [NO_DEDENT]. One cannot get below the bottom. *)
Definition deeper (d : nat) (e : event) : nat :=
  match e with INDENT => S d | DEDENT => d - 1 | _ => d end.
Fixpoint own_level (d : nat) (es : list event) : nat :=
  match es with
  | [] => d
  | INDENT :: _ | NO_DEDENT :: _ => d
  | e :: es => own_level (deeper d e) es
  end.
(** The level of line [k], [evs] being the events of all lines. *)
Definition level (evs : list (list event)) (k : nat) : nat :=
  own_level (fold_left deeper (concat (firstn k evs)) 0) (nth k evs []).

(** [s * n] in Python *)
Definition times (n : nat) (s : str) : str := concat (repeat s n).

(** [p] is the beginning of [s]. *)
Fixpoint begins (p s : str) : bool :=
  match p, s with
  | [], _ => true
  | x :: p, y :: s => (x =? y) && begins p s
  | _ :: _, [] => false
  end.

(** [l'] is [l] without the characters at the end for which [strippable] holds. *)
Definition stripped (strippable : nat -> bool) (l l' : str) : Prop :=
  exists tail, l = l' ++ tail /\ Forall (fun x => strippable x = true) tail
    /\ forall a x, l' = a ++ [x] -> strippable x = false.

(** The cursor begins at the start of a line, or has only one line; it does not end before it begins. *)
Definition simple_cursor (sep : str) (lines : list str) (c : cursor) : Prop :=
  match c_end c with Some e => c_pos c <= e | None => True end
  /\ ((exists k, k < length lines /\ fst (place sep lines k) = c_pos c)
      \/ forall k k', k < length lines -> k' < length lines ->
           selects sep c (place sep lines k) = true -> selects sep c (place sep lines k') = true -> k = k').

(** [indent] may change line [k]: it does not begin before the cursor, and no line before it reaches the end of the
    cursor. *)
Definition reaches (c : cursor) (b : nat * nat) : bool := match c_end c with Some e => e <=? snd b | None => false end.
Definition touched (sep : str) (lines : list str) (c : cursor) (k : nat) : Prop :=
  c_pos c <= fst (place sep lines k) /\ forall j, j < k -> reaches c (place sep lines j) = false.

(** The strings in the events have some property; the current indent is not reported. *)
Definition strings (P : str -> Prop) (e : event) : Prop :=
  match e with PREFER_INDENT a | ALIGN a => P a | CURRENT_INDENT _ => False | _ => True end.

(** The level after some events; nothing if a [DEDENT] has no [INDENT] to belong to. *)
Fixpoint nest (d : nat) (es : list event) : option nat :=
  match es with
  | [] => Some d
  | INDENT :: es => nest (S d) es
  | DEDENT :: es => match d with 0 => None | S d => nest d es end
  | _ :: es => nest d es
  end.
(** The number of [DEDENT]s before the first [INDENT] or [NO_DEDENT]; the events from there on; and how many
    [INDENT]s and [DEDENT]s of those have no counterpart in the same line. *)
Fixpoint start_closes (es : list event) : nat :=
  match es with
  | [] | INDENT :: _ | NO_DEDENT :: _ => 0
  | DEDENT :: es => S (start_closes es)
  | _ :: es => start_closes es
  end.
Fixpoint rest (es : list event) : list event :=
  match es with
  | [] => []
  | INDENT :: _ | NO_DEDENT :: _ => es
  | _ :: es => rest es
  end.
Fixpoint unmatched (opens closes : nat) (es : list event) : nat * nat :=
  match es with
  | [] => (opens, closes)
  | INDENT :: es => unmatched (S opens) closes es
  | DEDENT :: es => match opens with 0 => unmatched 0 (S closes) es | S opens => unmatched opens closes es end
  | _ :: es => unmatched opens closes es
  end.
Definition opens (es : list event) : nat := fst (unmatched 0 0 (rest es)).
Definition closes (es : list event) : nat := snd (unmatched 0 0 (rest es)).
Definition prefers (es : list event) : bool := existsb (fun e => match e with PREFER_INDENT _ => true | _ => false end) es.

(** A line [auto_indent] understands: it opens at most one thing, and does not also close something that was
    opened before; or it may not be indented, and opens and closes nothing. *)
Definition simple_line (indent_blank_lines : bool) (es : list event) : Prop :=
  if may_indent es
  then prefers es = false /\ (indent_blank_lines = true \/ existsb is_blank es = false)
       /\ opens es <= 1 /\ (opens es = 0 \/ closes es = 0)
  else start_closes es = 0 /\ opens es = 0 /\ closes es = 0.

(** What a line is without its white space, or as it is if there is nothing else. *)
Definition body (space : nat -> bool) (l : str) : str := if blank space l then l else skipn (length (leading space l)) l.
