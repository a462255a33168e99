(** How a cursor should follow the text. *)
From Verif Require Import Base MutableModel MutableSpec CursorModel.

(** A cursor within a text. *)
Definition cursor_ok (text : str) (c : cursor) : Prop :=
  match c_end c with
  | Some e => c_pos c <= e /\ e <= length text
  | None => c_pos c <= length text
  end.

(** The character at position [p] of the text is selected. *)
Definition selected (text : str) (c : cursor) (p : nat) : Prop :=
  c_pos c <= p < match c_end c with Some e => e | None => length text end.

(** Where a character at position [p] that is not replaced is found after an edit. *)
Definition moved (e : change) (p : nat) : nat :=
  if p <? g_start e then p else p + length (g_text e) - (g_end e - g_start e).

(** The text after one edit. *)
Definition splice (text : str) (e : change) : str :=
  firstn (g_start e) text ++ g_text e ++ skipn (g_end e) text.

(** What should become of a cursor when one edit is made. *)
Definition follows (text : str) (e : change) (c c' : cursor) : Prop :=
  let new := splice text e in
  cursor_ok new c'
  /\ (c_end c = None <-> c_end c' = None)
  (* an untouched character is selected if and only if it was *)
  /\ (forall p, p < length text -> ~ (g_start e <= p < g_end e) -> (selected text c p <-> selected new c' (moved e p)))
  (* the new text is selected, as a whole, if and only if the selection reached the replaced piece *)
  /\ (forall p, g_start e <= p < g_start e + length (g_text e) ->
        (selected new c' p <-> c_pos c <= g_end e /\ match c_end c with Some x => g_start e <= x | None => True end))
  (* a position that is before the edit, or at its start, stays *)
  /\ (c_pos c <= g_start e -> c_pos c' = c_pos c)
  (* a position that is behind the edit moves along *)
  /\ (g_end e < c_pos c -> c_pos c' = moved e (c_pos c))
  /\ (forall x, c_end c = Some x -> x < g_start e -> c_end c' = Some x)
  /\ (forall x, c_end c = Some x -> g_end e <= x -> c_end c' = Some (moved e x)).

(** The cursor one gets when the edits of a batch are made one by one, the last one first. *)
Fixpoint one_by_one (cs : list change) (c : cursor) : cursor :=
  match cs with
  | [] => c
  | ch :: cs => fst (update_cursor ch (one_by_one cs c))
  end.

(** The sum of how much each of the edits makes the text longer, for edits that do not shorten it. *)
Fixpoint growth (cs : list change) : nat :=
  match cs with [] => 0 | c :: cs => length (g_text c) - (g_end c - g_start c) + growth cs end.
