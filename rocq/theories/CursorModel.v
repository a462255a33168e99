(** Model of [AbstractDocument._update_cursors] in parce/document.py. *)
From Verif Require Import Base MutableModel.

(** document.py:575-578 [Cursor]: [end] is None for the end of the document. Positions are not negative. *)
Record cursor := Cursor { c_pos : nat; c_end : option nat }.

(** document.py:87-100, the body of the inner loop: the new cursor, and whether [i] is incremented. *)
Definition update_cursor (ch : change) (c : cursor) : cursor * bool :=
  let ahead := g_start ch <? c_pos c in
  let pos := if ahead then
               if c_pos c <=? g_end ch then g_start ch
               else c_pos c + (g_start ch + length (g_text ch)) - g_end ch
             else c_pos c in
  match c_end c with
  | Some e => if g_start ch <=? e then
                (Cursor pos (Some (if e <=? g_end ch then g_start ch + length (g_text ch)
                                   else e + (g_start ch + length (g_text ch)) - g_end ch)), false)
              else (Cursor pos (Some e), negb ahead)
  | None => (Cursor pos None, negb ahead)
  end.

(** [sorted(self._cursors, key=lambda c: c.pos)]: the order of the set is arbitrary, so is the
    order in the argument. *)
Fixpoint insert_cursor (x : cursor) (l : list cursor) : list cursor :=
  match l with
  | [] => [x]
  | y :: l => if c_pos x <=? c_pos y then x :: y :: l else y :: insert_cursor x l
  end.
Fixpoint sort_cursors (l : list cursor) : list cursor :=
  match l with [] => [] | x :: l => insert_cursor x (sort_cursors l) end.

(** document.py:82-100 [_update_cursors]: the cursors, in the order of [sorted], and [i]. *)
Fixpoint update_loop (cs : list change) (i : nat) (cursors : list cursor) : list cursor :=
  match cs with
  | [] => cursors
  | ch :: cs =>
      let r := map (update_cursor ch) (skipn i cursors) in
      update_loop cs (i + length (filter snd r)) (firstn i cursors ++ map fst r)
  end.
Definition update_cursors (cs : list change) (cursors : list cursor) : list cursor :=
  update_loop cs 0 (sort_cursors cursors).
