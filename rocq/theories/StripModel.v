(** Model of the selecting methods of [Cursor] in parce/document.py. *)
From Verif Require Import Base MutableModel CursorModel BlockModel.
From Coq Require Import ZArith.

Section Strip.
(** The text of the document, and the characters to strip: white space, or those of [chars]. *)
Variable doc : str.
Variable strippable : nat -> bool.

(** document.py:470-472 [text]: [self.document()[self]], with document.py:76-80. *)
Definition cursor_text (c : cursor) : str :=
  match getitem doc (KSlice (Some (Z.of_nat (c_pos c))) (option_map Z.of_nat (c_end c))) with Some t => t | None => [] end.

(** Python's [str.lstrip] and [str.rstrip] *)
Fixpoint py_lstrip (s : str) : str :=
  match s with [] => [] | x :: s' => if strippable x then py_lstrip s' else s end.
Definition py_rstrip (s : str) : str := rev (py_lstrip (rev s)).

(** document.py:649-660 *)
Definition cursor_lstrip (c : cursor) : cursor :=
  let text := cursor_text c in
  match text with
  | [] => c
  | _ => Cursor (c_pos c + (length text - length (py_lstrip text))) (c_end c)
  end.
(** document.py:662-677 *)
Definition cursor_rstrip (c : cursor) : cursor :=
  let text := cursor_text c in
  match text with
  | [] => c
  | _ => let offset := length text - length (py_rstrip text) in
         if 0 <? offset then
           let e := match c_end c with
                    | None => length doc
                    | Some e => if length doc <? e then length doc else e
                    end in
           Cursor (c_pos c) (Some (e - offset))
         else c
  end.
(** document.py:679-683 *)
Definition cursor_strip (c : cursor) : cursor := cursor_lstrip (cursor_rstrip c).

(** document.py:615-623 [selection], 625-628 [has_selection] *)
Definition selection (c : cursor) : nat * nat :=
  (c_pos c, match c_end c with None => length doc | Some e => e end).
Definition has_selection (c : cursor) : bool := fst (selection c) <? snd (selection c).

(** document.py:588-591, 593-596, 630-637, 639-647 *)
Variable sep : str.
Definition move_start_of_block (c : cursor) : cursor :=
  let p := find_start_of_block doc sep (c_pos c) in Cursor p (Some p).
Definition move_end_of_block (c : cursor) : cursor :=
  let p := find_end_of_block doc sep (c_pos c) in Cursor p (Some p).
Definition select_start_of_block (c : cursor) : cursor := Cursor (find_start_of_block doc sep (c_pos c)) (c_end c).
Definition select_end_of_block (c : cursor) : cursor :=
  match c_end c with
  | Some e => Cursor (c_pos c) (Some (find_end_of_block doc sep e))
  | None => c
  end.
End Strip.
