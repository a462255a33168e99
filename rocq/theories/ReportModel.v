(** Model of the range that a tree builder reports after processing changes, treebuilder.py:530-586 [process]: when new changes are
    there after the tree was replaced, the tree is built again, and the ranges are put together. *)
From Coq Require Import List Arith Bool.
Import ListNotations.

(** Changes of a text, see treebuilderutil.py:43-58: [removed] characters at [start] are replaced by [added] others. If only the root lexicon
    changes, [start] is -1 in the code, and nothing is removed or added; [Ch 0 0 0] stands for that. *)
Record change := Ch { start : nat; removed : nat; added : nat }.
(** treebuilderutil.py:110-116 [Changes.new_position] *)
Definition new_position (c : change) (pos : nat) : nat :=
  if pos <? start c then pos
  else if pos <? start c + removed c then start c + added c
  else pos - removed c + added c.

(** A turn of the loop: the changes [c] that are taken at its beginning (all in one); the changes that [build_new_tree] takes while it is building
    (treebuilder.py:327-330), in order; and the range of the result of [replace_tree] (treebuilder.py:474), in the text after all these. *)
Record turn := Turn { t_c : change; t_during : list change; t_start : nat; t_end : nat }.

(** treebuilder.py:571-572: [-1] is [None] here. *)
Definition turn_range (range : option (nat * nat)) (t : turn) : option (nat * nat) :=
  match range with
  | None => Some (t_start t, t_end t)
  | Some (s, e) => Some (Nat.min s (t_start t), Nat.max (new_position (t_c t) e) (t_end t))
  end.
(** treebuilder.py:559-580: the [start] and [end] of the builder afterwards. *)
Definition process (ts : list turn) : option (nat * nat) := fold_left turn_range ts None.
