(** Model of the class [Changes] in parce/treebuilderutil.py: pending changes merged into one. *)
From Verif Require Import Base.
From Coq Require Import ZArith.
Local Open Scope Z_scope.

Section Changes.
Variable L : Type.

(** parce/treebuilderutil.py:43-58.  [c_root] is None for the value False ("no change requested"), and
    [Some None] for the lexicon None; [c_start] is -1 if no text was altered. *)
Record changes := Changes { c_text : str; c_root : option (option L); c_start : Z; c_removed : Z; c_added : Z }.
Definition c_init : changes := Changes [] None (-1) 0 0.

(** parce/treebuilderutil.py:70-104 [add]. *)
Definition c_add (c : changes) (text : str) (root : option (option L)) (start : Z) (removed added : option Z) : changes :=
  let root' := match root with None => c_root c | Some _ => root end in
  let removed := match removed with None => Z.of_nat (length (c_text c)) - start | Some r => r end in
  let added := match added with None => Z.of_nat (length text) - start | Some a => a end in
  if c_start c =? -1 then Changes text root' start removed added
  else
    let offset := if start + removed <? c_start c then c_start c - start - removed
                  else if start >? c_start c + c_added c then start - c_start c - c_added c
                  else 0 in
    let start := Z.max start (c_start c) in
    let end_ := Z.min (start + removed) (c_start c + c_added c) in
    let offset := offset - Z.max 0 (end_ - start) in
    Changes text root' (Z.min (c_start c) start) (c_removed c + (removed + offset)) (c_added c + (added + offset)).

(** parce/treebuilderutil.py:106-108 [has_changes]. *)
Definition c_has_changes (c : changes) : bool :=
  negb (c_start c =? -1) || match c_root c with None => false | Some _ => true end.

(** parce/treebuilderutil.py:110-116 [new_position]. *)
Definition c_new_position (c : changes) (pos : Z) : Z :=
  if pos <? c_start c then pos
  else if pos <? c_start c + c_removed c then c_start c + c_added c
  else pos - c_removed c + c_added c.

(** An entry of the list [TreeBuilder.changes] (parce/treebuilder.py:207-216 [add_changes]):
    text, root_lexicon, start, removed, added. *)
Record entry := Entry { n_text : str; n_root : option (option L); n_start : Z; n_removed : Z; n_added : Z }.

(** parce/treebuilder.py:518-528 [get_changes]: all entries, from the first one, are added to a new object. *)
Definition get_changes (l : list entry) : changes :=
  fold_left (fun c n => c_add c (n_text n) (n_root n) (n_start n) (Some (n_removed n)) (Some (n_added n))) l c_init.

End Changes.
Arguments Changes {L}. Arguments c_text {L}. Arguments c_root {L}. Arguments c_start {L}. Arguments c_removed {L}.
Arguments c_added {L}. Arguments c_init {L}. Arguments c_add {L}. Arguments c_has_changes {L}. Arguments c_new_position {L}.
Arguments Entry {L}. Arguments n_text {L}. Arguments n_root {L}. Arguments n_start {L}. Arguments n_removed {L}.
Arguments n_added {L}. Arguments get_changes {L}.
