(** Nodes above other nodes. *)
From Verif Require Import Base TreeModel AncestorModel.

(** [a] is a node above [n] in the same tree. *)
Definition above (a n : nid) : Prop := fst a = fst n /\ exists r, r <> [] /\ snd n = snd a ++ r.
Definition at_or_above (a n : nid) : Prop := a = n \/ above a n.
(** The node is [k] steps above [n]. *)
Definition steps_above (k : nat) (a n : nid) : Prop := fst a = fst n /\ exists r, length r = k /\ snd n = snd a ++ r.
