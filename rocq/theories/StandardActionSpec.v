(** The hierarchy of actions, by the names on the way from the top. *)
From Verif Require Import Base StandardActionModel.

(** The names of an action and its ancestors, the top one first. *)
Inductive is_path (h : list action) : nat -> list str -> Prop :=
| path_top i n : nth_error h i = Some (Action n None) -> is_path h i [n]
| path_child i n j p : nth_error h i = Some (Action n (Some j)) -> is_path h j p -> is_path h i (p ++ [n]).

(** A name that can be given to a child: the object has attributes [_name] and [_parent] of its own. *)
Definition usable (parent : option nat) (name : str) : Prop := parent = None \/ name <> s_name /\ name <> s_parent.

(** Everything that may have happened before: actions are made, in any order and by any number of threads (every
    step is atomic), by calling StandardAction with an existing parent or by attribute access. *)
Inductive reach : state -> Prop :=
| reach_start : reach start
| reach_new st name parent : reach st -> (forall j, parent = Some j -> j < length (heap st)) -> reach (fst (new st name parent))
| reach_attr st self name : reach st -> self < length (heap st) -> reach (fst (getattr st self name)).

(** One list starts with the other one. *)
Definition prefix {A} (a b : list A) : Prop := exists r, b = a ++ r.
