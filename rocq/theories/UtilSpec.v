(** Specifications for the functions of util.py. *)
From Verif Require Import Base UtilModel.

(** The ranges are in order, not empty, and do not overlap. *)
Fixpoint ordered {R} (l : list (item R)) : Prop :=
  match l with
  | [] => True
  | i :: l => i_pos i < i_end i /\ (forall j, In j l -> i_end i <= i_pos j) /\ ordered l
  end.
(** What is at a position. *)
Definition cover {R} (l : list (item R)) (p : nat) : option R :=
  option_map i_rest (find (fun i => (i_pos i <=? p) && (p <? i_end i)) l).
(** No two neighbours could have been one range. *)
Fixpoint no_mergeable {R} (l : list (item R)) : Prop :=
  match l with
  | i :: ((j :: _) as l') => ~ (i_end i = i_pos j /\ i_rest i = i_rest j) /\ no_mergeable l'
  | _ => True
  end.
(** The position is in the window. *)
Definition in_window (start : nat) (end_ : option nat) (p : nat) : Prop :=
  start <= p /\ match end_ with Some e => p < e | None => True end.
Definition overlaps {R} (start : nat) (end_ : option nat) (i : item R) : Prop :=
  start < i_end i /\ match end_ with Some e => i_pos i < e | None => True end.
Definition inside {R} (start : nat) (end_ : option nat) (i : item R) : Prop :=
  start <= i_pos i /\ match end_ with Some e => i_end i <= e | None => True end.

(** Joining lists with a separator. *)
Fixpoint join_with {A} (sep : A) (ls : list (list A)) : list A :=
  match ls with
  | [] => []
  | [l] => l
  | l :: ls => l ++ sep :: join_with sep ls
  end.

(** The members, recursively. *)
Fixpoint flatten {A} (o : obj A) : list A :=
  match o with
  | Atom a => [a]
  | Seq l => flat_map flatten l
  end.
