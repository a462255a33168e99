(** Which positions of the final text are not as they were before. *)
From Coq Require Import List Arith Bool.
From Verif Require Import ReportModel.
Import ListNotations.

(** What a change of the text does to a set of positions: those before it stay, those after it move, what is added is new. *)
Definition edit (c : change) (D : nat -> Prop) (p : nat) : Prop :=
  (p < start c /\ D p) \/ (start c <= p < start c + added c) \/ (start c + added c <= p /\ D (p - added c + removed c)).
Definition edits (cs : list change) (D : nat -> Prop) : nat -> Prop := fold_left (fun D c => edit c D) cs D.
Definition nothing (p : nat) : Prop := False.
(** All positions that were new at the end of some turn of the loop: the text was edited, or they were in the range of the new tree. *)
Definition after_turn (D : nat -> Prop) (t : turn) (p : nat) : Prop := edits (t_c t :: t_during t) D p \/ t_start t <= p < t_end t.
Definition touched (ts : list turn) : nat -> Prop := fold_left after_turn ts nothing.
(** The range of the new tree of a turn starts before the changes that were handled, and ends after them (see C72). *)
Definition covers (t : turn) : Prop :=
  (forall c, In c (t_c t :: t_during t) -> t_start t <= start c) /\ (forall p, edits (t_c t :: t_during t) nothing p -> p < t_end t).
