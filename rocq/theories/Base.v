(** Shared vocabulary: Python strings and lists as Coq lists, slices. *)
From Coq Require Export List Arith Lia Bool.
Export ListNotations.

(** A Python [str]: a list of code points. *)
Definition str := list nat.

(** Python [l[i:j]] for non-negative [i], [j] (both are clipped to the length). *)
Definition slice {A} (l : list A) (i j : nat) : list A := firstn (j - i) (skipn i l).

(** Python [l[i:]] for non-negative [i]. *)
Definition from {A} (l : list A) (i : nat) : list A := skipn i l.

(** Python [del l[-n:]] for n > 0 (and the identity for n = 0, where the code
    guards the statement with [if pop]): drop the last [n] items, at most all. *)
Definition drop_last {A} (n : nat) (l : list A) : list A := firstn (length l - n) l.

Fixpoint list_eqb {A} (eqb : A -> A -> bool) (a b : list A) : bool :=
  match a, b with
  | [], [] => true
  | x :: a', y :: b' => eqb x y && list_eqb eqb a' b'
  | _, _ => false
  end.

Definition str_eqb : str -> str -> bool := list_eqb Nat.eqb.

(** Python [x[-1]] of a possibly empty list. *)
Definition last_opt {A} (l : list A) : option A :=
  match rev l with [] => None | x :: _ => Some x end.

Definition fst3 {A B C} (x : A * B * C) : A := fst (fst x).
Definition snd3 {A B C} (x : A * B * C) : B := snd (fst x).
Definition thd3 {A B C} (x : A * B * C) : C := snd x.
