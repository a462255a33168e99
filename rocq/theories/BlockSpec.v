(** What the blocks of a text should be: the lines between separators. *)
From Verif Require Import Base BlockModel.
From Coq Require Import ZArith.

Fixpoint join (sep : str) (ls : list str) : str :=
  match ls with
  | [] => []
  | [l] => l
  | l :: ls => l ++ sep ++ join sep ls
  end.

(** Where the lines are, in the joined text. *)
Fixpoint spans (sep : str) (pos : nat) (ls : list str) : list (nat * nat) :=
  match ls with
  | [] => []
  | l :: ls => (pos, pos + length l) :: spans sep (pos + length l + length sep) ls
  end.

Definition contains (sep l : str) : Prop := exists a b, l = a ++ sep ++ b.

(** A separator that cannot overlap itself: no proper beginning of it is also its end. True for every
    single character and for CR LF. *)
Definition no_overlap (sep : str) : Prop :=
  sep <> [] /\ forall n, 0 < n < length sep -> firstn n sep <> skipn (length sep - n) sep.

(** [lines] are the lines of [text]. *)
Definition is_lines (text sep : str) (lines : list str) : Prop :=
  join sep lines = text /\ lines <> [] /\ Forall (fun x => ~ contains sep x) lines.

(** The block object [b] stands for line number [k]: it has its place, and it has its number. *)
Definition is_block (text sep : str) (lines : list str) (k : nat) (b : block) : Prop :=
  nth_error (spans sep 0 lines) k = Some (b_pos b, b_end b) /\ block_number text sep b = Z.of_nat k.
