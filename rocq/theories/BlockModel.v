(** Model of the blocks (lines) of parce/document.py. *)
From Verif Require Import Base.
From Coq Require Import ZArith.

Section Blocks.
(** [self.text()] and [self.block_separator], "\n" unless changed. *)
Variable text sep : str.

(** [sep] is found in [t] at position [i]. *)
Definition found_at (t : str) (i : nat) : bool :=
  (i + length sep <=? length t) && str_eqb (slice t i (i + length sep)) sep.

(** [t.find(sep, pos)]; None is -1. *)
Definition py_find (t : str) (pos : nat) : option nat :=
  find (found_at t) (seq pos (S (length t) - pos)).
(** [t.rfind(sep, 0, end)] *)
Definition py_rfind (t : str) (end_ : nat) : option nat :=
  find (fun i => found_at t i && (i + length sep <=? end_)) (rev (seq 0 (S (length t)))).
(** [t.count(sep)] from position [pos] on: the number of occurrences, each sought behind the last. *)
Fixpoint count_from (fuel : nat) (t : str) (pos : nat) : nat :=
  match fuel with
  | 0 => 0
  | S fuel => match py_find t pos with None => 0 | Some i => S (count_from fuel t (i + length sep)) end
  end.
Definition py_count (t : str) : nat := count_from (S (length t)) t 0.

(** document.py:116-120 *)
Definition find_start_of_block (position : nat) : nat :=
  match py_rfind text position with None => 0 | Some pos => pos + length sep end.
(** document.py:122-125 *)
Definition find_end_of_block (position : nat) : nat :=
  match py_find text position with None => length text | Some pos => pos end.

(** document.py:704-707 [Block]; [b_num] is the cached number. *)
Record block := Block { b_pos : nat; b_end : nat; b_num : option Z }.
Definition make_block (pos end_ : nat) : block := Block pos end_ (if pos =? 0 then Some 0%Z else None).

(** document.py:127-137 *)
Definition find_block (position : nat) : block :=
  let pos := find_start_of_block position in make_block pos (find_end_of_block pos).

(** document.py:716-718 *)
Definition is_last (b : block) : bool := length text <=? b_end b.

(** document.py:720-732 *)
Definition block_number (b : block) : Z :=
  match b_num b with Some n => n | None => Z.of_nat (py_count (firstn (b_pos b) text)) end.

(** document.py:734-744; [type(self)(...)] sets the number to 0 only if [pos] is 0, and it is
    overwritten. *)
Definition next_block (b : block) : option block :=
  if is_last b then None
  else let pos := b_end b + length sep in
       let n := make_block pos (find_end_of_block pos) in
       Some (match b_num b with Some k => Block (b_pos n) (b_end n) (Some (k + 1)%Z) | None => n end).

(** document.py:746-756 *)
Definition previous_block (b : block) : option block :=
  if 0 <? b_pos b then
    let end_ := b_pos b - length sep in
    let n := make_block (find_start_of_block end_) end_ in
    Some (match b_num b with Some k => Block (b_pos n) (b_end n) (Some (k - 1)%Z) | None => n end)
  else None.

(** document.py:139-175 [find_block_by_number], for [number >= 0]: the loop, from the position of
    a block. In the first round [end] is [-len(sep)], which is not [len(text)]. *)
Fixpoint number_forward (n : nat) (pos : nat) : option (nat * nat) :=
  let e := find_end_of_block pos in
  match n with
  | 0 => Some (pos, e)
  | S n => if e =? length text then None else number_forward n (e + length sep)
  end.
(** for [number < 0], from the end of a block. In the first round [pos] is [len(text) + len(sep)],
    which is not 0. *)
Fixpoint number_backward (n : nat) (end_ : nat) : option (nat * nat) :=
  let pos := find_start_of_block end_ in
  match n with
  | 0 => Some (pos, end_)
  | S n => if pos =? 0 then None else number_backward n (pos - length sep)
  end.
Definition find_block_by_number (number : Z) : option block :=
  if (0 <=? number)%Z then
    match number_forward (Z.to_nat number) 0 with
    | None => None
    | Some (p, e) => Some (Block p e (Some number))
    end
  else
    match number_backward (Z.to_nat (- number - 1)) (length text) with
    | None => None
    | Some (p, e) => Some (make_block p e)
    end.

(** document.py:177-190 *)
Definition block_count : nat := py_count text + 1.

(** document.py:192-209 [blocks], with [block.next_block()] repeated. *)
Fixpoint following (fuel : nat) (end_ : option nat) (b : block) : list block :=
  match fuel with
  | 0 => []
  | S fuel => match next_block b with
              | None => []
              | Some n => match end_ with
                          | Some e => if e <=? b_pos n then [] else n :: following fuel end_ n
                          | None => n :: following fuel end_ n
                          end
              end
  end.
Definition blocks (start : nat) (end_ : option nat) : list block :=
  let b := find_block start in b :: following (S (length text)) end_ b.
End Blocks.
