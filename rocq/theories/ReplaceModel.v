(** Model of AbstractDocument.replace and re_sub in parce/document.py: the operations they perform on the
    document (see MutableModel.v), which is outside an edit context. *)
From Verif Require Import Base MutableModel BlockModel.
From Coq Require Import ZArith.

(** [self[start+pos:start+end] = new] *)
Definition set_piece (start : Z) (pos end_ : nat) (new : str) : mop :=
  Set_ (KSlice (Some (start + Z.of_nat pos)%Z) (Some (start + Z.of_nat end_)%Z)) new.

(** document.py:221-228, the loop: [pos] is the result of the last [find]. Out of fuel ([None]): it goes on for
    ever. *)
Fixpoint replace_loop (fuel : nat) (text old new : str) (start : Z) (pos : option nat) (count : Z) : option (list mop) :=
  match fuel, pos with
  | _, None => Some []
  | 0, _ => None
  | S fuel, Some pos =>
      let next := py_find old text (pos + length old) in
      let count := (count - 1)%Z in
      option_map (cons (set_piece start pos (pos + length old) new))
                 (if (count =? 0)%Z then Some [] else replace_loop fuel text old new start next count)
  end.

(** document.py:210-228. The outer option is for fuel. *)
Definition replace_ops (fuel : nat) (doc old new : str) (start : Z) (end_ : option Z) (count : Z) : option (list mop) :=
  if str_eqb old new then Some []
  else match getitem doc (KSlice (Some start) end_) with
       | None => None
       | Some text => option_map (fun ops => Enter :: ops ++ [Exit_ false])
                                 (replace_loop fuel text old new start (py_find old text 0) count)
       end.

(** document.py:248-255 [re_sub], for a list of matches as [finditer] gives them for the selected text, each with
    its replacement. [enumerate(.., 1)] counts them; [i] is the number of the first. *)
Fixpoint re_sub_loop (start : Z) (matches : list change) (i count : Z) : list mop :=
  match matches with
  | [] => []
  | m :: ms => set_piece start (g_start m) (g_end m) (g_text m)
               :: (if (i =? count)%Z then [] else re_sub_loop start ms (i + 1) count)
  end.
Definition re_sub_ops (start : Z) (matches : list change) (count : Z) : list mop :=
  Enter :: re_sub_loop start matches 1 count ++ [Exit_ false].
