(** What following a target means, for a stack of open lexicons (the current one last). *)
From Verif Require Import Base TargetModel.
From Coq Require Import ZArith.

Section Spec.
Variable L : Type.

(** Leave [t_pop] lexicons, then enter those of [t_push] (None: stay). *)
Definition follow (stack : list L) (t : option (target L)) : list L :=
  match t with
  | None => stack
  | Some t => drop_last (t_pop t) stack ++ t_push t
  end.

(** A rule item on its own: negative integer: leave that many; positive integer: enter the
    current lexicon that many times; a lexicon: enter it. *)
Definition follow_item (lexicon : L) (stack : list L) (r : ritem L) : list L :=
  match r with
  | RInt z => if (z <? 0)%Z then drop_last (Z.to_nat (- z)) stack
              else stack ++ repeat lexicon (Z.to_nat z)
  | RLex l => stack ++ [l]
  end.
End Spec.
Arguments follow {L}. Arguments follow_item {L}.
