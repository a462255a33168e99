(** Which lexicon the steps of a history ask for. *)
From Verif Require Import Base LexIdModel.
Section Spec.
Variable A : Type.
(** A lexicon is asked for with a descriptor, a language and an argument. *)
Notation want := (nat * nat * option A)%type.
Definition wants (ws : list want) (op : lop A) : option want :=
  match op with
  | LGet d l => Some (d, l, None)
  | LCall k arg =>
      match nth_error ws k with
      | Some (d, l, a) => Some (d, l, match arg with Some b => Some b | None => a end)
      | None => None
      end
  end.
Fixpoint all_wants (ws : list want) (ops : list (lop A)) : option (list want) :=
  match ops with
  | [] => Some ws
  | op :: ops => match wants ws op with Some w => all_wants (ws ++ [w]) ops | None => None end
  end.
(** The same argument: none, or equal ones. *)
Definition same_arg (aeq : A -> A -> bool) (a b : option A) : Prop :=
  match a, b with None, None => True | Some x, Some y => aeq x y = true | _, _ => False end.
Definition same_want (aeq : A -> A -> bool) (w1 w2 : want) : Prop := fst w1 = fst w2 /\ same_arg aeq (snd w1) (snd w2).
End Spec.
Arguments same_arg {A}. Arguments same_want {A}. Arguments all_wants {A}. Arguments wants {A}.
