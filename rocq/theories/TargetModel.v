(** Model of parce/target.py. *)
From Verif Require Import Base.
From Coq Require Import ZArith.

Section Target.
Variable L : Type.     (* lexicons *)

(** parce/target.py:43 [Target = namedtuple("Target", "pop push")]. The Python [pop] is zero or
    negative; the model stores its absolute value. *)
Record target := Target { t_pop : nat; t_push : list L }.

(** parce/target.py:48-59 [TargetFactory] state [_pop], [_push] ([_pop] again as absolute value). *)
Record factory := Factory { f_pop : nat; f_push : list L }.

Definition f_init : factory := Factory 0 [].

(** parce/target.py:61-70 [TargetFactory.add]. [if target:] — a namedtuple is always true, so it
    only tests for None. *)
Definition f_add (f : factory) (t : option target) : factory :=
  match t with
  | None => f
  | Some t =>
      if t_pop t =? 0 then Factory (f_pop f) (f_push f ++ t_push t)
      else if t_pop t <=? length (f_push f)
      then Factory (f_pop f) (drop_last (t_pop t) (f_push f) ++ t_push t)
      else Factory (f_pop f + (t_pop t - length (f_push f))) (t_push t)
  end.

(** parce/target.py:72-83 [TargetFactory.get]: the target, if any, and the new factory state. *)
Definition f_get (f : factory) : option target * factory :=
  if negb (f_pop f =? 0) || negb (length (f_push f) =? 0)
  then (Some (Target (f_pop f) (f_push f)), f_init)
  else (None, f).

(** parce/target.py:85-87 [TargetFactory.push]. *)
Definition f_pushes (f : factory) (ls : list L) : factory := Factory (f_pop f) (f_push f ++ ls).

(** parce/target.py:89-96 [TargetFactory.pop]; [n] is the absolute value of the argument. *)
Definition f_pops (f : factory) (n : nat) : factory :=
  if n =? 0 then f
  else if n <=? length (f_push f) then Factory (f_pop f) (drop_last n (f_push f))
  else Factory (f_pop f + (n - length (f_push f))) [].

(** An element of the target part of a rule: an integer or a lexicon. *)
Inductive ritem := RInt (z : Z) | RLex (l : L).

(** parce/target.py:103-110, the loop body of [TargetFactory.make]. *)
Definition make_step (lexicon : L) (f : factory) (t : ritem) : factory :=
  match t with
  | RInt z => if (z <? 0)%Z then f_pops f (Z.to_nat (- z))
              else if (z =? 0)%Z then f
              else f_pushes f (repeat lexicon (Z.to_nat z))
  | RLex l => f_pushes f [l]
  end.

(** parce/target.py:98-111 [TargetFactory.make]. *)
Definition t_make (lexicon : L) (rule : list ritem) : option target :=
  match rule with
  | [] => None
  | _ => fst (f_get (fold_left (make_step lexicon) rule f_init))
  end.

End Target.
Arguments Target {L}. Arguments t_pop {L}. Arguments t_push {L}.
Arguments Factory {L}. Arguments f_pop {L}. Arguments f_push {L}.
Arguments f_init {L}. Arguments f_add {L}. Arguments f_get {L}.
Arguments f_pushes {L}. Arguments f_pops {L}.
Arguments RInt {L}. Arguments RLex {L}.
Arguments make_step {L}. Arguments t_make {L}.
