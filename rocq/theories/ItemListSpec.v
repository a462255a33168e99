(** What grouping objects by names means. *)
From Verif Require Import Base ItemListModel.

Section Spec.
Variables Name Obj : Type.

(** The objects that are there in a group, with their names. *)
Definition present (names : list Name) (g : list (option Obj)) : list (Name * Obj) :=
  flat_map (fun x => match snd x with Some o => [(fst x, o)] | None => [] end) (combine names g).

(** The places in a group where there is an object. *)
Definition filled (g : list (option Obj)) (i : nat) : Prop := exists o, nth_error g i = Some (Some o).

(** A group is only begun because the object could not be in the group before it: that has an object there already, or one that comes
    later. *)
Fixpoint no_too_early (gs : list (list (option Obj))) : Prop :=
  match gs with
  | g :: ((h :: _) as gs') => (exists i, filled h i /\ (forall k, filled h k -> i <= k) /\ exists j, filled g j /\ i <= j) /\ no_too_early gs'
  | _ => True
  end.

Record grouping (names : list Name) (wanted : list (Name * Obj)) (gs : list (list (option Obj))) : Prop := {
  gr_width : Forall (fun g => length g = length names) gs;                (* one place for each name *)
  gr_all : concat (map (present names) gs) = wanted;                      (* every object, once, in order, at the place of its name *)
  gr_some : Forall (fun g => exists i, filled g i) gs;                    (* no empty groups *)
  gr_late : no_too_early gs;
}.
End Spec.
Arguments present {Name Obj}. Arguments filled {Obj}. Arguments no_too_early {Obj}. Arguments grouping {Name Obj}.
