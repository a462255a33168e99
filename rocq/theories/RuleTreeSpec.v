(** What a decision tree stands for, and which rules are looked at. *)
From Verif Require Import Base RuleValues RuleItemModel RuleItemSpec RuleVariationSpec RuleTreeModel.
From Coq Require Import ZArith.

(** The ways through a decision tree: a tuple is gone through from the left to the right, of a set one member is taken. *)
Inductive path : vt -> list vobj -> Prop :=
| path_entry v : path (TEntry v) [v]
| path_tup l p : walk l p -> path (TTup l) p
| path_set l t p : In t l -> path t p -> path (TSet l) p
with walk : list vt -> list vobj -> Prop :=
| walk_nil : walk [] []
| walk_cons t l p q : path t p -> walk l q -> walk (t :: l) (p ++ q).

(** No [skip], and no item without anything to choose from. *)
Fixpoint full (o : obj) : Prop :=
  match o with
  | OAtom _ | OVar _ | OCall _ _ => True
  | OSkip => False
  | OSeq l => fold_right (fun o P => full o /\ P) True l
  | OSelect _ l | OSub l => l <> [] /\ fold_right (fun o P => full o /\ P) True l
  | OTarget _ l => fold_right (fun o P => full o /\ P) True l
  | OPattern v | ODelegate v => full v
  end.

(** Rules for which the tree is claimed to be complete: as [var_ok], but [skip] and an empty [bygroup()] are allowed. *)
Fixpoint tree_ok (o : obj) : Prop :=
  match o with
  | OAtom _ | OSkip => True
  | OSeq l | OSelect _ l | OSub l => fold_right (fun o P => tree_ok o /\ P) True l
  | OVar _ | OCall _ _ => False
  | OTarget value lexicons =>
      fold_right (fun o P => lex_only o /\ P) True lexicons /\
      match value with
      | OAtom a => as_int a <> None
      | OSeq [OAtom a; _] => exists i x, as_int a = Some i /\ py_get lexicons i = Some x
      | OSeq _ => False
      | _ => True
      end
  | OPattern v => match v with OAtom _ => True | OSeq _ => False | _ => True end
  | ODelegate v => tree_ok v
  end.
(** The entries other than [skip], which gives no action. *)
Definition spoken (p : list vobj) : list vobj := filter (fun v => match v with VObj OSkip => false | _ => true end) p.

(** An atom is written somewhere in an object, not as part of an index, a value or an argument. *)
Fixpoint mentions (a : atom) (o : obj) : Prop :=
  match o with
  | OAtom b => a = b
  | OSeq l | OSelect _ l | OSub l => fold_right (fun o P => mentions a o \/ P) False l
  | OTarget v l => mentions a v \/ fold_right (fun o P => mentions a o \/ P) False l
  | OPattern v => mentions a v \/ a = ANone
  | ODelegate v => mentions a v
  | OVar _ | OCall _ _ | OSkip => False
  end.
