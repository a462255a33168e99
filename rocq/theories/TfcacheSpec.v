(** What get_transform has to return. Histories have the newest event first. *)
From Coq Require Import List Arith Bool.
From Verif Require Import TfcacheModel.
Import ListNotations.

(** The last transform that was added for a language. *)
Fixpoint last_added (l : nat) (h : list event) : option value :=
  match h with
  | Added k v :: h => if k =? l then Some v else last_added l h
  | _ :: h => last_added l h
  | [] => None
  end.
(** The last one that was returned for it. *)
Fixpoint last_returned (l : nat) (h : list event) : option value :=
  match h with
  | Returned _ k v :: h => if k =? l then Some v else last_returned l h
  | _ :: h => last_returned l h
  | [] => None
  end.
(** What is known: the one that was added last, and if none was added, the one that was returned before. *)
Definition settled (l : nat) (h : list event) : option value :=
  match last_added l h with Some v => Some v | None => last_returned l h end.
(** What happened before the last call. *)
Fixpoint before_call (h : list event) : list event :=
  match h with Called _ _ :: h => h | _ :: h => before_call h | [] => [] end.
(** Every call returns what was settled before it, and otherwise an instance of the class that belongs to the language, or
    None if there is no such class. *)
Fixpoint lawful (sister : nat -> option nat) (h : list event) : Prop :=
  match h with
  | Returned t l v :: h =>
      match settled l (before_call h) with
      | Some w => v = w
      | None => match sister l with Some c => exists id, v = Some (Made c id) | None => v = None end
      end /\ lawful sister h
  | _ :: h => lawful sister h
  | [] => True
  end.
(** The language that some thread is asking for. *)
Fixpoint busy (h : list event) : option nat :=
  match h with Called _ l :: _ => Some l | Returned _ _ _ :: _ => None | Added _ _ :: h => busy h | [] => None end.
(** No transform is added for a language while some thread is asking for it. *)
Fixpoint calm (h : list event) : Prop :=
  match h with
  | Added l _ :: h => busy h <> Some l /\ calm h
  | _ :: h => calm h
  | [] => True
  end.
