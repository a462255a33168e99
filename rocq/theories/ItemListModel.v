(** Model of the methods of [ItemList] in parce/transform.py, the list that is given to the methods of a Transform. *)
From Verif Require Import Base.
From Coq Require Import ZArith.

Section Items.
Variables Name Act Obj : Type.      (* names of items, actions of tokens, objects of items *)
Variable n_eqb : Name -> Name -> bool.
Variable a_eqb : Act -> Act -> bool.

(** parce/transform.py:31-52: a token (only its action matters here) or an [Item] with a name and an object. *)
Inductive entry := EToken (a : Act) | EItem (n : Name) (o : Obj).

(** transform.py:92-104 [items] *)
Definition il_items (l : list entry) : list (Name * Obj) :=
  flat_map (fun e => match e with EItem n o => [(n, o)] | EToken _ => [] end) l.

(** transform.py:116-117 [index]: a dict, so the last one of equal names counts. None: not [in names]. *)
Fixpoint index_in (names : list Name) (i : nat) (n : Name) : option nat :=
  match names with
  | [] => None
  | m :: names => match index_in names (S i) n with
                  | Some j => Some j
                  | None => if n_eqb n m then Some i else None
                  end
  end.

(** [result[i] = obj] *)
Fixpoint set_at {T} (l : list T) (i : nat) (x : T) : list T :=
  match l, i with
  | [], _ => []
  | _ :: l, 0 => x :: l
  | y :: l, S i => y :: set_at l i x
  end.

(** transform.py:119-129, the loop. [last] None: [lastindex] is -1. A group has None for what is missing (the caller can not see the
    difference with an object that is None). *)
Fixpoint grouped_loop (names : list Name) (result : list (option Obj)) (last : option nat) (l : list (Name * Obj)) : list (list (option Obj)) :=
  match l with
  | [] => match last with Some _ => [result] | None => [] end
  | (n, o) :: l =>
      match index_in names 0 n with
      | None => grouped_loop names result last l
      | Some i =>
          if match last with Some j => i <=? j | None => false end
          then result :: grouped_loop names (set_at (repeat None (length names)) i (Some o)) (Some i) l
          else grouped_loop names (set_at result i (Some o)) (Some i) l
      end
  end.
(** transform.py:106-129 [grouped_objects] *)
Definition grouped_objects (names : list Name) (l : list entry) : list (list (option Obj)) :=
  grouped_loop names (repeat None (length names)) None (il_items l).

(** transform.py:131-148 [peek]: values are actions or names. *)
Inductive value := VAct (a : Act) | VName (n : Name).
Definition value_eqb (v w : value) : bool :=
  match v, w with VAct a, VAct b => a_eqb a b | VName m, VName n => n_eqb m n | _, _ => false end.
Definition key_of (e : entry) : value := match e with EToken a => VAct a | EItem n _ => VName n end.
Definition peek (l : list entry) (index : Z) (values : list value) : bool :=
  let from (index : nat) :=
    let end_ := index + length values in
    if length l <? end_ then false
    else list_eqb value_eqb (map key_of (firstn (end_ - index) (skipn index l))) values in
  if (index <? 0)%Z then
    let index := (index + Z.of_nat (length l))%Z in
    if (index <? 0)%Z then false else from (Z.to_nat index)
  else from (Z.to_nat index).

End Items.
Arguments EToken {Name Act Obj}. Arguments EItem {Name Act Obj}. Arguments il_items {Name Act Obj}. Arguments index_in {Name}.
Arguments grouped_loop {Name Obj}. Arguments grouped_objects {Name Act Obj}. Arguments VAct {Name Act}. Arguments VName {Name Act}.
Arguments value_eqb {Name Act}. Arguments key_of {Name Act Obj}. Arguments peek {Name Act Obj}.
