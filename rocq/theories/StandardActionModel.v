(** Model of parce/standardaction.py: the standard actions. *)
From Verif Require Import Base.

(** One [StandardAction] object: its [_name] and [_parent]; an object is a number, its place in the heap. *)
Record action := Action { a_name : str; a_parent : option nat }.

(** The objects made so far, and what is stored in [_toplevel_actions] (parent None) and in the [__dict__] of
    the objects, besides [_name] and [_parent]. *)
Record state := State { heap : list action; interned : list ((option nat * str) * nat) }.
Definition start : state := State [] [].

Definition parent_eqb (a b : option nat) : bool :=
  match a, b with None, None => true | Some x, Some y => x =? y | _, _ => false end.
Definition lookup (parent : option nat) (name : str) (d : list ((option nat * str) * nat)) : option nat :=
  option_map snd (find (fun e => parent_eqb (fst (fst e)) parent && str_eqb (snd (fst e)) name) d).

(** "_name" and "_parent" *)
Definition s_name : str := [95; 110; 97; 109; 101].
Definition s_parent : str := [95; 112; 97; 114; 101; 110; 116].

(** standardaction.py:106-115 [__new__]. The search and the creation are one step, under the lock. The result
    None: [d[name]] is no action but the [_name] or [_parent] of the parent. (An action is always true, for
    [if parent].) *)
Definition new (st : state) (name : str) (parent : option nat) : state * option nat :=
  match parent with
  | Some _ => if str_eqb name s_name || str_eqb name s_parent then (st, None)
              else match lookup parent name (interned st) with
                   | Some i => (st, Some i)
                   | None => (State (heap st ++ [Action name parent]) (((parent, name), length (heap st)) :: interned st), Some (length (heap st)))
                   end
  | None => match lookup parent name (interned st) with
            | Some i => (st, Some i)
            | None => (State (heap st ++ [Action name parent]) (((parent, name), length (heap st)) :: interned st), Some (length (heap st)))
            end
  end.

(** standardaction.py:117-120 [__getattr__]; None is the AttributeError. Called when the attribute is not found
    in the [__dict__], but [__new__] gives the same object if it is there. *)
Definition getattr (st : state) (self : nat) (name : str) : state * option nat :=
  match name with
  | 95 :: _ => (st, None)
  | _ => new st name (Some self)
  end.

(** standardaction.py:125-129 [__iter__]: the action and its ancestors. *)
Fixpoint chain (fuel : nat) (h : list action) (node : nat) : list nat :=
  match fuel with
  | 0 => []
  | S fuel => match nth_error h node with
              | None => []
              | Some a => node :: match a_parent a with None => [] | Some p => chain fuel h p end
              end
  end.
Definition iter (h : list action) (node : nat) : list nat := chain (S (length h)) h node.

Definition name_of (h : list action) (i : nat) : str := match nth_error h i with Some a => a_name a | None => [] end.

Fixpoint py_join (sep : str) (l : list str) : str :=
  match l with [] => [] | [x] => x | x :: l => x ++ sep ++ py_join sep l end.
(** standardaction.py:122-123 [__repr__] *)
Definition repr (h : list action) (self : nat) : str := py_join [46] (rev (map (name_of h) (iter h self))).

(** standardaction.py:131-134 [__contains__]: [other in self] for another action and for a string. *)
Definition contains (h : list action) (self other : nat) : bool := existsb (fun t => t =? self) (iter h other).
Definition contains_str (h : list action) (self : nat) (other : str) : bool :=
  existsb (fun t => str_eqb (name_of h t) other) (iter h self).

(** standardaction.py:136-140 [__and__]: the items of a frozenset are compared by identity. *)
Definition and_ (h : list action) (self other : nat) : option nat :=
  let ancestors := iter h other in find (fun t => existsb (Nat.eqb t) ancestors) (iter h self).
