(** Model of how a document knows its cursors: the WeakSet [_cursors] in parce/document.py, to which a Cursor adds itself. Cursors are mutable, and
    two cursors can be equal; sets look for an element by its hash value and [==]. *)
From Coq Require Import List Arith Bool.
From Verif Require Import Base MutableModel CursorModel.
Import ListNotations.

(** An object is known by its address; two objects that exist at the same time have different addresses. What a cursor has: its document
    and its positions. Documents are numbers. *)
Record obj := Obj { o_doc : nat; o_cur : cursor }.
Definition heap := nat -> option obj.
Definition put (hp : heap) (i : nat) (v : option obj) : heap := fun j => if j =? i then v else hp j.

Section Alive.
Variable address_hash : nat -> nat.       (* [object.__hash__], which is computed from the address *)

(** document.py:451: [__hash__ = object.__hash__]. *)
Definition hash (hp : heap) (i : nat) : nat := address_hash i.

(** document.py:477-482 [__eq__]; both are of type Cursor. *)
Definition end_eqb (a b : option nat) : bool :=
  match a, b with None, None => true | Some x, Some y => x =? y | _, _ => false end.
Definition obj_eq (a b : obj) : bool :=
  (o_doc b =? o_doc a) && (c_pos (o_cur b) =? c_pos (o_cur a)) && end_eqb (c_end (o_cur b)) (c_end (o_cur a)).
(** Two weak references are equal if the objects are the same, or if both exist and are equal. *)
Definition ref_eq (hp : heap) (i j : nat) : bool :=
  (i =? j) || match hp i, hp j with Some a, Some b => obj_eq a b | _, _ => false end.

(** A WeakSet: the hash value of every element (kept from the time when it was added), and its address. Adding does nothing if there is an element
    with the same hash value that is equal. *)
Definition wset := list (nat * nat).
Definition ws_add (hp : heap) (s : wset) (i : nat) : wset :=
  if existsb (fun x => (fst x =? hash hp i) && ref_eq hp (snd x) i) s then s else s ++ [(hash hp i, i)].
(** When an object ceases to exist its weak reference is removed: that is the same reference, found by the hash value that is kept in it. *)
Definition ws_discard (s : wset) (i : nat) : wset := filter (fun x => negb (snd x =? i)) s.

Record state := St { objs : heap; sets : nat -> wset }.
Definition init : state := St (fun _ => None) (fun _ => []).

(** What happens: a cursor is created (at a free address; [end] may be left out, and may be None); its [pos] and [end] are set by the user, by assigning
    or by a method such as [select] (document.py:598-614); the last reference to it is gone; a document is edited. *)
Inductive op := New (i d pos : nat) (e : option (option nat)) | Select (i pos : nat) (e : option nat) | Drop (i : nat) | Edit (d : nat) (ch : change).

(** document.py:575-578 [Cursor.__init__]; left out [end] is -1 in the code. *)
Definition new_cursor (pos : nat) (e : option (option nat)) : cursor :=
  Cursor pos (match e with Some e => e | None => Some pos end).

(** document.py:82-100 [_update_cursors], for one change: every cursor in the set is updated in place. The order makes no difference then;
    for more changes at once see CursorModel.v. *)
Definition update_obj (ch : change) (hp : heap) (x : nat * nat) : heap :=
  match hp (snd x) with
  | Some o => put hp (snd x) (Some (Obj (o_doc o) (fst (update_cursor ch (o_cur o)))))
  | None => hp
  end.

(** None: this cannot happen (the address is in use, or there is no such cursor). *)
Definition step (st : state) (o : op) : option state :=
  match o with
  | New i d pos e =>
      match objs st i with
      | Some _ => None
      | None => let hp := put (objs st) i (Some (Obj d (new_cursor pos e))) in
                Some (St hp (fun d' => if d' =? d then ws_add hp (sets st d) i else sets st d'))
      end
  | Select i pos e =>
      match objs st i with
      | Some o => Some (St (put (objs st) i (Some (Obj (o_doc o) (Cursor pos e)))) (sets st))
      | None => None
      end
  | Drop i =>
      match objs st i with
      | Some _ => Some (St (put (objs st) i None) (fun d => ws_discard (sets st d) i))
      | None => None
      end
  | Edit d ch => Some (St (fold_left (update_obj ch) (sets st d) (objs st)) (sets st))
  end.
Fixpoint run (st : state) (ops : list op) : option state :=
  match ops with
  | [] => Some st
  | o :: ops => match step st o with Some st => run st ops | None => None end
  end.
End Alive.
