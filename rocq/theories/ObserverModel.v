(** Model of [Observable] in parce/util.py. Events and functions are numbers. *)
From Verif Require Import Base.
From Coq Require Import ZArith.

(** util.py:194-248 [_Observer] *)
Record observer := Observer { o_func : nat; o_once : bool; o_prio : Z }.

(** What a user can call. [DisconnectAll None] is for all events. *)
Inductive uop :=
| Connect (event func : nat) (once : bool) (prio : Z)
| Disconnect (event func : nat)
| DisconnectAll (event : option nat)
| Emit (event : nat).

(** The dictionary of callbacks refers to list objects, which are in a heap, as a list may be removed from the
    dictionary while it is iterated over. [u_log]: the functions called, with the event, most recent last. *)
Record ustate := UState { u_cbs : list (nat * nat); u_heap : list (list observer); u_log : list (nat * nat) }.

Definition lookup (event : nat) (cbs : list (nat * nat)) : option nat :=
  match find (fun x => fst x =? event) cbs with Some (_, id) => Some id | None => None end.
Definition slots_of (s : ustate) (id : nat) : list observer := nth id (u_heap s) [].
Fixpoint set_nth {A} (l : list A) (i : nat) (x : A) : list A :=
  match l, i with
  | [], _ => []
  | _ :: l, 0 => x :: l
  | y :: l, S i => y :: set_nth l i x
  end.
Definition set_slots (s : ustate) (id : nat) (l : list observer) : ustate :=
  UState (u_cbs s) (set_nth (u_heap s) id l) (u_log s).
(** [del self._callbacks[event]] *)
Definition del_event (event : nat) (cbs : list (nat * nat)) : list (nat * nat) :=
  filter (fun x => negb (fst x =? event)) cbs.

(** [bisect.insort_right(slots, observer)], by its description: after all entries that are not greater. The list is
    always sorted. *)
Fixpoint insort_right (x : observer) (l : list observer) : list observer :=
  match l with
  | [] => [x]
  | y :: l => if (o_prio x <? o_prio y)%Z then x :: y :: l else y :: insort_right x l
  end.

(** [list.remove]; None is a ValueError. *)
Fixpoint remove_func (func : nat) (l : list observer) : option (list observer) :=
  match l with
  | [] => None
  | y :: l => if o_func y =? func then Some l else option_map (cons y) (remove_func func l)
  end.

(** [del l[i]]; None is an IndexError. *)
Fixpoint del_nth {A} (l : list A) (i : nat) : option (list A) :=
  match l, i with
  | [], _ => None
  | _ :: l, 0 => Some l
  | y :: l, S i => option_map (cons y) (del_nth l i)
  end.
Fixpoint del_all {A} (l : list A) (is : list nat) : option (list A) :=
  match is with
  | [] => Some l
  | i :: is => match del_nth l i with None => None | Some l => del_all l is end
  end.

(** util.py:304-320 [connect] *)
Definition connect (s : ustate) (event func : nat) (once : bool) (prio : Z) : ustate :=
  let '(s, id) := match lookup event (u_cbs s) with
                  | Some id => (s, id)
                  | None => (UState (u_cbs s ++ [(event, length (u_heap s))]) (u_heap s ++ [[]]) (u_log s), length (u_heap s))
                  end in
  let l := slots_of s id in
  if existsb (fun o => o_func o =? func) l then s else set_slots s id (insort_right (Observer func once prio) l).

(** util.py:322-334 [disconnect] *)
Definition disconnect (s : ustate) (event func : nat) : ustate :=
  match lookup event (u_cbs s) with
  | None => s
  | Some id => match remove_func func (slots_of s id) with
               | None => s
               | Some l => let s := set_slots s id l in
                           match l with [] => UState (del_event event (u_cbs s)) (u_heap s) (u_log s) | _ => s end
               end
  end.

(** util.py:336-348 [disconnect_all] *)
Definition disconnect_all (s : ustate) (event : option nat) : ustate :=
  match event with
  | None => UState [] (u_heap s) (u_log s)
  | Some event => UState (del_event event (u_cbs s)) (u_heap s) (u_log s)
  end.

(** util.py:350-357 [has_connections], 359-365 [is_connected] *)
Definition has_connections (s : ustate) (event : nat) : bool :=
  match lookup event (u_cbs s) with Some _ => true | None => false end.
Definition is_connected (s : ustate) (event func : nat) : bool :=
  match lookup event (u_cbs s) with Some id => existsb (fun o => o_func o =? func) (slots_of s id) | None => false end.

Section Emit.
(** A method whose object is gone is not [alive] (util.py:238-248): it is not called, and [once] is set. *)
Variable alive : nat -> bool.
(** What a function does when it is called, as far as this Observable is concerned. Its return value (which may be a
    context manager) is not modelled. *)
Variable effect : nat -> list uop.

(** util.py:367-395 [emit]: [for i, observer in enumerate(slots)], a Python list iterator looks at the list as it is
    at each step. Outer None: an exception or no more fuel. *)
Fixpoint emit_loop (run : ustate -> list uop -> option ustate) (fuel : nat) (s : ustate) (event id i : nat) (disconnect_ : list nat)
  : option (ustate * list nat) :=
  match fuel with
  | 0 => None
  | S fuel =>
      match nth_error (slots_of s id) i with
      | None => Some (s, disconnect_)
      | Some o =>
          if alive (o_func o) then
            match run (UState (u_cbs s) (u_heap s) (u_log s ++ [(event, o_func o)])) (effect (o_func o)) with
            | None => None
            | Some s => emit_loop run fuel s event id (S i) (if o_once o then disconnect_ ++ [i] else disconnect_)
            end
          else emit_loop run fuel s event id (S i) (disconnect_ ++ [i])
      end
  end.

Fixpoint run_op (fuel : nat) (s : ustate) (o : uop) : option ustate :=
  match o with
  | Connect e f once prio => Some (connect s e f once prio)
  | Disconnect e f => Some (disconnect s e f)
  | DisconnectAll e => Some (disconnect_all s e)
  | Emit e =>
      match fuel with
      | 0 => None
      | S fuel =>
          match lookup e (u_cbs s) with
          | None => Some s
          | Some id =>
              let run := fix run (s : ustate) (ops : list uop) : option ustate :=
                match ops with
                | [] => Some s
                | o :: ops => match run_op fuel s o with None => None | Some s => run s ops end
                end in
              match emit_loop run fuel s e id 0 [] with
              | None => None
              | Some (s, []) => Some s
              | Some (s, dis) =>
                  match del_all (slots_of s id) (rev dis) with
                  | None => None
                  | Some l =>
                      let s := set_slots s id l in
                      match l with
                      | [] => match lookup e (u_cbs s) with   (* KeyError *)
                              | None => None
                              | Some _ => Some (UState (del_event e (u_cbs s)) (u_heap s) (u_log s))
                              end
                      | _ => Some s
                      end
                  end
              end
          end
      end
  end.

Fixpoint run_ops (fuel : nat) (s : ustate) (ops : list uop) : option ustate :=
  match ops with
  | [] => Some s
  | o :: ops => match run_op fuel s o with None => None | Some s => run_ops fuel s ops end
  end.
End Emit.

Definition u_init : ustate := UState [] [] [].
