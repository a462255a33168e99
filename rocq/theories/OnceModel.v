(** Model of emitting one event by an [Observable] (parce/util.py) when handlers raise exceptions or emit the same event themselves. Connecting and disconnecting by handlers is in ObserverModel.v. *)
From Coq Require Import List Arith Bool.
Import ListNotations.

(** util.py:194-248 [_Observer]: the function (a number), and whether it is for one call. *)
Record handler := Handler { h_func : nat; h_once : bool }.
(** What a function does in a call: it returns, raises an exception, or emits the event and then returns. *)
Inductive act := Return | Raise | EmitAgain.

(** The handlers that are connected, in order; and the functions that were called, in order. *)
Record state := St { slots : list handler; log : list nat }.

(** [del slots[i]]; None: IndexError. *)
Fixpoint del (i : nat) (l : list handler) : option (list handler) :=
  match l, i with
  | [], _ => None
  | _ :: l, 0 => Some l
  | x :: l, S i => option_map (cons x) (del i l)
  end.
(** [for i in reversed(disconnect): del slots[i]]; what is left when there is an exception, and whether there is one. *)
Fixpoint del_all (is : list nat) (l : list handler) : list handler * bool :=
  match is with
  | [] => (l, false)
  | i :: is => match del i l with Some l => del_all is l | None => (l, true) end
  end.

Section Once.
Variable behave : nat -> nat -> act.      (* what a function does, and in the how many-th call (from 0) *)
Definition calls (f : nat) (l : list nat) : nat := count_occ Nat.eq_dec l f.

(** util.py:382-389, the loop: the list is looked at as it is at each step. [again]: emitting the event inside. The result: the state, the list [disconnect] (last one
    first), and whether an exception was raised. None: no more fuel. *)
Fixpoint loop (again : state -> option (state * bool)) (fuel : nat) (i : nat) (disconnect : list nat) (s : state) : option (state * list nat * bool) :=
  match fuel with
  | 0 => None
  | S fuel =>
      match nth_error (slots s) i with
      | None => Some (s, disconnect, false)
      | Some h =>
          let s1 := St (slots s) (log s ++ [h_func h]) in
          let disconnect1 := if h_once h then i :: disconnect else disconnect in
          match behave (h_func h) (calls (h_func h) (log s)) with
          | Raise => Some (s1, disconnect, true)
          | Return => loop again fuel (S i) disconnect1 s1
          | EmitAgain => match again s1 with
                         | None => None
                         | Some (s2, true) => Some (s2, disconnect, true)
                         | Some (s2, false) => loop again fuel (S i) disconnect1 s2
                         end
          end
      end
  end.

(** util.py:367-395 [emit]; the depth of emitting inside is bounded by [depth]. *)
Fixpoint emit (depth fuel : nat) (s : state) : option (state * bool) :=
  match depth with
  | 0 => None
  | S depth =>
      match loop (emit depth fuel) fuel 0 [] s with
      | None => None
      | Some (s, disconnect, true) => Some (s, true)
      | Some (s, disconnect, false) => let (l, exc) := del_all disconnect (slots s) in Some (St l (log s), exc)
      end
  end.

(** Emitting the event [n] times; the number of times that an exception was raised. *)
Fixpoint emits (n depth fuel : nat) (s : state) : option (state * nat) :=
  match n with
  | 0 => Some (s, 0)
  | S n => match emit depth fuel s with
           | None => None
           | Some (s, exc) => match emits n depth fuel s with
                              | None => None
                              | Some (s, k) => Some (s, (if exc then 1 else 0) + k)
                              end
           end
  end.
End Once.
