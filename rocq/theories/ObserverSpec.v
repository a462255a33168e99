(** What connecting and emitting should do. *)
From Verif Require Import Base ObserverModel.
From Coq Require Import ZArith.

(** The functions connected to an event, in the order they were connected. *)
Definition regs := nat -> list observer.

Definition reg_connect (r : regs) (event func : nat) (once : bool) (prio : Z) : regs :=
  fun e => if e =? event then if existsb (fun o => o_func o =? func) (r e) then r e else r e ++ [Observer func once prio] else r e.
Definition reg_disconnect (r : regs) (event func : nat) : regs :=
  fun e => if e =? event then filter (fun o => negb (o_func o =? func)) (r e) else r e.

(** [l] is sorted on priority, and otherwise in the order of [r]. *)
Fixpoint sorted (l : list observer) : Prop :=
  match l with
  | [] => True
  | x :: l => (forall y, In y l -> (o_prio x <= o_prio y)%Z) /\ sorted l
  end.
Definition in_order (r l : list observer) : Prop :=
  sorted l /\ forall p, filter (fun o => (o_prio o =? p)%Z) l = filter (fun o => (o_prio o =? p)%Z) r.

(** The specification: the connections change as said, and emitting an event appends to the log the functions connected
    to it that are alive, in order; then those that should be called once, or are gone, are not connected any more. *)
Inductive spec_step (alive : nat -> bool) : regs * list (nat * nat) -> uop -> regs * list (nat * nat) -> Prop :=
| spec_connect r log e f once prio : spec_step alive (r, log) (Connect e f once prio) (reg_connect r e f once prio, log)
| spec_disconnect r log e f : spec_step alive (r, log) (Disconnect e f) (reg_disconnect r e f, log)
| spec_all r log : spec_step alive (r, log) (DisconnectAll None) (fun _ => [], log)
| spec_all_of r log e : spec_step alive (r, log) (DisconnectAll (Some e)) (fun x => if x =? e then [] else r x, log)
| spec_emit r log e calls : in_order (r e) calls ->
    spec_step alive (r, log) (Emit e)
      (fun x => if x =? e then filter (fun o => alive (o_func o) && negb (o_once o)) (r e) else r x,
       log ++ map (fun o => (e, o_func o)) (filter (fun o => alive (o_func o)) calls)).

Inductive spec_run (alive : nat -> bool) : regs * list (nat * nat) -> list uop -> regs * list (nat * nat) -> Prop :=
| spec_nil x : spec_run alive x [] x
| spec_cons x o y ops z : spec_step alive x o y -> spec_run alive y ops z -> spec_run alive x (o :: ops) z.
