(** Model of the callbacks given to [Worker.get_root] (parce/work.py), on top of the threads of WorkModel. *)
From Verif Require Import Base WorkModel.

(** [c_w]: the threads. [c_emitted]: the processes that have called [finish_build]. [c_pending]: the callbacks connected to "tree_finished" by [get_root], each a number; they are
    connected with [once] (work.py:266), and one that is connected already is not connected again (util.py:319). [c_log] is not in the code: the callbacks that were called, in
    order, with the tree at that time. *)
Record cstate := CState { c_w : wstate; c_emitted : list nat; c_pending : list nat; c_log : list (nat * option (list nat)) }.
Definition c_init : cstate := CState w_init [] [] [].

(** What happens: a step of WorkModel; process [i] calls [finish_build]; thread [t] calls [get_root(callback=c)]. *)
Inductive clabel := Work (l : wlabel) | Emit (i : nat) | Ask (t c : nat).

Definition mem (x : nat) (l : list nat) : bool := existsb (Nat.eqb x) l.

(** work.py:189 [finish_build] is called between setting the state to DONE and setting it to IDLE, work.py:190-192.  It emits "tree_finished" (314-322): all callbacks are called and
    disconnected (util.py:367-396).  Simplified: emitting is one step; "tree_updated" and other handlers are left out; callbacks do not raise.
    work.py:244-270 [get_root], with [wait=False]: connects the callback if the tree is being built; the condition makes it one step. *)
Definition c_step (s : cstate) (l : clabel) : option cstate :=
  match l with
  | Work l =>
      if match l with Proc i => match w_proc (c_w s) i with PSetIdle => negb (mem i (c_emitted s)) | _ => false end | _ => false end then None
      else match w_step (c_w s) l with Some w => Some (CState w (c_emitted s) (c_pending s) (c_log s)) | None => None end
  | Emit i =>
      match w_proc (c_w s) i with
      | PSetIdle => if mem i (c_emitted s) then None
                    else Some (CState (c_w s) (i :: c_emitted s) [] (c_log s ++ map (fun c => (c, w_tree (c_w s))) (c_pending s)))
      | _ => None
      end
  | Ask t c =>
      match w_call (c_w s) t with
      | CIdle => Some (CState (c_w s) (c_emitted s) (if waits (c_w s) && negb (mem c (c_pending s)) then c_pending s ++ [c] else c_pending s) (c_log s))
      | _ => None
      end
  end.
Fixpoint c_run (s : cstate) (ls : list clabel) : option cstate :=
  match ls with
  | [] => Some s
  | l :: ls => match c_step s l with None => None | Some s => c_run s ls end
  end.

(** The steps of the threads in it. *)
Definition work_of (ls : list clabel) : list wlabel := flat_map (fun l => match l with Work l => [l] | _ => [] end) ls.
