(** What the threads are expected to achieve together. *)
From Verif Require Import Base WorkModel.

(** No thread is inside a call, and all processes have ended. *)
Definition stopped (s : wstate) : Prop :=
  (forall t, w_call s t = CIdle) /\ (forall i, w_proc s i = PNone \/ exists ok, w_proc s i = PEnd ok).

(** No exception was raised in a process. *)
Definition no_exception (s : wstate) : Prop := forall i, w_proc s i <> PFail /\ w_proc s i <> PEnd false.

(** What happens, as documented for [update], from one thread only (here 0); no transformer is set later, and building does not
    raise exceptions. *)
Definition from_main (l : wlabel) : Prop :=
  match l with
  | Update t _ => t = 0
  | SetTransformer _ => False
  | Raise _ => False
  | _ => True
  end.

(** All processes have ended. *)
Definition all_ended (s : wstate) : Prop := forall i, w_proc s i = PNone \/ exists ok, w_proc s i = PEnd ok.

(** A new process is only started when all earlier ones have ended: as it is when the Worker is not a BackgroundWorker, or when
    the caller waits for the thread to finish. *)
Fixpoint one_at_a_time (s : wstate) (ls : list wlabel) : Prop :=
  match ls with
  | [] => True
  | l :: ls =>
      (match l with Caller t => w_call s t = CStart -> all_ended s | _ => True end) /\
      match w_step s l with Some s => one_at_a_time s ls | None => True end
  end.
