(** Model of how threads work together in parce/work.py (Worker, BackgroundWorker) and parce/treebuilder.py
    (TreeBuilder.rebuild, add_changes, get_changes, process). Calling threads and processes are numbers; each step is one
    access to shared data. An edit is a number; a tree is known by the list of edits that it reflects. *)
From Verif Require Import Base.

(** work.py:49-52. *)
Definition IDLE := 0.
Definition BUILD := 1.
Definition REPLACE := 3.
Definition DONE := 4.

(** Where a calling thread is in [Worker.update] (work.py:133-145), [set_transformer] (work.py:108-127) or [start]
    (work.py:147-158). *)
Inductive wcall :=
| CIdle
| CAdd (e : nat)    (* before [with self._lock] in add_changes, treebuilder.py:215 *)
| CCheck            (* before reading [busy], work.py:143 *)
| CSet              (* before setting it, work.py:144 *)
| CStart            (* before [with self._condition] in start, work.py:154 *)
| CSpawn.           (* before run_process, work.py:158 *)

(** Where a process is in [Worker.process] (work.py:175-220), with [TreeBuilder.process] (treebuilder.py:541-585). [es]: the
    edits that were combined in [c] (and, in build_new_tree, the edits that were added to them); [base]: the tree that was
    there when building began. *)
Inductive wproc :=
| PNone
| PLock                                                 (* before acquiring the lock, treebuilder.py:562, 575 *)
| PGet (es : list nat)                                  (* holds the lock; before [while self.changes], treebuilder.py:526 *)
| PPop (es : list nat)                                  (* holds the lock; before [self.changes.pop(0)], treebuilder.py:527 *)
| PHas (es : list nat)                                  (* holds the lock; before [c.has_changes()], treebuilder.py:564 *)
| PSetBuild (es : list nat)                             (* lock released; before setting the state, work.py:188 *)
| PBuild (es : list nat) (base : option (list nat))     (* in build_new_tree, treebuilder.py:567 *)
| PTake (es : list nat) (base : option (list nat))      (* in get_changes there, treebuilder.py:328; before [pop(0)] *)
| PSetReplace (es : list nat) (base : option (list nat))(* before setting the state, work.py:188 *)
| PReplace (es : list nat) (base : option (list nat))   (* before replace_tree, treebuilder.py:570 *)
| PClear                                                (* holds the lock; before [self.busy = False], treebuilder.py:583 *)
| PRelease                                              (* holds the lock; treebuilder.py:584 *)
| PSetDone                                              (* before setting the state, work.py:188 *)
| PSetIdle                                              (* in finish_build, or before setting the state, work.py:191 *)
| PTransform                                            (* the transformer runs, work.py:195-212 *)
| PFinally                                              (* before setting the state, work.py:217 *)
| PFail                                                 (* an exception was raised; before setting the state, work.py:217 *)
| PEnd (ok : bool).

(** [w_changes], [w_busy], [w_lock] (by which process the lock is held), [w_tree]: attributes of the tree builder; the tree is
    None when it was replaced with the result of a build that was based on another tree. [w_state]: [_tree_state] of the
    worker; [w_next]: the number of processes that were started. [w_trans]: whether a transformer was set. [w_added] is not in
    the code: the edits that were added, in order. *)
Record wstate := WState
  { w_changes : list nat; w_busy : bool; w_lock : option nat; w_tree : option (list nat); w_state : nat;
    w_trans : bool; w_next : nat; w_proc : nat -> wproc; w_call : nat -> wcall; w_added : list nat }.
Definition w_init : wstate := WState [] false None (Some []) IDLE false 0 (fun _ => PNone) (fun _ => CIdle) [].

Definition wset {A} (f : nat -> A) (t : nat) (x : A) : nat -> A := fun u => if u =? t then x else f u.

(** What happens: a thread calls [update] with an edit, or [set_transformer] with a transformer; a thread does its next step;
    a process does its next step; a process that builds finds that there are changes (treebuilder.py:325-328); an exception is
    raised in build_new_tree or replace_tree. *)
Inductive wlabel :=
| Update (t e : nat) | SetTransformer (t : nat) | Caller (t : nat) | Proc (i : nat) | More (i : nat) | Raise (i : nat).

Definition with_call (s : wstate) (t : nat) (c : wcall) : wstate :=
  WState (w_changes s) (w_busy s) (w_lock s) (w_tree s) (w_state s) (w_trans s) (w_next s) (w_proc s) (wset (w_call s) t c) (w_added s).
Definition with_proc (s : wstate) (i : nat) (p : wproc) : wstate :=
  WState (w_changes s) (w_busy s) (w_lock s) (w_tree s) (w_state s) (w_trans s) (w_next s) (wset (w_proc s) i p) (w_call s) (w_added s).
Definition with_changes (s : wstate) (l : list nat) : wstate :=
  WState l (w_busy s) (w_lock s) (w_tree s) (w_state s) (w_trans s) (w_next s) (w_proc s) (w_call s) (w_added s).
Definition with_busy (s : wstate) (b : bool) : wstate :=
  WState (w_changes s) b (w_lock s) (w_tree s) (w_state s) (w_trans s) (w_next s) (w_proc s) (w_call s) (w_added s).
Definition with_lock (s : wstate) (l : option nat) : wstate :=
  WState (w_changes s) (w_busy s) l (w_tree s) (w_state s) (w_trans s) (w_next s) (w_proc s) (w_call s) (w_added s).
Definition with_tree (s : wstate) (t : option (list nat)) : wstate :=
  WState (w_changes s) (w_busy s) (w_lock s) t (w_state s) (w_trans s) (w_next s) (w_proc s) (w_call s) (w_added s).
Definition with_state (s : wstate) (n : nat) : wstate :=
  WState (w_changes s) (w_busy s) (w_lock s) (w_tree s) n (w_trans s) (w_next s) (w_proc s) (w_call s) (w_added s).
Definition with_trans (s : wstate) : wstate :=
  WState (w_changes s) (w_busy s) (w_lock s) (w_tree s) (w_state s) true (w_next s) (w_proc s) (w_call s) (w_added s).
Definition with_added (s : wstate) (e : nat) : wstate :=
  WState (w_changes s) (w_busy s) (w_lock s) (w_tree s) (w_state s) (w_trans s) (w_next s) (w_proc s) (w_call s) (w_added s ++ [e]).
Definition with_next (s : wstate) : wstate :=
  WState (w_changes s) (w_busy s) (w_lock s) (w_tree s) (w_state s) (w_trans s) (S (w_next s)) (w_proc s) (w_call s) (w_added s).

(** The next step of a calling thread. None: it must wait, or there is none. Simplified: run_process (BackgroundWorker,
    work.py:337-339) makes the thread and starts it in one step. *)
Definition call_step (s : wstate) (t : nat) : option wstate :=
  match w_call s t with
  | CIdle => None
  | CAdd e => match w_lock s with
              | Some _ => None
              | None => Some (with_call (with_added (with_changes s (w_changes s ++ [e])) e) t CCheck)
              end
  | CCheck => Some (with_call s t (if w_busy s then CIdle else CSet))
  | CSet => Some (with_call (with_busy s true) t CStart)
  | CStart => Some (with_call (with_state s BUILD) t CSpawn)
  | CSpawn => Some (with_call (with_proc (with_next s) (w_next s) PLock) t CIdle)
  end.

(** Two trees reflect the same edits. *)
Definition same_tree (a b : option (list nat)) : bool :=
  match a, b with
  | Some a, Some b => if list_eq_dec Nat.eq_dec a b then true else false
  | _, _ => false
  end.

(** The next step of a process. Replacing the tree with a result that was built from another tree gives None. [has_changes] is
    True when [add] was called (treebuilderutil.py:106-108; the start of a change is not -1). Simplified: the transformer runs
    in one step. *)
Definition proc_step (s : wstate) (i : nat) : option wstate :=
  match w_proc s i with
  | PNone => None
  | PLock => match w_lock s with
             | Some _ => None
             | None => Some (with_proc (with_lock s (Some i)) i (PGet []))
             end
  | PGet es => Some (with_proc s i (match w_changes s with [] => PHas es | _ => PPop es end))
  | PPop es => match w_changes s with
               | [] => Some (with_proc s i PFail)       (* IndexError; the lock is not released *)
               | e :: l => Some (with_proc (with_changes s l) i (PGet (es ++ [e])))
               end
  | PHas es => match es with
               | [] => Some (with_proc s i PClear)
               | _ => Some (with_proc (with_lock s None) i (PSetBuild es))
               end
  | PSetBuild es => Some (with_proc (with_state s BUILD) i (PBuild es (w_tree s)))
  | PBuild es base => Some (with_proc s i (PSetReplace es base))
  | PTake es base => match w_changes s with
                     | [] => Some (with_proc s i PFail) (* IndexError *)
                     | e :: l => Some (with_proc (with_changes s l) i (PBuild (es ++ [e]) base))
                     end
  | PSetReplace es base => Some (with_proc (with_state s REPLACE) i (PReplace es base))
  | PReplace es base =>
      Some (with_proc (with_tree s (if same_tree (w_tree s) base
                                    then match base with Some t => Some (t ++ es) | None => None end else None)) i PLock)
  | PClear => Some (with_proc (with_busy s false) i PRelease)
  | PRelease => Some (with_proc (with_lock s None) i PSetDone)
  | PSetDone => Some (with_proc (with_state s DONE) i PSetIdle)
  | PSetIdle => Some (with_proc (with_state s IDLE) i PTransform)
  | PTransform => Some (with_proc s i PFinally)
  | PFinally => Some (with_proc (with_state s IDLE) i (PEnd true))
  | PFail => Some (with_proc (with_state s IDLE) i (PEnd false))
  | PEnd _ => None
  end.

(** [set_transformer] is modelled for a worker that has no transformer yet: then [_transform_state] is IDLE, and it always calls
    [start] (work.py:118-127). *)
Definition w_step (s : wstate) (l : wlabel) : option wstate :=
  match l with
  | Update t e => match w_call s t with CIdle => Some (with_call s t (CAdd e)) | _ => None end
  | SetTransformer t => match w_call s t, w_trans s with CIdle, false => Some (with_call (with_trans s) t CStart) | _, _ => None end
  | Caller t => call_step s t
  | Proc i => proc_step s i
  | More i => match w_proc s i, w_changes s with
              | PBuild es base, _ :: _ => Some (with_proc s i (PTake es base))
              | _, _ => None
              end
  | Raise i => match w_proc s i with
               | PBuild _ _ | PReplace _ _ => Some (with_proc s i PFail)
               | _ => None
               end
  end.

Fixpoint w_run (s : wstate) (ls : list wlabel) : option wstate :=
  match ls with
  | [] => Some s
  | l :: ls => match w_step s l with None => None | Some s => w_run s ls end
  end.

(** work.py:222-231, 244-270 [get_root]: with [wait=True] the caller waits while this is true, and then returns the tree; with
    [wait=False] it returns None when this is true. *)
Definition waits (s : wstate) : bool := negb (Nat.land (w_state s) REPLACE =? 0).
