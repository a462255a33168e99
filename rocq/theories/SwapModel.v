(** Model of a Worker whose Transformer is exchanged (parce/work.py). *)
From Verif Require Import Base TargetModel LexerModel TreeModel BuildModel ChangesModel RebuildModel TransformModel TransformUpdateModel.
From Coq Require Import ZArith.

(** ** One call at a time, with the results that transformers keep *)
Section Swap.
Variables L A R Lang Name Arg : Type.
Variable lang : L -> Lang.
Variable name : L -> Name.
Variable arg : L -> Arg.
Variable lang_is : Lang -> Lang -> bool.
(** The methods of the transformers, which are numbered. *)
Variable methods : nat -> Lang -> transform L A R Name Arg.
Variable l_eq : L -> L -> bool.
Notation inode := (node (nat * L) A).
(** The tree of the builder, the transformer of the worker, and the caches of all transformers. *)
Record xstate := XState { x_tree : inode; x_cur : option nat; x_caches : nat -> tcache R }.
Definition set_cache (f : nat -> tcache R) (t : nat) (c : tcache R) : nat -> tcache R := fun i => if i =? t then c else f i.
(** work.py:190-207, in [process]: running the transformer.  The tree is up to date. *)
Definition x_run (s : xstate) : option xstate :=
  match x_cur s with
  | None => Some s
  | Some t =>
      match t_process L A R Lang Name Arg lang name arg lang_is (methods t) (x_caches s t) (x_tree s) None false with
      | Some c => Some (XState (x_tree s) (x_cur s) (set_cache (x_caches s) t c))
      | None => None
      end
  end.
Definition same_transformer (a b : option nat) : bool := match a, b with None, None => true | Some x, Some y => x =? y | _, _ => false end.
(** work.py:108-125 [set_transformer]; there are no changes of the text then. *)
Definition x_set (s : xstate) (t : option nat) : option xstate :=
  if same_transformer t (x_cur s) then Some s else x_run (XState (x_tree s) t (x_caches s)).
(** work.py:131-145 [update], for a change that replaces a part of the tree; 292-299 [slot_invalidate]: only the transformer of the worker is told. *)
Definition x_update (s : xstate) (r : bresult (nat * L) A) : option xstate :=
  match x_cur s with
  | None => match replace_itree l_eq (x_tree s) r with Some tree => Some (XState tree None (x_caches s)) | None => None end
  | Some t =>
      match u_update l_eq (UState (x_tree s) (x_caches s t)) r with
      | Some u => x_run (XState (u_tree u) (Some t) (set_cache (x_caches s) t (u_cache u)))
      | None => None
      end
  end.
(** work.py:269-290 [get_transform] *)
Definition x_get (s : xstate) : option R := match x_cur s with Some t => tc_result (x_caches s t) | None => None end.
End Swap.
Arguments XState {L A R}. Arguments x_tree {L A R}. Arguments x_cur {L A R}. Arguments x_caches {L A R}. Arguments x_get {L A R}.

(** ** A background thread, step by step *)
(** Where the process is (work.py:168-217): building the tree; about to take the transformer, with the one that has run before; running one, in three stages;
    about to leave. *)
Inductive qpc := QBuild | QTake (old : option nat) | QRun (t : nat) (stage : nat) | QFin.
(** [q_state]: [_transform_state]; [q_done]: the result of a transformer is that for the tree as it is. *)
Record qst := Qst { q_cur : option nat; q_state : nat; q_proc : option qpc; q_done : nat -> bool }.
Definition q_init : qst := Qst None 0 None (fun _ => false).
Inductive qlab := LSet (t : option nat) | LUpdate | LProc.
(** 147-158 [start], when no process is running.  A second process beside a running one is not modelled: then there is no step. *)
Definition q_start (s : qst) : option qst :=
  match q_proc s with
  | None => Some (Qst (q_cur s) (match q_cur s with Some _ => if q_state s =? 0 then 1 else q_state s | None => q_state s end) (Some QBuild) (q_done s))
  | Some _ => None
  end.
Definition q_step (s : qst) (l : qlab) : option qst :=
  match l with
  | LSet t =>                                                                                  (* 118-125 [set_transformer] *)
      if same_transformer t (q_cur s) then Some s
      else let s1 := Qst t (q_state s) (q_proc s) (q_done s) in if Nat.land (q_state s) 3 =? 0 then q_start s1 else Some s1
  | LUpdate =>                                                                                 (* 142-145 [update] *)
      let s1 := Qst (q_cur s) (q_state s) (q_proc s) (fun _ => false) in
      match q_proc s with Some QBuild => Some s1 | _ => q_start s1 end
  | LProc =>
      match q_proc s with
      | None => None
      | Some QBuild => Some (Qst (q_cur s) (q_state s) (Some (QTake None)) (q_done s))         (* 174-184 *)
      | Some (QTake old) =>                                                                    (* 187-190, 198-201, with the lock *)
          match q_cur s with
          | Some t => if same_transformer (Some t) old then Some (Qst (q_cur s) (q_state s) (Some QFin) (q_done s))
                      else Some (Qst (q_cur s) (q_state s) (Some (QRun t 0)) (q_done s))
          | None => Some (Qst (q_cur s) (q_state s) (Some QFin) (q_done s))
          end
      | Some (QRun t 0) => Some (Qst (q_cur s) 1 (Some (QRun t 1)) (q_done s))                 (* 192-197, stage build *)
      | Some (QRun t 1) => Some (Qst (q_cur s) 3 (Some (QRun t 2)) (fun i => (i =? t) || q_done s i))   (* replace *)
      | Some (QRun t _) => Some (Qst (q_cur s) 4 (Some (QTake (Some t))) (q_done s))           (* done *)
      | Some QFin => Some (Qst (q_cur s) 0 None (q_done s))                                    (* 213-217 *)
      end
  end.
Fixpoint q_run (s : qst) (ls : list qlab) : option qst :=
  match ls with [] => Some s | l :: ls => match q_step s l with Some s => q_run s ls | None => None end end.
(** 281-287, in [get_transform]: it waits, or returns None without [wait] *)
Definition q_waits (s : qst) : bool := negb (Nat.land (q_state s) 3 =? 0).
