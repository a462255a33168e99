(** Model of object_locker, caching_dict and file_cache in parce/util.py. Threads are numbers. Each step is one access to
    shared data, or one call. *)
From Verif Require Import Base.
From Coq Require Import ZArith.

Definition upd {A} (f : nat -> A) (t : nat) (x : A) : nat -> A := fun u => if u =? t then x else f u.

(** * object_locker (util.py:463-512), for one object *)

(** Where a thread is in [with lock(obj): ...]. A lock is a number. *)
Inductive lpc :=
| Idle
| WaitRaw (id : nat)    (* got an existing lock, line 501; not yet acquired *)
| WaitCln (id : nat)    (* got a new lock, wrapped in cleanup(), line 511; not yet acquired, line 507 *)
| InRaw (id : nat)      (* inside the context *)
| InCln (id : nat)      (* inside the context, line 508 *)
| Del                   (* lock is released, before line 510 *)
| KeyErr.               (* line 510 raised KeyError *)

(** [l_entry]: [locker[obj]], if any; [l_next]: the next lock that will be made; [l_held]: the locks that are held. *)
Record lstate := LState { l_entry : option nat; l_next : nat; l_held : nat -> bool; l_pc : nat -> lpc }.
Definition l_init : lstate := LState None 0 (fun _ => false) (fun _ => Idle).

(** Thread [t] does its next step. None: it must wait, or there is none. The request is one step, as it is done holding
    [locker_lock]. *)
Definition l_step (s : lstate) (t : nat) : option lstate :=
  match l_pc s t with
  | Idle => match l_entry s with
            | Some id => Some (LState (l_entry s) (l_next s) (l_held s) (upd (l_pc s) t (WaitRaw id)))
            | None => Some (LState (Some (l_next s)) (S (l_next s)) (l_held s) (upd (l_pc s) t (WaitCln (l_next s))))
            end
  | WaitRaw id => if l_held s id then None else Some (LState (l_entry s) (l_next s) (upd (l_held s) id true) (upd (l_pc s) t (InRaw id)))
  | WaitCln id => if l_held s id then None else Some (LState (l_entry s) (l_next s) (upd (l_held s) id true) (upd (l_pc s) t (InCln id)))
  | InRaw id => Some (LState (l_entry s) (l_next s) (upd (l_held s) id false) (upd (l_pc s) t Idle))
  | InCln id => Some (LState (l_entry s) (l_next s) (upd (l_held s) id false) (upd (l_pc s) t Del))
  | Del => match l_entry s with
           | Some _ => Some (LState None (l_next s) (l_held s) (upd (l_pc s) t Idle))
           | None => Some (LState None (l_next s) (l_held s) (upd (l_pc s) t KeyErr))
           end
  | KeyErr => None
  end.
Fixpoint l_run (s : lstate) (ts : list nat) : option lstate :=
  match ts with
  | [] => Some s
  | t :: ts => match l_step s t with None => None | Some s => l_run s ts end
  end.

(** * caching_dict (util.py:556-601) *)

(** Where a thread is in [cache[key]]. *)
Inductive cpc :=
| CIdle
| CWant (k : nat)                   (* before line 596 *)
| CLook (k : nat)                   (* holds the lock; line 598 *)
| CCall (k : nat)                   (* holds the lock; the factory function runs *)
| CStore (k : nat) (v : option nat) (* holds the lock; the function returned *)
| CRet (k : nat) (v : option nat)   (* holds the lock; will return *)
| CFail (k : nat).                  (* holds the lock; the function raised an exception *)

(** A value is an [option nat], None for None. [c_calls]: the calls of the factory function that returned; [c_results]: what was
    returned by [cache[key]], both most recent last. *)
Record cstate := CState
  { c_lock : option nat; c_dict : list (nat * option nat); c_pc : nat -> cpc;
    c_calls : list (nat * option nat); c_results : list (nat * option nat) }.
Definition c_init : cstate := CState None [] (fun _ => CIdle) [] [].

(** What happens: a thread asks for a key, makes a step, or its call of the function returns or raises an exception. *)
Inductive clabel := Ask (t k : nat) | Step (t : nat) | Return (t : nat) (v : option nat) | Raise (t : nat).

Definition assoc {A} (k : nat) (l : list (nat * A)) : option A :=
  match find (fun x => fst x =? k) l with Some (_, v) => Some v | None => None end.

(** The argument [unpack] only matters for how the function is called. *)
Definition c_step (cache_none : bool) (s : cstate) (l : clabel) : option cstate :=
  let with_pc t pc := CState (c_lock s) (c_dict s) (upd (c_pc s) t pc) (c_calls s) (c_results s) in
  match l with
  | Ask t k => match c_pc s t with CIdle => Some (with_pc t (CWant k)) | _ => None end
  | Return t v => match c_pc s t with
                  | CCall k => Some (CState (c_lock s) (c_dict s) (upd (c_pc s) t (CStore k v)) (c_calls s ++ [(k, v)]) (c_results s))
                  | _ => None
                  end
  | Raise t => match c_pc s t with CCall k => Some (with_pc t (CFail k)) | _ => None end
  | Step t =>
      match c_pc s t with
      | CIdle | CCall _ => None
      | CWant k => match c_lock s with
                   | None => Some (CState (Some t) (c_dict s) (upd (c_pc s) t (CLook k)) (c_calls s) (c_results s))
                   | Some _ => None
                   end
      | CLook k => match assoc k (c_dict s) with
                   | Some v => Some (with_pc t (CRet k v))
                   | None => Some (with_pc t (CCall k))
                   end
      | CStore k v => let d := if cache_none || match v with None => false | Some _ => true end then (k, v) :: c_dict s else c_dict s in
                      Some (CState (c_lock s) d (upd (c_pc s) t (CRet k v)) (c_calls s) (c_results s))
      | CRet k v => Some (CState None (c_dict s) (upd (c_pc s) t CIdle) (c_calls s) (c_results s ++ [(k, v)]))
      | CFail k => Some (CState None (c_dict s) (upd (c_pc s) t CIdle) (c_calls s) (c_results s))
      end
  end.
Fixpoint c_run (cache_none : bool) (s : cstate) (ls : list clabel) : option cstate :=
  match ls with
  | [] => Some s
  | l :: ls => match c_step cache_none s l with None => None | Some s => c_run cache_none s ls end
  end.

(** * file_cache (util.py:604-631), for one file *)

(** The file changes at any time. [f_mtime]: None when it can't be determined; [f_content] is what the function reads. The
    function's value is the content (or what it computes from it). The times are whole numbers. *)
Record file := File { f_mtime : option Z; f_content : nat }.

(** [cache[key]], for the cached [entry]. The file is [at1] when line 623 looks at it and [at2] when the function
    reads it. None is an exception: when no entry is there and [mtime] happens to be equal to [new_mtime], [value] has no
    value. *)
Definition file_get (entry : option (Z * nat)) (at1 at2 : file) : option (nat * option (Z * nat)) :=
  let mtime := match entry with Some (m, _) => m | None => -1 end%Z in
  let new_mtime := match f_mtime at1 with Some m => m | None => -2 end%Z in
  if negb (mtime =? new_mtime)%Z
  then let value := f_content at2 in
       Some (value, if (0 <=? new_mtime)%Z then Some (new_mtime, value) else entry)
  else match entry with Some (_, value) => Some (value, entry) | None => None end.

(** A history: the file is changed, or asked for. [Get mid] has the changes that happen between looking at the time and
    reading the file. *)
Inductive fop := Write (f : file) | Get (mid : list file).
Record fstate := FState { fs_file : file; fs_entry : option (Z * nat); fs_results : list (nat * (file * file)) }.
(** The results are logged with the file at both moments. *)
Fixpoint f_run (s : fstate) (ops : list fop) : option fstate :=
  match ops with
  | [] => Some s
  | Write f :: ops => f_run (FState f (fs_entry s) (fs_results s)) ops
  | Get mid :: ops =>
      let f2 := last mid (fs_file s) in
      match file_get (fs_entry s) (fs_file s) f2 with
      | None => None
      | Some (v, e) => f_run (FState f2 e (fs_results s ++ [(v, (fs_file s, f2))])) ops
      end
  end.
