(** Model of how a Transformer finds the transform for a language, with any number of threads: transform.py and the
    [caching_dict] of util.py. *)
From Coq Require Import List Arith Bool.
Import ListNotations.

(** A transform: an instance that was made ([id] tells instances apart) of a class, or an object that was given. *)
Inductive tf := Made (cls id : nat) | Given (n : nat).
(** What is in the dictionary; [None]: no transformation. *)
Definition value := option tf.

(** What can be observed; newest first in a history. *)
Inductive event :=
| Added (lang : nat) (v : value)                  (* add_transform(lang, v) *)
| Called (thread lang : nat)                      (* get_transform(lang) got the lock *)
| Returned (thread lang : nat) (v : value).       (* get_transform(lang) returned v *)

(** Where the thread that has the lock is, util.py:594-600 and 583-586: before [super().__getitem__(key)]; before [func(key)];
    before [self[key] = value]; before leaving the [with] block. *)
Inductive phase := PLook | PFind | PStore (v : value) | PRet (v : value).
Record state := St {
  cache : list (nat * value);
  holder : option (nat * nat * phase);      (* the thread that has the lock, the language it asks for *)
  next_id : nat;
  hist : list event
}.
Definition start : state := St [] None 0 [].

Fixpoint lookup (l : nat) (c : list (nat * value)) : option value :=
  match c with [] => None | (k, v) :: c => if k =? l then Some v else lookup l c end.

Section Cache.
(** util.py:796-820 [language_sister_class] without parents: the class that is found, see C134. *)
Variable sister : nat -> option nat.

(** transform.py:453-470 [find_transform]: every call makes a new instance. *)
Definition find_transform (l id : nat) : value := match sister l with Some c => Some (Made c id) | None => None end.

Inductive step :=
| SEnter (thread lang : nat)      (* a thread tries to get the lock for get_transform *)
| SRun                            (* the thread that has the lock goes on *)
| SAdd (lang : nat) (v : value).  (* some thread calls add_transform *)

(** transform.py:436-451 [get_transform] and [add_transform]; util.py:556-601. Storing in the dictionary (a plain [dict] operation) does not take
    the lock. A thread that tries to get the lock when another one has it waits: nothing happens. *)
Definition run (st : state) (s : step) : state :=
  match s, holder st with
  | SEnter t l, None => St (cache st) (Some (t, l, PLook)) (next_id st) (Called t l :: hist st)
  | SEnter _ _, Some _ => st
  | SAdd l v, h => St ((l, v) :: cache st) h (next_id st) (Added l v :: hist st)
  | SRun, None => st
  | SRun, Some (t, l, PLook) =>
      St (cache st) (Some (t, l, match lookup l (cache st) with Some v => PRet v | None => PFind end)) (next_id st) (hist st)
  | SRun, Some (t, l, PFind) => St (cache st) (Some (t, l, PStore (find_transform l (next_id st)))) (S (next_id st)) (hist st)
  | SRun, Some (t, l, PStore v) => St ((l, v) :: cache st) (Some (t, l, PRet v)) (next_id st) (hist st)
  | SRun, Some (t, l, PRet v) => St (cache st) None (next_id st) (Returned t l v :: hist st)
  end.
Definition runs (steps : list step) : state := fold_left run steps start.
End Cache.
