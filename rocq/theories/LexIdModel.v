(** Getting lexicons and derived lexicons (parce/lexicon.py), and building their parse functions. *)
From Verif Require Import Base.
From Coq Require Import Arith.

(** ** Lexicons as objects *)
Section LexId.
(** Arguments of derived lexicons; [aeq] is [==] (with equal hashes), as for keys of a dictionary.  Descriptors and languages are compared by identity. *)
Variable A : Type.
Variable aeq : A -> A -> bool.
(** lexicon.py:121-146 [Lexicon.__init__]: what the lexicon was made with. *)
Record lexi := Lexi { x_desc : nat; x_lang : nat; x_arg : option A }.
(** The objects that were made, a lexicon is its number; [_lexicons] of all descriptors (98), and the cache of [_derive] (191-194), a dictionary for each
    lexicon.  The caches are thread-safe (C68), so a call is one step.  Nothing is removed: the caches hold on to what is in them. *)
Record heap := Heap { h_objs : list lexi; h_got : list (nat * nat * nat); h_derived : list (nat * A * nat) }.
Definition h_empty : heap := Heap [] [] [].
Definition assoc {K V} (eqb : K -> K -> bool) (k : K) (l : list (K * V)) : option V := option_map snd (find (fun p => eqb (fst p) k) l).
Definition eq2 (a b : nat * nat) : bool := (fst a =? fst b) && (snd a =? snd b).
Definition eqd (a b : nat * A) : bool := (fst a =? fst b) && aeq (snd a) (snd b).
(** lexicon.py:101-103 [LexiconDescriptor.__get__] *)
Definition get (h : heap) (d l : nat) : heap * nat :=
  match assoc eq2 (d, l) (h_got h) with
  | Some x => (h, x)
  | None => let x := length (h_objs h) in (Heap (h_objs h ++ [Lexi d l None]) ((d, l, x) :: h_got h) (h_derived h), x)
  end.
(** 191-194 [Lexicon._derive] *)
Definition derive (h : heap) (x : nat) (o : lexi) (a : A) : heap * nat :=
  match assoc eqd (x, a) (h_derived h) with
  | Some y => (h, y)
  | None => let y := length (h_objs h) in (Heap (h_objs h ++ [Lexi (x_desc o) (x_lang o) (Some a)]) (h_got h) ((x, a, y) :: h_derived h), y)
  end.
(** 157-189 [Lexicon.__call__]; [None]: there is no such object. *)
Definition call (h : heap) (x : nat) (arg : option A) : option (heap * nat) :=
  match nth_error (h_objs h) x with
  | None => None
  | Some o =>
      match arg, x_arg o with
      | None, _ => Some (h, x)
      | Some a, Some _ =>
          let (h1, v) := get h (x_desc o) (x_lang o) in
          match nth_error (h_objs h1) v with Some ov => Some (derive h1 v ov a) | None => None end
      | Some a, None => Some (derive h x o a)
      end
  end.
(** 196-206 [__eq__], [__ne__] *)
Definition lex_eq (o1 o2 : lexi) : bool := (x_desc o1 =? x_desc o2) && (x_lang o1 =? x_lang o2).
Definition lex_ne (o1 o2 : lexi) : bool := negb (x_desc o1 =? x_desc o2) || negb (x_lang o1 =? x_lang o2).

(** A history: getting lexicons from classes, and calling the result of an earlier step. *)
Inductive lop := LGet (d l : nat) | LCall (step : nat) (arg : option A).
Definition do_op (h : heap) (res : list nat) (op : lop) : option (heap * nat) :=
  match op with
  | LGet d l => Some (get h d l)
  | LCall k arg => match nth_error res k with Some x => call h x arg | None => None end
  end.
Fixpoint history (h : heap) (res : list nat) (ops : list lop) : option (heap * list nat) :=
  match ops with
  | [] => Some (h, res)
  | op :: ops => match do_op h res op with Some (h', x) => history h' (res ++ [x]) ops | None => None end
  end.
End LexId.
Arguments Lexi {A}. Arguments x_desc {A}. Arguments x_lang {A}. Arguments x_arg {A}. Arguments Heap {A}. Arguments h_objs {A}. Arguments h_got {A}. Arguments h_derived {A}.
Arguments LGet {A}. Arguments LCall {A}. Arguments lex_eq {A}. Arguments lex_ne {A}. Arguments h_empty {A}.

(** ** lexicon.py:246-258 [Lexicon.__getattr__], with threads that want [parse] *)
(** Where a thread is: looking for the attribute in the normal way; in [__getattr__], waiting for the lock; with the lock, before it looks again; before building;
    after the attribute was set; after the lock was released, before the last lookup; done. *)
Inductive ppc := PLook | PWait | PIn | PBuild | PSet | PLast | PDone (r : option nat).
Record pst := Pst { p_parse : option nat; p_lock : option nat; p_builds : nat; p_threads : list ppc }.
Definition p_init (n : nat) : pst := Pst None None 0 (repeat PLook n).
Fixpoint upd {X} (l : list X) (i : nat) (x : X) : list X := match l, i with [], _ => [] | _ :: l, 0 => x :: l | y :: l, S i => y :: upd l i x end.
(** A step of thread [i]; [ok]: building the parse function works; if not, the exception goes on and the lock is released.
    A result is the number of the function, [None] is an exception. [None] as a whole: the thread has to wait, or is done. *)
Definition p_step (ok : bool) (i : nat) (s : pst) : option pst :=
  let go pc := Some (Pst (p_parse s) (p_lock s) (p_builds s) (upd (p_threads s) i pc)) in
  match nth_error (p_threads s) i with
  | None => None
  | Some PLook => match p_parse s with Some f => go (PDone (Some f)) | None => go PWait end
  | Some PWait => match p_lock s with None => Some (Pst (p_parse s) (Some i) (p_builds s) (upd (p_threads s) i PIn)) | Some _ => None end
  | Some PIn =>
      match p_parse s with
      | Some f => Some (Pst (p_parse s) None (p_builds s) (upd (p_threads s) i (PDone (Some f))))
      | None => go PBuild
      end
  | Some PBuild =>
      if ok then Some (Pst (Some (p_builds s)) (p_lock s) (S (p_builds s)) (upd (p_threads s) i PSet))
      else Some (Pst (p_parse s) None (p_builds s) (upd (p_threads s) i (PDone None)))
  | Some PSet => Some (Pst (p_parse s) None (p_builds s) (upd (p_threads s) i PLast))
  | Some PLast => go (PDone (p_parse s))
  | Some (PDone _) => None
  end.
(** A run: which thread goes on, and whether building would work then. *)
Inductive p_run : pst -> list (nat * bool) -> pst -> Prop :=
| PRNil s : p_run s [] s
| PRCons s i ok s1 l s2 : p_step ok i s = Some s1 -> p_run s1 l s2 -> p_run s ((i, ok) :: l) s2.
