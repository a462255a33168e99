(** What locks and caches should do. *)
From Verif Require Import Base LockModel.
From Coq Require Import ZArith.

(** The thread is inside the context. *)
Definition inside_context (pc : lpc) : Prop := match pc with InRaw _ | InCln _ => True | _ => False end.
Definition exclusive (s : lstate) : Prop := forall t u, inside_context (l_pc s t) -> inside_context (l_pc s u) -> t = u.

(** The thread waits for a lock or holds it. *)
Definition uses (pc : lpc) : Prop := match pc with WaitRaw _ | WaitCln _ | InRaw _ | InCln _ => True | _ => False end.
(** An execution in which every lock is made when no thread uses an earlier one. *)
Inductive l_run_fresh : lstate -> list nat -> lstate -> Prop :=
| fresh_nil s : l_run_fresh s [] s
| fresh_cons s t s1 ts s2 : l_step s t = Some s1 -> (l_pc s t = Idle -> l_entry s = None -> forall u, ~ uses (l_pc s u)) ->
    l_run_fresh s1 ts s2 -> l_run_fresh s (t :: ts) s2.

(** The thread runs the factory function. *)
Definition calling (pc : cpc) : Prop := match pc with CCall _ => True | _ => False end.

(** All states of the file in a history. *)
Fixpoint files (f : file) (ops : list fop) : list file :=
  f :: match ops with
       | [] => []
       | Write g :: ops => files g ops
       | Get mid :: ops => mid ++ files (last mid f) ops
       end.
(** Times do not go back, and when the file has the same time at two moments, it has not changed in between. *)
Definition times_ok (l : list file) : Prop :=
  forall i j fi fj a b, i <= j -> nth_error l i = Some fi -> nth_error l j = Some fj -> f_mtime fi = Some a -> f_mtime fj = Some b ->
  (a <= b)%Z /\ (a = b -> forall k fk, i <= k <= j -> nth_error l k = Some fk -> fk = fi).
