(** What may be shown while a tree is being built. *)
From Coq Require Import List Arith Bool.
From Verif Require Import PeekModel.
Import ListNotations.

(** The tokens of a tree, each with the lexicons of the contexts it is in, the innermost first. *)
Fixpoint paths (above : list nat) (n : node) : list (list nat * nat) :=
  match n with
  | Tk p => [(above, p)]
  | Cx l c => flat_map (paths (l :: above)) c
  end.
(** The tokens that events stand for: only the lexicons are kept. The outermost is never left. *)
Definition leave (ls : list nat) : list nat := match ls with _ :: l :: r => l :: r | _ => ls end.
Definition enter (e : event) (ls : list nat) : list nat := rev (e_push e) ++ Nat.iter (e_pop e) leave ls.
Fixpoint tokens_of (ls : list nat) (es : list event) : list (list nat * nat) :=
  match es with
  | [] => []
  | e :: es => map (fun p => (enter e ls, p)) (e_toks e) ++ tokens_of (enter e ls) es
  end.
(** No context is empty. *)
Inductive solid : node -> Prop :=
| solid_tk p : solid (Tk p)
| solid_cx l c : c <> [] -> Forall solid c -> solid (Cx l c).
(** An event that goes beyond what has to be shown. *)
Definition beyond (n : nat) (e : event) : Prop := n < last (e_toks e) 0.
