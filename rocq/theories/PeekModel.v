(** Model of the tree that is shown to [TreeBuilder.peek] while the new tree is being built: treebuilder.py:280-371, for a
    build without restarts and before the old tail is found; and treebuilderutil.py:258-266. *)
From Coq Require Import List Arith Bool.
Import ListNotations.

(** Tokens (with their position) and contexts (with their lexicon). *)
Inductive node := Tk (pos : nat) | Cx (lex : nat) (children : list node).

(** The open contexts, the innermost first, with their children that are not open. In the code an open context is already
    a child of its parent; [tree_of] puts them there. *)
Definition stack := list (nat * list node).
Definition close (s : stack) : stack :=
  match s with (l1, c1) :: (l2, c2) :: r => (l2, c2 ++ [Cx l1 c1]) :: r | _ => s end.
Fixpoint closes (n : nat) (s : stack) : stack := match n with 0 => s | S n => closes n (close s) end.
Fixpoint pushes (ls : list nat) (s : stack) : stack := match ls with [] => s | l :: ls => pushes ls ((l, []) :: s) end.
Definition extend (toks : list nat) (s : stack) : stack :=
  match s with (l, c) :: r => (l, c ++ map Tk toks) :: r | [] => [] end.
Fixpoint tree_from (l : nat) (c : list node) (r : stack) : node :=
  match r with [] => Cx l c | (l2, c2) :: r => tree_from l2 (c2 ++ [Cx l c]) r end.
Definition tree_of (s : stack) : option node := match s with [] => None | (l, c) :: r => Some (tree_from l c r) end.

(** treebuilderutil.py:258-266 [new_tree]: empty contexts; the lexicon of the innermost first. *)
Definition new_tree (lexs : list nat) : stack := map (fun l => (l, [])) lexs.

(** treebuilder.py:359-366: descend along the first children while these are contexts, then remove the empty ones upwards. [None]:
    everything would be removed (at the root an exception: it has no parent). *)
Fixpoint prune (n : node) : option node :=
  match n with
  | Tk _ => Some n
  | Cx l [] => None
  | Cx l (x :: xs) =>
      match prune x with
      | Some x' => Some (Cx l (x' :: xs))
      | None => match xs with [] => None | _ => Some (Cx l xs) end
      end
  end.

(** An event of the lexer: the target (how many contexts to leave, and which to enter) and the positions of the tokens. *)
Record event := Ev { e_pop : nat; e_push : list nat; e_toks : list nat }.
(** treebuilder.py:305-312 and 326 *)
Definition do_event (e : event) (s : stack) : stack := extend (e_toks e) (pushes (e_push e) (closes (e_pop e) s)).

(** treebuilder.py:303 and 357-368: [peek] is 0 if there is nothing to be shown. What is shown: [lowest_start] and the tree ([None]: an exception). *)
Fixpoint build (start peek : nat) (s : stack) (es : list event) : list (nat * option node) :=
  match es with
  | [] => []
  | e :: es =>
      let s := do_event e s in
      if negb (peek =? 0) && (peek <? last (e_toks e) 0) then
        (start, match tree_of s with Some t => prune t | None => None end) :: build start 0 s es
      else build start peek s es
  end.
Definition build_peek (threshold start : nat) (lexs : list nat) (es : list event) : list (nat * option node) :=
  build start (if threshold =? 0 then 0 else threshold + start) (new_tree lexs) es.
