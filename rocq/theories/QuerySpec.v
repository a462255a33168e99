(** What queries are expected to yield. A node is its path in the tree. *)
From Verif Require Import Base LexerModel TreeModel TreeSpec.

(** A node is at or below another one: its path is longer. *)
Definition prefix (a p : list nat) : Prop := exists r, p = a ++ r.
Definition below (a p : list nat) : Prop := exists i r, p = a ++ i :: r.

(** Document order: a context comes before all that is below it, and siblings (with all that is below them) are in order. *)
Definition before (p q : list nat) : Prop :=
  below p q \/ exists c i j r s, p = c ++ i :: r /\ q = c ++ j :: s /\ i < j.

(** A selector [q], that can be inverted, divides the nodes of a kind in two: those it selects and those that it selects when
    inverted; in both cases the order is that of the nodes given. *)
Definition inverted (kind : list nat -> Prop) (q : bool -> list (list nat) -> list (list nat)) : Prop :=
  exists yes no, (forall ns, q false ns = filter yes ns) /\ (forall ns, q true ns = filter no ns) /\
    forall n, (yes n = true \/ no n = true <-> kind n) /\ ~ (yes n = true /\ no n = true).

Section Spec.
Variables L A : Type.
Notation node := (node L A).
Variable root : node.

(** The path leads to a node. *)
Definition valid (p : list nat) : Prop := node_at root p <> None.

(** The node and all below it, in document order. *)
Definition document_order (p : list nat) (l : list (list nat)) : Prop :=
  StronglySorted before l /\ forall q, In q l <-> prefix p q /\ valid q.

(** * Deleting *)

Fixpoint prefixb (a p : list nat) : bool :=
  match a, p with
  | [], _ => true
  | i :: a, j :: p => (i =? j) && prefixb a p
  | _ :: _, [] => false
  end.

Variable sel : list (list nat).

(** The node is selected, or something above it. *)
Definition covered (p : list nat) : bool := existsb (fun s => prefixb s p) sel.

(** What is left of a node [n] at [p]: nothing if it is selected, or if it is a context and nothing is left of its children. *)
Fixpoint pruned (p : list nat) (n : node) : option node :=
  if covered p then None else
  match n with
  | Tok t => Some (Tok t)
  | Ctx l cs =>
      match (fix go (i : nat) (cs : list node) : list node :=
               match cs with
               | [] => []
               | c :: cs => match pruned (p ++ [i]) c with Some c => c :: go (S i) cs | None => go (S i) cs end
               end) 0 cs, cs with
      | [], _ :: _ => None
      | cs', _ => Some (Ctx l cs')
      end
  end.
(** The same for a list of children of [p], the first of which has index [i]. *)
Fixpoint pruned_list (p : list nat) (i : nat) (cs : list node) : list node :=
  match cs with
  | [] => []
  | c :: cs => match pruned (p ++ [i]) c with Some c => c :: pruned_list p (S i) cs | None => pruned_list p (S i) cs end
  end.
(** The root itself always stays. *)
Definition deleted_tree (n : node) : node :=
  match n with Tok t => Tok t | Ctx l cs => Ctx l (pruned_list [] 0 cs) end.

(** The number of nodes that are removed from their parents: those below them do not count. *)
Fixpoint removed (p : list nat) (n : node) : nat :=
  match pruned p n with
  | None => 1
  | Some _ =>
      match n with
      | Tok _ => 0
      | Ctx _ cs => (fix go (i : nat) (cs : list node) : nat :=
                       match cs with [] => 0 | c :: cs => removed (p ++ [i]) c + go (S i) cs end) 0 cs
      end
  end.
Fixpoint removed_list (p : list nat) (i : nat) (cs : list node) : nat :=
  match cs with [] => 0 | c :: cs => removed (p ++ [i]) c + removed_list p (S i) cs end.

(** All tokens with their paths. *)
Fixpoint tokens_at (p : list nat) (n : node) : list (list nat * tok A) :=
  match n with
  | Tok t => [(p, t)]
  | Ctx _ cs => (fix go (i : nat) (cs : list node) := match cs with [] => [] | c :: cs => tokens_at (p ++ [i]) c ++ go (S i) cs end) 0 cs
  end.

End Spec.
Arguments valid {L A}. Arguments document_order {L A}. Arguments pruned {L A}. Arguments pruned_list {L A}. Arguments deleted_tree {L A}.
Arguments removed {L A}. Arguments removed_list {L A}. Arguments tokens_at {L A}.
