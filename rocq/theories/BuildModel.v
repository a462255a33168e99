(** Model of [build_tree] in parce/treebuilder.py. *)
From Verif Require Import Base TargetModel LexerModel TreeModel.

Section Build.
Variables L A : Type.

(** [context.extend(nodes)] where [context] is the node reached from [n] by going [d] times to the
    last child.  While a tree is built the variable [context] always points to such a node: a new
    context is appended to its parent when it is created (treebuilder.py:67-68, 310-311). *)
Fixpoint spine_app (d : nat) (n : node L A) (ns : list (node L A)) : node L A :=
  match n with
  | Tok t => Tok t
  | Ctx l cs =>
      match d with
      | 0 => Ctx l (cs ++ ns)
      | S d => match last_opt cs with
               | None => Ctx l cs
               | Some c => Ctx l (removelast cs ++ [spine_app d c ns])
               end
      end
  end.

(** The tree and the depth of [context] below its root. *)
Record bstate := BState { b_root : node L A; b_depth : nat }.

(** parce/treebuilder.py:66-68 [for lexicon in target.push] *)
Definition b_push (s : bstate) (l : L) : bstate :=
  BState (spine_app (b_depth s) (b_root s) [Ctx l []]) (S (b_depth s)).

(** parce/treebuilder.py:63-69, one event.  None: [context.parent] is None and the next use of
    [context] raises AttributeError. *)
Definition b_event (s : bstate) (e : event L A) : option bstate :=
  match (match e_target e with
         | None => Some s
         | Some t => if t_pop t <=? b_depth s
                     then Some (fold_left b_push (t_push t) (BState (b_root s) (b_depth s - t_pop t)))
                     else None
         end) with
  | None => None
  | Some s => Some (BState (spine_app (b_depth s) (b_root s) (map Tok (make_tokens (e_lexemes e)))) (b_depth s))
  end.

Fixpoint b_events (s : bstate) (evs : list (event L A)) : option bstate :=
  match evs with
  | [] => Some s
  | e :: evs => match b_event s e with None => None | Some s => b_events s evs end
  end.

(** parce/treebuilder.py:56-70 [build_tree], given the events of the lexer.  Without a root lexicon
    the result is an empty context, which is not modelled. *)
Definition build_tree (root_lexicon : L) (evs : list (event L A)) : option (node L A) :=
  option_map b_root (b_events (BState (Ctx root_lexicon []) 0) evs).

End Build.
Arguments spine_app {L A}. Arguments BState {L A}. Arguments b_root {L A}. Arguments b_depth {L A}.
Arguments b_push {L A}. Arguments b_event {L A}. Arguments b_events {L A}. Arguments build_tree {L A}.
