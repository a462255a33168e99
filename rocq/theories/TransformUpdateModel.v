(** Model of an update of the tree by a tree builder that a Transformer is connected to: the "invalidate" event of
    [TreeBuilder.replace_tree] and the handler [Transformer.invalidate_node].  Contexts have an identity, see TransformModel.v. *)
From Verif Require Import Base TargetModel LexerModel TreeModel BuildModel ChangesModel RebuildModel TransformModel.
From Coq Require Import ZArith.

Section Update.
Variables L A R Lang Name Arg : Type.
Variable lang : L -> Lang.
Variable name : L -> Name.
Variable arg : L -> Arg.
Variable lang_is : Lang -> Lang -> bool.
Variable get_transform : Lang -> transform L A R Name Arg.
Variable l_eq : L -> L -> bool.         (* [==] on lexicons *)
Notation inode := (node (nat * L) A).

(** [RebuildModel.replace_tree] for contexts with an identity.  Contexts of the old tree that stay keep theirs.  If the root lexicon
    changes the root stays the same context in the code; here it gets the identity of the root of the new tree, which makes no difference
    because the results below the root are never looked up for the root. *)
Definition replace_itree (root : inode) (r : bresult (nat * L) A) : option inode :=
  replace_tree (fun a b => l_eq (snd a) (snd b)) root r.

(** parce/treebuilder.py:374-474 [replace_tree]: the path of the context that [invalidate_context] is called with (lines 391, 460, 463).
    That is the context [c] after the loop over [start_trail[:-1]]. *)
Definition invalid_path (root : inode) (r : bresult (nat * L) A) : option (list nat) :=
  match root, r_tree r with
  | Ctx l0 cs, Ctx l t =>
      if negb (l_eq (snd l) (snd l0)) then Some []
      else
        match (if r_start r =? 0 then Some [] else trail_of (find_token_left_with_trail cs (r_start r))),
              (match r_lexicons r with None => trail_of (find_token_with_trail cs (r_end r)) | Some _ => Some [] end) with
        | Some st, Some et => let '(path, _, i) := rt_common 0 0 [] t st et in Some (path ++ removelast (skipn i st))
        | _, _ => None
        end
  | _, _ => None
  end.

(** The identities of the contexts at a path below the root, outermost first. *)
Fixpoint chain_ids (n : inode) (p : list nat) : list nat :=
  match p with
  | [] => []
  | i :: p => match nth_error (children n) i with
              | Some (Ctx (id, l) cs) => id :: chain_ids (Ctx (id, l) cs) p
              | _ => []
              end
  end.

(** parce/transform.py:392-401 [invalidate_node], called with the context at [p] in the tree. *)
Definition invalidate_node (ca : cache R) (tree : inode) (p : list nat) : option (cache R) := invalidate ca (rev (chain_ids tree p)).

(** The tree and the transformer. *)
Record ustate := UState { u_tree : inode; u_cache : tcache R }.

(** An update of the tree.  None: an exception is raised. *)
Definition u_update (s : ustate) (r : bresult (nat * L) A) : option ustate :=
  match replace_itree (u_tree s) r, invalid_path (u_tree s) r with
  | Some tree, Some p => match invalidate_node (tc_nodes (u_cache s)) tree p with
                         | Some ca => Some (UState tree (TCache ca (tc_result (u_cache s))))
                         | None => None
                         end
  | _, _ => None
  end.

(** Running the transformer, see [TransformModel.t_process]. *)
Definition u_transform (s : ustate) (intr : option nat) (done : bool) : option ustate :=
  option_map (UState (u_tree s))
    (t_process L A R Lang Name Arg lang name arg lang_is get_transform (u_cache s) (u_tree s) intr done).

End Update.
Arguments replace_itree {L A}. Arguments invalid_path {L A}. Arguments chain_ids {L A}. Arguments invalidate_node {L A R}.
Arguments UState {L A R}. Arguments u_tree {L A R}. Arguments u_cache {L A R}. Arguments u_update {L A R}.
