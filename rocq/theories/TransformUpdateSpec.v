(** Histories of a tree and a transformer. *)
From Verif Require Import Base TargetModel LexerModel TreeModel TreeSpec BuildModel ChangesModel RebuildModel TransformModel TransformSpec TransformUpdateModel.
From Coq Require Import ZArith.

Section Spec.
Variables L A R Lang Name Arg : Type.
Variable lang : L -> Lang.
Variable name : L -> Name.
Variable arg : L -> Arg.
Variable lang_is : Lang -> Lang -> bool.
Variable get_transform : Lang -> transform L A R Name Arg.
Variable l_eq : L -> L -> bool.
Notation inode := (node (nat * L) A).

(** The tree has a context with this identity. *)
Definition has_id (id : nat) (n : inode) : Prop := exists p l cs, node_at n p = Some (Ctx (id, l) cs).

(** The contexts of a newly built tree are new objects: they are not in the old tree, and there are no results for them. *)
Definition fresh (s : ustate L A R) (r : bresult (nat * L) A) : Prop :=
  distinct (r_tree r) /\ forall id, has_id id (r_tree r) -> ~ has_id id (u_tree s) /\ tc_nodes (u_cache s) id = None.

(** The region that is replaced starts after a token or at the start of the text, and ends before a token after that or at the end. *)
Definition at_tokens (tree : inode) (r : bresult (nat * L) A) : Prop :=
  (r_start r = 0 \/ exists p t, node_at tree p = Some (Tok t) /\ r_start r = k_end t)
  /\ (r_lexicons r <> None \/ exists p t, node_at tree p = Some (Tok t) /\ r_end r = k_pos t /\ r_start r <= r_end r).

(** Every sequence of updates of the tree, and of runs of the transformer, which may be interrupted at any time. *)
Inductive history : ustate L A R -> Prop :=
| h_start l cs : distinct (Ctx l cs) -> history (UState (Ctx l cs) (TCache (fun _ => None) None))
| h_update s r s' : history s -> wf_children (children (u_tree s)) -> at_tokens (u_tree s) r -> fresh s r ->
    u_update l_eq s r = Some s' -> history s'
| h_transform s intr done s' : history s ->
    u_transform L A R Lang Name Arg lang name arg lang_is get_transform s intr done = Some s' -> history s'.

End Spec.
Arguments has_id {L A}. Arguments fresh {L A R}. Arguments at_tokens {L A}. Arguments history {L A R Lang Name Arg}.
