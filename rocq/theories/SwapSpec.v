(** Histories of a Worker whose Transformer is exchanged. *)
From Verif Require Import Base TargetModel LexerModel TreeModel TreeSpec BuildModel ChangesModel RebuildModel TransformModel TransformSpec TransformUpdateModel TransformUpdateSpec SwapModel.
Section Spec.
Variables L A R Lang Name Arg : Type.
Variable lang : L -> Lang.
Variable name : L -> Name.
Variable arg : L -> Arg.
Variable lang_is : Lang -> Lang -> bool.
Variable methods : nat -> Lang -> transform L A R Name Arg.
Variable l_eq : L -> L -> bool.
(** Histories with a set of transformers, with the transformers that have been used, and those of them that missed an update of the tree because
    another one was set, or none.  A transformer that missed an update is not set again. *)
Inductive xhistory : list nat -> list nat -> xstate L A R -> Prop :=
| xh_start l cs : distinct (Ctx l cs) -> xhistory [] [] (XState (Ctx l cs) None (fun _ => TCache (fun _ => None) None))
| xh_set used missed s t s' : xhistory used missed s -> (forall x, t = Some x -> ~ In x missed) ->
    x_set L A R Lang Name Arg lang name arg lang_is methods s t = Some s' ->
    xhistory (match t with Some x => x :: used | None => used end) missed s'
| xh_update used missed s r s' : xhistory used missed s -> wf_children (children (x_tree s)) -> at_tokens (x_tree s) r ->
    (forall t, fresh (UState (x_tree s) (x_caches s t)) r) ->
    x_update L A R Lang Name Arg lang name arg lang_is methods l_eq s r = Some s' ->
    xhistory used (filter (fun x => negb (same_transformer (Some x) (x_cur s))) used ++ missed) s'.
End Spec.
Arguments xhistory {L A R Lang Name Arg}.
(** No transformer is taken away. *)
Definition keeps_one (l : qlab) : Prop := l <> LSet None.
