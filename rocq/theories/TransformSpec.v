(** What transforming should give. *)
From Verif Require Import Base LexerModel TreeModel TransformModel.

Section Spec.
Variables L A R Lang Name Arg : Type.
Variable lang : L -> Lang.
Variable name : L -> Name.
Variable arg : L -> Arg.
Variable get_transform : Lang -> transform L A R Name Arg.

(** The method for a lexicon: the method with the name of the lexicon, of the Transform for its language. *)
Definition method_of (l : L) : option (method L A R Name Arg) := get_transform (lang l) (name l).

(** What a node adds to the items of its parent: a token itself; a context that has a method the result of it, for what its children add; a
    context without method itself if the method of the parent asks for that ([add]), and otherwise nothing. *)
Fixpoint items_of (add : bool) (n : node L A) : list (titem L A R Name) :=
  match n with
  | Tok t => [IToken t]
  | Ctx l cs =>
      match method_of l with
      | Some m => [IObj (name l) (m_call m (ItemList (arg l) (concat (map (items_of (m_untransformed m)) cs))))]
      | None => if add then [IUntransformed (Ctx l cs)] else []
      end
  end.

(** The result for a tree: None if there is no method for the root. *)
Definition meaning (n : node L A) : option R :=
  match n with
  | Tok _ => None
  | Ctx l cs => option_map (fun m => m_call m (ItemList (arg l) (concat (map (items_of (m_untransformed m)) cs)))) (method_of l)
  end.

(** No method that asks for untransformed contexts gets one. *)
Fixpoint none_untransformed (add : bool) (n : node L A) : Prop :=
  match n with
  | Tok _ => True
  | Ctx l cs =>
      match method_of l with
      | Some m => (fix all cs := match cs with [] => True | c :: cs => none_untransformed (m_untransformed m) c /\ all cs end) cs
      | None => add = false
      end
  end.

End Spec.
Arguments method_of {L A R Lang Name Arg}. Arguments items_of {L A R Lang Name Arg}. Arguments meaning {L A R Lang Name Arg}.
Arguments none_untransformed {L A R Lang Name Arg}.

(** ** Trees of contexts with an identity *)

Section Identity.
Variables L A : Type.
Notation inode := (node (nat * L) A).

(** No context is in the tree at two places. *)
Definition distinct (tree : inode) : Prop :=
  forall p q id l cs l' cs', node_at tree p = Some (Ctx (id, l) cs) -> node_at tree q = Some (Ctx (id, l') cs') -> p = q.

(** A node without the positions of the tokens. *)
Definition unplace_tok (t : tok A) : tok A := Token 0 (k_text t) (k_act t) (k_group t).
Fixpoint unplace {M} (n : node M A) : node M A :=
  match n with
  | Tok t => Tok (unplace_tok t)
  | Ctx l cs => Ctx l (map unplace cs)
  end.
End Identity.
Arguments distinct {L A}. Arguments unplace_tok {A}. Arguments unplace {A M}.

Section Methods.
Variables L A R Lang Name Arg : Type.
Variable lang : L -> Lang.
Variable name : L -> Name.
Variable arg : L -> Arg.
Variable get_transform : Lang -> transform L A R Name Arg.

(** Items without the positions of the tokens in them. *)
Definition unplace_item (i : titem L A R Name) : titem L A R Name :=
  match i with
  | IToken t => IToken (unplace_tok t)
  | IObj nm obj => IObj nm obj
  | IUntransformed c => IUntransformed (unplace c)
  end.

(** No method looks at the positions of tokens. *)
Definition position_blind : Prop :=
  forall l m a items items', method_of lang name get_transform l = Some m -> map unplace_item items = map unplace_item items' ->
    m_call m (ItemList a items) = m_call m (ItemList a items').

(** Every result in the cache, for a context of the tree below the root, is the result for that context. *)
Definition cache_right (ca : cache R) (tree : node (nat * L) A) : Prop :=
  forall p id l cs v, p <> [] -> node_at tree p = Some (Ctx (id, l) cs) -> ca id = Some v ->
    meaning lang name arg get_transform (erase (Ctx (id, l) cs)) = Some v.

End Methods.
Arguments unplace_item {L A R Name}. Arguments position_blind {L A R Lang Name Arg}. Arguments cache_right {L A R Lang Name Arg}.
