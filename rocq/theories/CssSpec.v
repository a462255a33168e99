(** What a selector means, and which declaration wins, said without the code's loops. *)
From Verif Require Import Base CssModel.

(** ** Strings *)
(** [w] is one of the words of [s]: a longest piece without white space. *)
Definition word_of (space : nat -> bool) (w s : str) : Prop :=
  exists a b, s = a ++ w ++ b /\ w <> [] /\ (forall c, In c w -> space c = false) /\
    (a = [] \/ exists a' c, a = a' ++ [c] /\ space c = true) /\
    (b = [] \/ exists c b', b = c :: b' /\ space c = true).
(** [(k, v)] is the entry of [k]: the keys of a dictionary differ. *)
Definition has_attr (e : elem) (k v : str) : Prop := In (k, v) (e_attrs e).

(** ** Simple selectors *)
Section Spec.
Variable space : nat -> bool.
Variable lower : str -> str.
Variable root : elem.

(** [q] is the [i]th child of the element at [p]. *)
Definition child_of (q p : epath) : Prop := exists i, q = p ++ [i].
(** [q] is a proper ancestor of [p]. *)
Definition ancestor_of (q p : epath) : Prop := exists r, r <> [] /\ p = q ++ r.
(** [q] and [p] have the same parent and [q] comes [d] places before [p]. *)
Definition before_by (d : nat) (q p : epath) : Prop := exists r i, q = r ++ [i] /\ p = r ++ [i + d].
Definition present (p : epath) : Prop := exists e, elem_at root p = Some e.
Definition sibling_before (q p : epath) : Prop := exists d, 0 < d /\ before_by d q p.
Definition same_type (q p : epath) : Prop :=
  exists e f, elem_at root q = Some e /\ elem_at root p = Some f /\ e_name e = e_name f.

Definition pseudo_holds (e : elem) (p : epath) (c : str) : Prop :=
  (c = n_first_child -> forall q, present q -> ~ sibling_before q p) /\
  (c = n_last_child -> forall q, present q -> ~ sibling_before p q) /\
  (c = n_only_child -> forall q, present q -> ~ sibling_before q p /\ ~ sibling_before p q) /\
  (c = n_first_of_type -> forall q, same_type q p -> ~ sibling_before q p) /\
  (c = n_last_of_type -> forall q, same_type q p -> ~ sibling_before p q) /\
  (c = n_empty -> e_children e = []) /\
  (~ In c [n_first_child; n_last_child; n_only_child; n_first_of_type; n_last_of_type; n_empty] ->
   In c (e_pclasses e)).

(** What the operator of an attribute selector says of the text and the value. *)
Definition attr_rel (operator text value : str) : Prop :=
  (operator = op_eq -> value = text) /\
  (operator = op_word -> word_of space text value) /\
  (operator = op_dash -> value = text \/ exists r, value = text ++ 45 :: r) /\
  (operator = op_pre -> exists r, value = text ++ r) /\
  (operator = op_suf -> exists r, value = r ++ text) /\
  (operator = op_sub -> exists a b, value = a ++ text ++ b).
Definition ignore_case (x : attrsel) : Prop := as_flag x = Some [105] \/ as_flag x = Some [73].
Definition attr_holds (e : elem) (x : attrsel) : Prop :=
  exists v, has_attr e (as_name x) v /\
    forall o t, as_op x = Some o -> as_text x = Some t ->
      (ignore_case x -> attr_rel o (lower t) (lower v)) /\
      (~ ignore_case x -> attr_rel o t v).

Definition compound_holds (p : epath) (s : selector) : Prop :=
  exists e, elem_at root p = Some e /\
    (forall c, In c (s_class s) -> exists v, has_attr e n_class v /\ word_of space c v) /\
    (forall n, In n (s_element s) -> e_name e = n) /\
    (forall i, In i (s_id s) -> has_attr e n_id i) /\
    (forall x, In x (s_attr s) -> attr_holds e x) /\
    (forall c, In c (s_pclass s) -> pseudo_holds e p c) /\
    (forall c, In c (s_pelement s) -> In c (e_pelements e)).

(** ** Complex selectors *)
(** The four combinators: [comb o q p] when what is before the operator may match [q] if what is after it matches [p]. *)
Definition comb (o : str) (q p : epath) : Prop :=
  (o = op_child /\ child_of p q) \/
  (o = op_desc /\ ancestor_of q p) \/
  (o = op_next /\ before_by 1 q p) \/
  (o = op_subs /\ sibling_before q p).
Definition combinator (o : str) : Prop := In o [op_child; op_desc; op_next; op_subs].

(** A selector list "s0 o1 s1 ... on sn" matches an element when there are elements for all its selectors, related by
    the operators. *)
Inductive matches : list item -> epath -> Prop :=
  | m_one s p : compound_holds p s -> matches [Sel s] p
  | m_comb l o s q p : matches l q -> comb o q p -> compound_holds p s -> matches (l ++ [Op o; Sel s]) p.
End Spec.

(** Selectors with operators in between, beginning and ending with a selector. *)
Inductive alternating : list item -> Prop :=
  | alt_one s : alternating [Sel s]
  | alt_more l o s : alternating l -> alternating (l ++ [Op o; Sel s]).

(** The operators of a list, from left to right. *)
Definition ops_of (l : list item) : list str :=
  flat_map (fun i => match i with Op o => [o] | Sel _ => [] end) l.
(** No ">", "+" or "~" directly left of a " ", and no "+" directly left of a "~". *)
Definition greedy_pair (left right : str) : Prop :=
  (right = op_desc -> left = op_desc) /\ (right = op_subs -> left <> op_next).
Definition greedy_enough (l : list item) : Prop :=
  forall a o1 o2 b, ops_of l = a ++ o1 :: o2 :: b -> greedy_pair o1 o2.
(** Every selector says something, and no attribute is compared with the empty text. *)
Definition sels_of (l : list item) : list selector :=
  flat_map (fun i => match i with Sel s => [s] | Op _ => [] end) l.
Definition says_something (s : selector) : Prop :=
  (s_class s <> [] \/ s_element s <> [] \/ s_id s <> [] \/ s_attr s <> [] \/ s_pclass s <> [] \/ s_pelement s <> []) /\
  forall x, In x (s_attr s) -> as_text x <> Some [].

(** Dictionaries have each key once. *)
Inductive dict_tree : elem -> Prop :=
  | dt_elem n a c x l : NoDup (map fst a) -> Forall dict_tree l -> dict_tree (Elem n a c x l).

(** ** The cascade *)
Section Cascade.
Variable space : nat -> bool.
Variable lower : str -> str.
Variable V : Type.
Variable root : elem.
Variable p : epath.

(** Counting ids; classes, attributes and pseudo classes; elements and pseudo elements. *)
Definition spec_counts (l : list item) : nat * nat * nat :=
  (length (flat_map s_id (sels_of l)),
   length (flat_map s_class (sels_of l)) + length (flat_map s_attr (sels_of l)) + length (flat_map s_pclass (sels_of l)),
   length (flat_map s_element (sels_of l)) + length (flat_map s_pelement (sels_of l))).
Definition lex_lt (a b : nat * nat * nat) : Prop :=
  let '(a1, a2, a3) := a in
  let '(b1, b2, b3) := b in
  a1 < b1 \/ (a1 = b1 /\ (a2 < b2 \/ (a2 = b2 /\ a3 < b3))).

(** A declaration of a property that is in force for the element: the place of its rule in the sheet, the specificity
    of the selector list that matches, whether it is important, and the value without the mark. *)
Record decl := mkdecl { d_place : nat; d_spec : nat * nat * nat; d_imp : bool; d_value : list (pval V) }.
Definition marked (v : list (pval V)) (imp : bool) (w : list (pval V)) : Prop :=
  (imp = true /\ v = w ++ [Important]) \/ (imp = false /\ v = w /\ forall a, w <> a ++ [Important]).
(** The specificity CSS gives a rule: the highest of the selector lists that match. *)
Definition css_spec (r : rule V) (s : nat * nat * nat) : Prop :=
  (exists l, In l (r_prelude r) /\ matches space lower root l p /\ spec_counts l = s) /\
  forall l, In l (r_prelude r) -> matches space lower root l p -> ~ lex_lt s (spec_counts l).
Definition in_force (rules : list (rule V)) (key : str) (d : decl) : Prop :=
  exists r v, nth_error rules (d_place d) = Some r /\ css_spec r (d_spec d) /\
    In (key, v) (r_props r) /\ marked v (d_imp d) (d_value d).
(** The most specific, then the last. *)
Definition outranks (d1 d2 : decl) : Prop :=
  lex_lt (d_spec d2) (d_spec d1) \/ (d_spec d1 = d_spec d2 /\ d_place d2 < d_place d1).
(** Important ones first. *)
Definition beats (d1 d2 : decl) : Prop :=
  (d_imp d2 = false /\ d_imp d1 = true) \/ (d_imp d1 = d_imp d2 /\ outranks d1 d2).
Definition winner (rules : list (rule V)) (key : str) (d : decl) : Prop :=
  in_force rules key d /\ forall d', in_force rules key d' -> d' = d \/ beats d d'.

(** The rules of a sheet in order, also those behind conditions. *)
Inductive listed : list (entry V) -> list (rule V) -> Prop :=
  | l_nil : listed [] []
  | l_rule r es rs : listed es rs -> listed (ERule r :: es) (r :: rs)
  | l_at k es rs : listed es rs -> listed (EAt k :: es) rs
  | l_cond k c ins es rs1 rs2 : listed ins rs1 -> listed es rs2 -> listed (ECond k c ins :: es) (rs1 ++ rs2).

End Cascade.
Arguments mkdecl {V}.
Arguments d_place {V}.
Arguments d_spec {V}.
Arguments d_imp {V}.
Arguments d_value {V}.
Arguments marked {V}.
Arguments css_spec space lower {V}.
Arguments in_force space lower {V}.
Arguments outranks {V}.
Arguments beats {V}.
Arguments winner space lower {V}.
Arguments listed {V}.

(** A selector list the code gets right, and rules whose selector lists are all equally specific. *)
Definition readable (l : list item) : Prop :=
  alternating l /\ (forall o, In o (ops_of l) -> combinator o) /\ (forall s, In s (sels_of l) -> says_something s) /\
  greedy_enough l.
Definition fair_rule {V} (r : rule V) : Prop :=
  r_prelude r <> [] /\ (forall l, In l (r_prelude r) -> readable l) /\
  (forall l l', In l (r_prelude r) -> In l' (r_prelude r) -> spec_counts l = spec_counts l') /\
  NoDup (map fst (r_props r)) /\ (forall k v, In (k, v) (r_props r) -> v <> []).

(** The specificity of a rule by itself: the highest of its selector lists. *)
Definition rule_spec {V} (r : rule V) (s : nat * nat * nat) : Prop :=
  (exists l, In l (r_prelude r) /\ spec_counts l = s) /\
  forall l, In l (r_prelude r) -> ~ lex_lt s (spec_counts l).
