(** Properties C50, C51 and C80: queries. A node is its path from the root; a query works on a list of nodes. *)
From Verif Require Import Base LexerModel TreeModel TreeSpec QueryModel QuerySpec QueryProofs QueryDeleteProofs.
From Coq Require Import ZArith.

(** * C50: navigation and selection *)

(** [all] yields, for every node, the node and all below it in document order; [alltokens] and [allcontexts] the tokens and the
    contexts of these. (No two lists have the same members and both are in document order.) *)
Theorem C50_all : forall (L A : Type) (root : node L A) ns, Forall (valid root) ns ->
  exists ls, Forall2 (document_order root) ns ls /\ q_all root ns = Some (concat ls) /\
    q_alltokens root ns = Some (filter (is_token root) (concat ls)) /\
    q_allcontexts root ns = Some (filter (is_context root) (concat ls)).
Proof. intros. now apply all_ok. Qed.
Print Assumptions C50_all.

(** [uniq] keeps the first of the nodes that are the same. *)
Theorem C50_uniq : q_uniq [] = [] /\ forall ns n,
  (In n ns -> q_uniq (ns ++ [n]) = q_uniq ns) /\ (~ In n ns -> q_uniq (ns ++ [n]) = q_uniq ns ++ [n]).
Proof. split; [reflexivity | exact uniq_snoc]. Qed.
Print Assumptions C50_uniq.

(** [remove_descendants] keeps the nodes that are not below another one of the list, [remove_ancestors] those above no other. *)
Theorem C50_remove : forall ns,
  (exists keep, q_remove_descendants ns = filter keep ns /\ forall n, keep n = true <-> ~ exists a, In a ns /\ below a n) /\
  (exists keep, q_remove_ancestors ns = filter keep ns /\
     forall n, In n ns -> (keep n = true <-> ~ exists d, In d ns /\ below n d)).
Proof. intros ns. split; [apply remove_descendants_ok | apply remove_ancestors_ok]. Qed.
Print Assumptions C50_remove.

(** What the selectors select. *)
Theorem C50_selected : forall (L A : Type) (root : node L A) l_eqb a_eqb (isin : A -> A -> bool) (ns : list (list nat)) n,
  (forall s, In n (q_startingwith root false s ns) <-> In n ns /\ exists t, node_at root n = Some (Tok t) /\ exists r, k_text t = s ++ r) /\
  (forall s, In n (q_endingwith root false s ns) <-> In n ns /\ exists t, node_at root n = Some (Tok t) /\ exists r, k_text t = r ++ s) /\
  (forall s, In n (q_containing root false s ns) <-> In n ns /\ exists t, node_at root n = Some (Tok t) /\ exists a b, k_text t = a ++ s ++ b) /\
  (forall search, In n (q_matching root false search ns) <-> In n ns /\ exists t, node_at root n = Some (Tok t) /\ search (k_text t) = true) /\
  (forall acts, (forall a b, a_eqb a b = true <-> a = b) ->
     (In n (q_action root a_eqb false acts ns) <-> In n ns /\ exists t, node_at root n = Some (Tok t) /\ In (k_act t) acts)) /\
  (forall acts, In n (q_in_action root false isin acts ns) <->
     In n ns /\ exists t, node_at root n = Some (Tok t) /\ exists a, In a acts /\ isin (k_act t) a = true) /\
  (forall texts lexs, (forall a b, l_eqb a b = true <-> a = b) ->
     (In n (q_call root l_eqb false texts lexs ns) <-> In n ns /\
        ((exists t, node_at root n = Some (Tok t) /\ In (k_text t) texts) \/ (exists l cs, node_at root n = Some (Ctx l cs) /\ In l lexs)))) /\
  (forall k, In n (q_len root false k None ns) <-> In n ns /\ exists l cs, node_at root n = Some (Ctx l cs) /\ length cs = k) /\
  (forall k m, In n (q_len root false k (Some m) ns) <-> In n ns /\ exists l cs, node_at root n = Some (Ctx l cs) /\ k <= length cs <= m) /\
  (In n (q_tokens root ns) <-> In n ns /\ exists t, node_at root n = Some (Tok t)) /\
  (In n (q_contexts root ns) <-> In n ns /\ exists l cs, node_at root n = Some (Ctx l cs)).
Proof. exact selected_ok. Qed.
Print Assumptions C50_selected.

(** After [is_not] exactly the others (of the kind of nodes that the selector is about) are selected. *)
Theorem C50_is_not_partial : forall (L A : Type) (root : node L A) l_eqb a_eqb isin,
  (forall s, inverted (fun n => exists t, node_at root n = Some (Tok t)) (fun inv => q_startingwith root inv s)) /\
  (forall s, inverted (fun n => exists t, node_at root n = Some (Tok t)) (fun inv => q_endingwith root inv s)) /\
  (forall s, inverted (fun n => exists t, node_at root n = Some (Tok t)) (fun inv => q_containing root inv s)) /\
  (forall search, inverted (fun n => exists t, node_at root n = Some (Tok t)) (fun inv => q_matching root inv search)) /\
  (forall acts, inverted (fun n => exists t, node_at root n = Some (Tok t)) (fun inv => q_action root a_eqb inv acts)) /\
  (forall acts, inverted (fun n => exists t, node_at root n = Some (Tok t)) (fun inv => q_in_action root inv isin acts)) /\
  (forall k m, inverted (fun n => exists l cs, node_at root n = Some (Ctx l cs)) (fun inv => q_len root inv k m)) /\
  (forall texts lexs, inverted (valid root) (fun inv => q_call root l_eqb inv texts lexs)).
Proof.
  intros. repeat split; intros; try apply sel_token_inverted; [apply sel_context_inverted | apply call_inverted].
Qed.
Print Assumptions C50_is_not_partial.

(** The tree of the examples: a token "a", a context with "bc" and a context with "d", and a token "e". *)
Definition qt (i : nat) (s : str) : tok nat := Token i s 7 None.
Definition ex_root : node nat nat := Ctx 0 [Tok (qt 0 [97]); Ctx 1 [Tok (qt 1 [98; 99]); Ctx 2 [Tok (qt 3 [100])]]; Tok (qt 4 [101])].

Example C50_example : Forall (valid ex_root) [[]; [1]] /\
  q_all ex_root [[]; [1]] = Some [[]; [0]; [1]; [1; 0]; [1; 1]; [1; 1; 0]; [2]; [1]; [1; 0]; [1; 1]; [1; 1; 0]] /\
  q_alltokens ex_root [[]] = Some [[0]; [1; 0]; [1; 1; 0]; [2]] /\ q_allcontexts ex_root [[]] = Some [[]; [1]; [1; 1]] /\
  q_uniq [[1]; [0]; [1]; [2]; [0]] = [[1]; [0]; [2]] /\
  q_remove_descendants [[1; 0]; [1]; [0]] = [[1]; [0]] /\ q_remove_ancestors [[1; 0]; [1]; [0]] = [[1; 0]; [0]] /\
  q_containing ex_root false [99] [[0]; [1]; [1; 0]] = [[1; 0]] /\ q_containing ex_root true [99] [[0]; [1]; [1; 0]] = [[0]].
Proof. split; [repeat constructor; discriminate |]. repeat split. Qed.

(** For [in_range] it is not so: the token "bc" at 1-3 is in the range 0-2 neither, nor outside of it. *)
Theorem C50_in_range_refuted : exists (root : node nat nat) n,
  valid root n /\ ~ In n (q_in_range root false 0 (Some 2) [n]) /\ ~ In n (q_in_range root true 0 (Some 2) [n]).
Proof. exists ex_root, [1; 0]. split; [discriminate |]. split; intros []. Qed.
Print Assumptions C50_in_range_refuted.

(** [range] is the smallest range that contains all nodes. *)
Theorem C50_range : forall (L A : Type) (root : node L A) ns pos end_, ns <> [] -> q_range root ns = (pos, end_) ->
  (forall n, In n ns -> (pos <= Z.of_nat (pos_of root n))%Z /\ (Z.of_nat (end_of root n) <= end_)%Z) /\
  (exists n, In n ns /\ pos = Z.of_nat (pos_of root n)) /\ (exists n, In n ns /\ end_ = Z.of_nat (end_of root n)).
Proof. exact range_ok. Qed.
Print Assumptions C50_range.
Example C50_range_example : q_range ex_root [[2]; [1; 1]; [1; 0]] = (1, 5)%Z.
Proof. reflexivity. Qed.

(** * C51: deletion *)

(** Of every node that is selected or below a selected node nothing is left; a context of which no child is left is removed as
    well (but the root stays). All other tokens stay, in order, and the tree is well formed. The number returned is the number
    of nodes removed from their parents (not counting the nodes below those). No exception is raised. *)
Theorem C51_delete : forall (L A : Type) (l : L) (cs : list (node L A)) ns, let root := Ctx l cs in
  wf_children cs -> Forall (valid root) ns ->
  q_delete root ns = Some (deleted_tree ns root, removed_list ns [] 0 cs) /\
  flatten (deleted_tree ns root) = map snd (filter (fun x => negb (covered ns (fst x))) (tokens_at [] root)) /\
  map snd (tokens_at [] root) = flatten root /\
  wf_children (children (deleted_tree ns root)).
Proof.
  intros L A l cs ns root W V. rewrite Forall_forall in V. split; [| split; [| split]].
  - eapply delete_ok; [reflexivity | exact W | exact V].
  - apply (deleted_tokens L A root l cs eq_refl).
  - apply tokens_flatten.
  - apply (deleted_wf L A root l cs eq_refl W).
Qed.
Print Assumptions C51_delete.

(** The only token of the innermost context and the token before it are deleted: both contexts go. *)
Example C51_example : wf_children (children ex_root) /\ Forall (valid ex_root) [[1; 1; 0]; [1; 0]; [1; 1; 0]] /\
  q_delete ex_root [[1; 1; 0]; [1; 0]; [1; 1; 0]] = Some (Ctx 0 [Tok (qt 0 [97]); Tok (qt 4 [101])], 1) /\
  q_delete ex_root [[2]; [1; 0]; [0]] = Some (Ctx 0 [Ctx 1 [Ctx 2 [Tok (qt 3 [100])]]], 3) /\
  q_delete ex_root [[1]; []] = Some (Ctx 0 [], 3).
Proof.
  split; [| split; [repeat constructor; discriminate | repeat split]].
  split; [| split]; repeat (constructor; try discriminate); cbn; lia.
Qed.

(** * C80: going to relatives of nodes *)

(** For a single node (a query yields, for several nodes, the results for each of them in order). *)
Theorem C80_relatives_partial : forall (L A : Type) (root : node L A) n m, node_at root n = Some m ->
  let child i := n ++ [i] in let k := length (children m) in
  q_children root [n] = map child (seq 0 k) /\
  (forall i, q_item root (Z.of_nat i) [n] = if i <? k then [child i] else []) /\
  (forall i, 0 < i -> q_item root (- Z.of_nat i)%Z [n] = if i <=? k then [child (k - i)] else []) /\
  q_first root [n] = (if 0 <? k then [child 0] else []) /\ q_last root [n] = (if 0 <? k then [child (k - 1)] else []) /\
  (q_parent [[]] = [] /\ forall i, q_parent [child i] = [n]) /\
  (forall a, In a (q_ancestors [n]) <-> below a n) /\ StronglySorted (fun a b => below b a) (q_ancestors [n]) /\
  (wf_children (children root) -> forall i, i < k ->
     q_right root [child i] = Some (if S i <? k then [child (S i)] else []) /\
     q_left root [child i] = Some (match i with 0 => [] | S j => [child j] end) /\
     q_right_siblings root [child i] = Some (map child (seq (S i) (k - S i))) /\
     q_left_siblings root [child i] = Some (map child (rev (seq 0 i)))).
Proof. exact relatives_ok. Qed.
Print Assumptions C80_relatives_partial.

Theorem C80_each : forall (L A : Type) (root : node L A) a b,
  q_children root (a ++ b) = q_children root a ++ q_children root b /\ (forall k, q_item root k (a ++ b) = q_item root k a ++ q_item root k b) /\
  q_first root (a ++ b) = q_first root a ++ q_first root b /\ q_last root (a ++ b) = q_last root a ++ q_last root b /\
  q_parent (a ++ b) = q_parent a ++ q_parent b /\ q_ancestors (a ++ b) = q_ancestors a ++ q_ancestors b /\
  (forall f, In f [q_right root; q_left root; q_right_siblings root; q_left_siblings root] ->
     f (a ++ b) = match f a, f b with Some x, Some y => Some (x ++ y) | _, _ => None end).
Proof. exact each_ok. Qed.
Print Assumptions C80_each.

Example C80_example : wf_children (children ex_root) /\ node_at ex_root [1] <> None /\
  q_children ex_root [[1]] = [[1; 0]; [1; 1]] /\ q_item ex_root (-1) [[1]; [0]] = [[1; 1]] /\ q_ancestors [[1; 1; 0]] = [[1; 1]; [1]; []] /\
  q_right ex_root [[1; 0]; [2]] = Some [[1; 1]] /\ q_left_siblings ex_root [[2]] = Some [[1]; [0]].
Proof.
  split; [split; [| split]; repeat (constructor; try discriminate); cbn; lia |]. split; [discriminate |]. repeat split.
Qed.

(** The siblings of the root: the code raises an exception instead of yielding nothing, so for example every query that goes from
    [root.query.all] to the right raises. *)
Theorem C80_siblings_of_root_refuted : forall (L A : Type) (root : node L A) ns,
  q_right root ([] :: ns) = None /\ q_left root ([] :: ns) = None /\
  q_right_siblings root ([] :: ns) = None /\ q_left_siblings root ([] :: ns) = None /\
  forall l, q_all root [[]] = Some l -> q_right root l = None.
Proof. exact siblings_of_root. Qed.
Print Assumptions C80_siblings_of_root_refuted.
