(** Properties C118 and C119: nodes above other nodes, and the tokens from one token upto another. *)
From Verif Require Import Base TreeModel TreeSpec TreeProofs AncestorModel AncestorSpec AncestorProofs Prop_Tree.
From Coq Require Import ZArith.

(** C118. [ancestors] yields the nodes above a node, the nearest first; [depth] is their number, [root] the last of them, and [is_ancestor_of] tells whether a node is one of
    them. *)
Theorem C118_ancestors :
  forall n a : nid,
    (forall i, nth_error (ancestors_of n None) i = Some a <-> steps_above (S i) a n)
    /\ (is_ancestor_of a n = true <-> above a n)
    /\ steps_above (depth n) (n_root n) n /\ snd (n_root n) = [].
Proof.
  intros n a. split; [intros i; apply nth_ancestor |]. split; [apply is_ancestor_ok |]. rewrite root_ok, depth_ok. split; [| reflexivity]. split; [reflexivity |]. exists (snd n). auto.
Qed.
Print Assumptions C118_ancestors.

(** [common_ancestor] is the lowest context that both nodes are in; there is one if the nodes are in the same tree. *)
Theorem C118_common_ancestor :
  forall (L A : Type) (trees : list (node L A)) (self other : nid) (s o : node L A),
    node_of trees self = Some s -> node_of trees other = Some o -> (forall t, In t trees -> exists l cs, t = Ctx l cs) ->
    (common_ancestor trees self other <> None <-> fst self = fst other)
    /\ forall c, common_ancestor trees self other = Some c ->
         is_context trees c = true /\ at_or_above c self /\ at_or_above c other
         /\ forall d, is_context trees d = true -> at_or_above d self -> at_or_above d other -> at_or_above d c.
Proof.
  intros L A trees self other s o Hs Ho Hr. split; [exact (common_exists L A trees self other s o Hs Ho Hr) |]. intros c E. pose proof (common_ok L A trees self other s o Hs Ho) as H. rewrite E in H. exact H.
Qed.
Print Assumptions C118_common_ancestor.

(** Upto a node that is above the node, [ancestors] stops after it. If neither that node nor its parent is above, it goes on to the root. *)
Theorem C118_upto_partial :
  forall n u : nid,
    (above u n -> forall a, In a (ancestors_of n (Some u)) <-> above a n /\ at_or_above u a)
    /\ ((forall p, steps_above 1 p u -> ~ above p n) -> ancestors_of n (Some u) = ancestors_of n None).
Proof.
  intros n u. split; [intros H a; now apply upto_above |]. intros H. apply upto_elsewhere. destruct u as [k q]. destruct q as [| i q]; [now left |]. right. cbn [fst snd]. apply H.
  split; [reflexivity |]. exists [last (i :: q) 0]. split; [reflexivity |]. apply app_removelast_last. discriminate.
Qed.
Print Assumptions C118_upto_partial.

(** What is documented ("otherwise iteration stops at the root node") fails for a node that is not above, but whose parent is: iteration stops before the parent.  In
    [tree1], from the token at [3; 0], upto the token at [0], the root is not yielded. *)
Theorem C118_upto_refuted :
  exists (n u : nid), node_of [tree1] n <> None /\ node_of [tree1] u <> None /\ ~ above u n /\ ancestors_of n (Some u) = [(0, [3])] /\ ancestors_of n None = [(0, [3]); (0, [])].
Proof.
  exists (0, [3; 0]), (0, [0]). split; [discriminate |]. split; [discriminate |]. split; [| split; reflexivity]. intros (_ & r & _ & E). discriminate.
Qed.
Print Assumptions C118_upto_refuted.

Definition tree2 : node nat nat := Ctx 0 [Ctx 1 [Tok (Token 0 [97] 1 None)]; Tok (Token 1 [98] 1 None)].
Example C118_example :
  common_ancestor [tree1; tree2] (0, [3; 0]) (0, [3; 2]) = Some (0, [3]) /\ common_ancestor [tree1; tree2] (0, [3; 0]) (0, [3]) = Some (0, [3])
  /\ common_ancestor [tree1; tree2] (0, [3; 0]) (0, [5]) = Some (0, []) /\ common_ancestor [tree1; tree2] (0, [3; 0]) (1, [0; 0]) = None /\ depth (0, [3; 0]) = 2.
Proof. repeat split. Qed.

(** C119. The tokens from one token upto and including another one in the same tree are those that are not before the one and not after the other. *)
Theorem C119_tokens_until :
  forall (L A : Type) (trees : list (node L A)) (k : nat) (tree : node L A) (p q : list nat) (s o : tok A),
    nth_error trees k = Some tree -> wf_children (children tree) -> p <> [] -> q <> [] ->
    node_at tree p = Some (Tok s) -> node_at tree q = Some (Tok o) ->
    forward_until_including trees (k, p) s (k, q) o = Some (filter (fun x => (k_pos s <=? k_pos x) && (k_pos x <=? k_pos o)) (flatten tree)).
Proof. intros L A trees k tree p q s o Ht Hwf Hp Hq Hs Ho. now apply until_ok. Qed.
Print Assumptions C119_tokens_until.

(** The range from a token to another one that is not before it is in the common ancestor, starts and ends with the tokens, and has the positions of them; there is none for tokens
    of different trees. *)
Theorem C119_token_range_partial :
  forall (L A : Type) (trees : list (node L A)) (k : nat) (tree : node L A) (p q : list nat) (s o : tok A),
    nth_error trees k = Some tree -> wf_children (children tree) -> p <> [] -> q <> [] -> node_at tree p = Some (Tok s) ->
    (node_at tree q = Some (Tok o) -> p = q \/ k_pos s < k_pos o ->
      exists r, token_range trees (k, p) s (k, q) o = Some (Some (k, r)) /\ common_ancestor trees (k, p) (k, q) = Some (k, r_path r)
        /\ r_path r ++ r_start r = p /\ r_path r ++ r_end r = q /\ range_pos tree r = Some (k_pos s) /\ range_end tree r = Some (k_end o))
    /\ (forall k' tree', k <> k' -> nth_error trees k' = Some tree' -> wf_children (children tree') -> node_at tree' q = Some (Tok o) ->
        token_range trees (k, p) s (k', q) o = Some None).
Proof.
  intros L A trees k tree p q s o Ht Hwf Hp Hq Hs. split; [intros Ho Hpos; now apply range_trail |]. intros k' tree' Hk Ht' Hwf' Ho. now apply (until_other L A trees k k' p q tree tree').
Qed.
Print Assumptions C119_token_range_partial.

(** Documented is that there is no range only if the other token is in another tree; but there is none either if the other token comes before. *)
Theorem C119_backwards_refuted :
  exists (s o : tok nat), node_at tree1 [4] = Some (Tok s) /\ node_at tree1 [3; 1] = Some (Tok o) /\ wf_children (children tree1)
    /\ token_range [tree1] (0, [4]) s (0, [3; 1]) o = Some None /\ common_ancestor [tree1] (0, [4]) (0, [3; 1]) = Some (0, []).
Proof. do 2 eexists. split; [reflexivity |]. split; [reflexivity |]. split; [exact tree1_wf |]. split; reflexivity. Qed.
Print Assumptions C119_backwards_refuted.

Example C119_example : exists s o ts, node_at tree1 [1] = Some (Tok s) /\ node_at tree1 [3; 1] = Some (Tok o) /\ wf_children (children tree1)
  /\ forward_until_including [tree1] (0, [1]) s (0, [3; 1]) o = Some ts /\ map k_pos ts = [1; 3; 4; 5].
Proof. do 3 eexists. split; [reflexivity |]. split; [reflexivity |]. split; [exact tree1_wf |]. split; reflexivity. Qed.
