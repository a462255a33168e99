(** Proofs about the queries that go to the tokens before and after nodes, and about slices. *)
From Verif Require Import Base LexerModel TreeModel TreeSpec TreeProofs TreeWalkProofs TreeDeleteProofs QueryModel QuerySpec QueryProofs QueryNavModel.
From Coq Require Import ZArith ZifyBool.

Lemma dir_in {T} rv (l : list T) x : In x (dir rv l) <-> In x l.
Proof. destruct rv; cbn; [symmetry; apply in_rev | reflexivity]. Qed.
Lemma dir_app {T} rv (a b : list T) : dir rv (a ++ b) = if rv then dir rv b ++ dir rv a else dir rv a ++ dir rv b.
Proof. destruct rv; cbn; [apply rev_app_distr | reflexivity]. Qed.
Lemma dir_concat {T U} rv (f : U -> list T) (l : list U) : concat (map (fun x => dir rv (f x)) (dir rv l)) = dir rv (concat (map f l)).
Proof.
  destruct rv; cbn [dir]; [| reflexivity]. induction l as [| x l IH]; [reflexivity |]. cbn [map concat rev].
  rewrite map_app, concat_app, IH, rev_app_distr. cbn [map concat]. now rewrite app_nil_r.
Qed.
Lemma dir_sum {U} rv (f : U -> nat) (l : list U) : list_sum (map f (dir rv l)) = list_sum (map f l).
Proof.
  destruct rv; cbn [dir]; [| reflexivity]. induction l as [| x l IH]; [reflexivity |]. cbn [rev map].
  rewrite map_app, list_sum_app, IH. change (list_sum (f x :: map f l)) with (f x + list_sum (map f l)).
  change (list_sum (map f [x])) with (f x + 0). lia.
Qed.
Lemma concat_opt_ok {T U} (f : U -> option (list T)) g l : (forall x, In x l -> f x = Some (g x)) ->
  concat_opt (map f l) = Some (concat (map g l)).
Proof.
  induction l as [| x l IH]; intros H; [reflexivity |]. cbn [map concat_opt concat]. rewrite (H x) by now left.
  rewrite IH by (intros y Hy; apply H; now right). reflexivity.
Qed.
Lemma each_some f g ns : (forall n, In n ns -> f n = Some (g n)) -> each f ns = Some (concat (map g ns)).
Proof.
  induction ns as [| x l IH]; intros H; [reflexivity |]. cbn [each map concat]. rewrite (H x) by now left.
  rewrite IH by (intros y Hy; apply H; now right). reflexivity.
Qed.
Lemma sorted_rev {T} (R : T -> T -> Prop) l : StronglySorted R l -> StronglySorted (fun x y => R y x) (rev l).
Proof.
  induction l as [| x l IH]; intros H; [constructor |]. inversion H as [| y m Hl Hx]; subst. cbn [rev].
  apply sorted_app; [exact (IH Hl) | repeat constructor |]. intros a b Ha [<- | []]. rewrite Forall_forall in Hx. apply Hx. now apply in_rev.
Qed.
Lemma sorted_filter {T} (R : T -> T -> Prop) f l : StronglySorted R l -> StronglySorted R (filter f l).
Proof.
  induction l as [| x l IH]; intros H; [constructor |]. inversion H as [| y m Hl Hx]; subst. cbn [filter].
  destruct (f x); [| exact (IH Hl)]. constructor; [exact (IH Hl) |]. rewrite Forall_forall in *. intros z Hz. apply filter_In in Hz. now apply Hx.
Qed.

Section Proofs.
Variables L A : Type.
Notation node := (node L A).
Variable root : node.
Notation is_token := (is_token root).

Definition below_tokens (p : path) (n : node) : list path := filter is_token (pre _ _ p n).

Lemma walk_nodes rv (ps : list (path * node)) :
  Forall (fun x => forall fuel stack gen, walk root rv (cost _ _ (snd x) + fuel) stack (fst x :: gen) =
                     onto (dir rv (below_tokens (fst x) (snd x))) (walk root rv fuel stack gen)) ps ->
  forall fuel stack gen, walk root rv (list_sum (map (fun x => cost _ _ (snd x)) ps) + fuel) stack (map fst ps ++ gen) =
    onto (concat (map (fun x => dir rv (below_tokens (fst x) (snd x))) ps)) (walk root rv fuel stack gen).
Proof.
  induction 1 as [| [p n] ps H _ IH]; intros fuel stack gen.
  - cbn. destruct (walk root rv fuel stack gen); reflexivity.
  - cbn [map concat fst snd] in *. change (list_sum (?a :: ?b)) with (a + list_sum b).
    rewrite <- Nat.add_assoc. cbn [app]. rewrite H, IH. apply onto_onto.
Qed.

Lemma pres_combine p : forall cs j, pres L A p j cs = concat (map (fun x => pre _ _ (fst x) (snd x)) (combine (map (fun i => p ++ [i]) (seq j (length cs))) cs)).
Proof. induction cs as [| c cs IH]; intros j; [reflexivity |]. cbn [pres length seq map combine concat fst snd]. now rewrite IH. Qed.
Lemma filter_concat {T} (f : T -> bool) (ls : list (list T)) : filter f (concat ls) = concat (map (filter f) ls).
Proof. induction ls as [| l ls IH]; [reflexivity |]. cbn [concat map]. now rewrite filter_app, IH. Qed.

(** The paths of the children, with the children. *)
Definition numbered (p : path) (j : nat) (cs : list node) : list (path * node) := combine (map (fun i => p ++ [i]) (seq j (length cs))) cs.
Lemma numbered_fst p j cs : map fst (numbered p j cs) = map (fun i => p ++ [i]) (seq j (length cs)).
Proof.
  unfold numbered. revert j. induction cs as [| c cs IH]; intros j; [reflexivity |]. cbn [length seq map combine fst]. f_equal. apply IH.
Qed.
Lemma numbered_snd p j cs : map snd (numbered p j cs) = cs.
Proof.
  unfold numbered. revert j. induction cs as [| c cs IH]; intros j; [reflexivity |]. cbn [length seq map combine snd]. f_equal. apply IH.
Qed.
Lemma numbered_in p l cs j q n : node_at root p = Some (Ctx l cs) -> In (q, n) (numbered p j (skipn j cs)) ->
  node_at root q = Some n /\ In n cs.
Proof.
  intros Hp. unfold numbered. remember (skipn j cs) as tail eqn:Ht. symmetry in Ht. revert j Ht.
  induction tail as [| c tail IH]; intros j Ht; cbn [length seq map combine In]; [contradiction |].
  apply skipn_next in Ht. destruct Ht as [E1 [E2 E3]]. intros [E | H]; [| exact (IH (S j) E2 H)].
  injection E as <- <-. rewrite (node_at_snoc _ _ _ _ _ _ Hp). split; [exact E1 | exact (nth_error_In _ _ E1)].
Qed.

Lemma walk_node rv : forall n p, node_at root p = Some n -> forall fuel stack gen,
  walk root rv (cost _ _ n + fuel) stack (p :: gen) = onto (dir rv (below_tokens p n)) (walk root rv fuel stack gen).
Proof.
  induction n as [t | l cs IH] using node_ind'; intros p Hp fuel stack gen.
  - cbn [cost plus walk]. rewrite (is_token_at _ _ _ _ _ Hp). unfold below_tokens. cbn [pre filter]. rewrite (is_token_at _ _ _ _ _ Hp).
    destruct rv; cbn [dir rev app onto]; destruct (walk root _ fuel stack gen); reflexivity.
  - rewrite cost_ctx. replace (2 + costs L A cs + fuel) with (S (costs L A cs + S fuel)) by lia. cbn [walk]. rewrite (is_token_at _ _ _ _ _ Hp).
    unfold below_tokens. rewrite pre_ctx. cbn [filter]. rewrite (is_token_at _ _ _ _ _ Hp).
    rewrite (kids_at _ _ _ _ _ Hp). cbn [children].
    assert (F : Forall (fun x => forall fuel stack gen, walk root rv (cost _ _ (snd x) + fuel) stack (fst x :: gen) =
                     onto (dir rv (below_tokens (fst x) (snd x))) (walk root rv fuel stack gen)) (dir rv (numbered p 0 cs))).
    { apply Forall_forall. intros [q n] Hq. apply dir_in in Hq.
      destruct (numbered_in p l cs 0 q n Hp Hq) as [Q1 Q2]. rewrite Forall_forall in IH. cbn [fst snd]. intros. now apply IH. }
    pose proof (walk_nodes rv (dir rv (numbered p 0 cs)) F (S fuel) (gen :: stack) []) as W.
    replace (map fst (dir rv (numbered p 0 cs))) with (dir rv (map (fun i => p ++ [i]) (seq 0 (length cs)))) in W.
    2:{ rewrite <- (numbered_fst p 0 cs). destruct rv; cbn [dir]; [now rewrite map_rev | reflexivity]. }
    rewrite app_nil_r in W. rewrite dir_sum in W.
    replace (list_sum (map (fun x => cost _ _ (snd x)) (numbered p 0 cs))) with (costs _ _ cs) in W.
    2:{ unfold costs. rewrite <- (map_map snd (cost L A)), numbered_snd. reflexivity. }
    refine (eq_trans W _). cbn [walk]. f_equal.
    rewrite (dir_concat rv (fun x => below_tokens (fst x) (snd x))). f_equal. rewrite pres_combine, filter_concat, map_map. reflexivity.
Qed.

Lemma walk_children rv p l cs : node_at root p = Some (Ctx l cs) -> forall fuel stack,
  walk root rv (costs _ _ cs + S fuel) stack (dir rv (kids root p)) =
  onto (dir rv (filter is_token (pres _ _ p 0 cs))) (match stack with [] => Some [] | g :: st => walk root rv fuel st g end).
Proof.
  intros Hp fuel stack. rewrite (kids_at _ _ _ _ _ Hp). cbn [children].
  assert (F : Forall (fun x => forall fuel stack gen, walk root rv (cost _ _ (snd x) + fuel) stack (fst x :: gen) =
                     onto (dir rv (below_tokens (fst x) (snd x))) (walk root rv fuel stack gen)) (dir rv (numbered p 0 cs))).
  { apply Forall_forall. intros [q n] Hq. apply dir_in in Hq.
    destruct (numbered_in p l cs 0 q n Hp Hq) as [Q1 Q2]. cbn [fst snd]. intros. now apply walk_node. }
  pose proof (walk_nodes rv (dir rv (numbered p 0 cs)) F (S fuel) stack []) as W.
  replace (map fst (dir rv (numbered p 0 cs))) with (dir rv (map (fun i => p ++ [i]) (seq 0 (length cs)))) in W.
  2:{ rewrite <- (numbered_fst p 0 cs). destruct rv; cbn [dir]; [now rewrite map_rev | reflexivity]. }
  rewrite app_nil_r in W. rewrite dir_sum in W.
  replace (list_sum (map (fun x => cost _ _ (snd x)) (numbered p 0 cs))) with (costs _ _ cs) in W.
  2:{ unfold costs. rewrite <- (map_map snd (cost L A)), numbered_snd. reflexivity. }
  refine (eq_trans W _). cbn [walk]. f_equal.
  rewrite (dir_concat rv (fun x => below_tokens (fst x) (snd x))). f_equal. rewrite pres_combine, filter_concat, map_map. reflexivity.
Qed.

(** util.tokens over some of the children of a node *)
Lemma tokens_of_some rv (ps : list (path * node)) : (forall p n, In (p, n) ps -> node_at root p = Some n) ->
  tokens_of root rv (map fst ps) = Some (dir rv (filter is_token (concat (map (fun x => pre _ _ (fst x) (snd x)) ps)))).
Proof.
  intros H. unfold tokens_of.
  replace (dir rv (map fst ps)) with (map fst (dir rv ps)) by (destruct rv; cbn [dir]; [apply map_rev | reflexivity]).
  rewrite filter_concat, map_map.
  rewrite <- (dir_concat rv (fun x => below_tokens (fst x) (snd x))).
  assert (H' : forall p n, In (p, n) (dir rv ps) -> node_at root p = Some n) by (intros p n Hi; apply dir_in in Hi; now apply H).
  clear H. induction (dir rv ps) as [| [p n] qs IH]; [reflexivity |]. cbn [map each concat fst snd].
  rewrite IH by (intros q m Hm; apply H'; now right). specialize (H' p n (or_introl eq_refl)).
  rewrite (is_token_at _ _ _ _ _ H').
  assert (E : (match n with Tok _ => true | Ctx _ _ => false end = true /\ exists t, n = Tok t) \/ exists l cs, n = Ctx l cs) by (destruct n; eauto).
  destruct E as [[_ [t ->]] | [l [cs ->]]].
  - unfold below_tokens. cbn [pre filter]. rewrite (is_token_at _ _ _ _ _ H'). destruct rv; reflexivity.
  - assert (W : walk root rv (fuel_for root p) [] (dir rv (kids root p)) = Some (dir rv (below_tokens p (Ctx l cs)))); [| now rewrite W].
    pose proof (cost_size _ _ (Ctx l cs)) as C. rewrite cost_ctx in C.
    unfold fuel_for, QueryModel.at_. rewrite H'.
    pose proof (walk_children rv p l cs H' (2 * size (Ctx l cs) - costs _ _ cs - 1) []) as W.
    replace (costs L A cs + S (2 * size (Ctx l cs) - costs _ _ cs - 1)) with (2 * size (Ctx l cs)) in W by lia.
    rewrite W. cbn [onto]. rewrite app_nil_r. unfold below_tokens. rewrite pre_ctx. cbn [filter]. now rewrite (is_token_at _ _ _ _ _ H').
Qed.

Lemma skipn_seq k : forall j n, skipn k (seq j n) = seq (j + k) (n - k).
Proof.
  induction k as [| k IH]; intros j n; cbn [skipn]; [now rewrite Nat.add_0_r, Nat.sub_0_r |].
  destruct n as [| n]; [reflexivity |]. cbn [seq]. rewrite IH. f_equal; lia.
Qed.
Lemma firstn_seq k : forall j n, firstn k (seq j n) = seq j (Nat.min k n).
Proof.
  induction k as [| k IH]; intros j n; [reflexivity |]. destruct n as [| n]; [reflexivity |]. cbn [seq firstn Nat.min]. now rewrite IH.
Qed.

(** The tokens right of child [i], and left of it. *)
Lemma tokens_right p l cs i : node_at root p = Some (Ctx l cs) ->
  tokens_of root false (skipn (i + 1) (kids root p)) = Some (filter is_token (pres _ _ p (S i) (skipn (S i) cs))).
Proof.
  intros Hp. rewrite (kids_at _ _ _ _ _ Hp). cbn [children]. rewrite skipn_map, skipn_seq.
  pose proof (tokens_of_some false (numbered p (S i) (skipn (S i) cs))) as T.
  rewrite numbered_fst, skipn_length in T. replace (0 + (i + 1)) with (S i) by lia. replace (length cs - (i + 1)) with (length cs - S i) by lia.
  rewrite T; [| intros q n Hq; now destruct (numbered_in p l cs (S i) q n Hp Hq)]. cbn [dir]. now rewrite pres_combine.
Qed.
Lemma numbered_first p l cs i q n : node_at root p = Some (Ctx l cs) -> In (q, n) (numbered p 0 (firstn i cs)) -> node_at root q = Some n.
Proof.
  intros Hp H. apply (numbered_in p l cs 0 q n Hp). cbn [skipn]. unfold numbered in *.
  rewrite <- (firstn_skipn i cs), app_length, seq_app, map_app.
  replace (combine _ _) with (combine (map (fun i => p ++ [i]) (seq 0 (length (firstn i cs)))) (firstn i cs) ++
     combine (map (fun i => p ++ [i]) (seq (0 + length (firstn i cs)) (length (skipn i cs)))) (skipn i cs)).
  - apply in_or_app. now left.
  - generalize (skipn i cs) as b, (firstn i cs) as a. clear. intros b a. generalize 0. induction a as [| x a IH]; intros j.
    + cbn. now rewrite Nat.add_0_r.
    + cbn [length seq map combine app]. f_equal. replace (j + S (length a)) with (S j + length a) by lia. exact (IH (S j)).
Qed.
Lemma tokens_left p l cs i : node_at root p = Some (Ctx l cs) -> i <= length cs ->
  tokens_of root true (firstn i (kids root p)) = Some (rev (filter is_token (pres _ _ p 0 (firstn i cs)))).
Proof.
  intros Hp Hi. rewrite (kids_at _ _ _ _ _ Hp). cbn [children]. rewrite firstn_map, firstn_seq.
  pose proof (tokens_of_some true (numbered p 0 (firstn i cs))) as T.
  rewrite numbered_fst, firstn_length in T. rewrite T by (intros q n; now apply numbered_first with (l := l)).
  cbn [dir]. now rewrite pres_combine.
Qed.

Lemma pres_after p l cs : node_at root p = Some (Ctx l cs) -> forall tail j, skipn j cs = tail -> forall q,
  (In q (pres _ _ p j tail) <-> (exists i r, j <= i /\ q = p ++ i :: r) /\ valid root q).
Proof.
  intros Hp. induction tail as [| c tail IHt]; intros j Hj q.
  - apply skipn_end in Hj. cbn. split; [contradiction |]. intros [[i [r [Hi ->]]] V].
    unfold valid in V. rewrite node_at_app, Hp in V. cbn in V. replace (nth_error cs i) with (@None node) in V; [congruence |].
    symmetry. apply nth_error_None. lia.
  - apply skipn_next in Hj. destruct Hj as [E1 [E2 E3]]. cbn [pres]. rewrite in_app_iff.
    assert (Hc : node_at root (p ++ [j]) = Some c) by (rewrite (node_at_snoc _ _ _ _ _ _ Hp); exact E1).
    rewrite (pre_in _ _ _ _ _ Hc), (IHt (S j) E2). unfold valid. split.
    + intros [[[r ->] V] | [[i [r [Hi ->]]] V]].
      * split; [| exact V]. exists j, r. split; [lia | now rewrite <- app_assoc].
      * split; [| exact V]. exists i, r. split; [lia | reflexivity].
    + intros [[i [r [Hi ->]]] V]. destruct (Nat.eq_dec i j) as [-> | D].
      * left. split; [exists r; now rewrite <- app_assoc | exact V].
      * right. split; [| exact V]. exists i, r. split; [lia | reflexivity].
Qed.
Lemma pres_app p : forall a b j, pres L A p j (a ++ b) = pres L A p j a ++ pres L A p (j + length a) b.
Proof.
  induction a as [| c a IH]; intros b j; cbn [app pres length]; [now rewrite Nat.add_0_r |].
  rewrite IH, <- app_assoc. do 3 f_equal. lia.
Qed.
Lemma pres_before p l cs i : node_at root p = Some (Ctx l cs) -> i <= length cs -> forall q,
  (In q (pres _ _ p 0 (firstn i cs)) <-> (exists k r, k < i /\ q = p ++ k :: r) /\ valid root q).
Proof.
  intros Hp Hi q. pose proof (pres_after p l cs Hp cs 0 eq_refl q) as F. pose proof (pres_after p l cs Hp (skipn i cs) i eq_refl q) as G.
  rewrite <- (firstn_skipn i cs), pres_app, in_app_iff in F. rewrite firstn_length in F. replace (0 + Nat.min i (length cs)) with i in F by lia.
  split.
  - intros H. destruct F as [F _]. destruct (F (or_introl H)) as [[k [r [_ E]]] V]. split; [| exact V].
    (* a path of a child in front *)
    exists k, r. split; [| exact E].
    assert (B : forall cs j q, In q (pres L A p j cs) -> exists k r, j <= k < j + length cs /\ q = p ++ k :: r).
    { clear. induction cs as [| c cs IH]; intros j q; cbn [pres length]; [contradiction |]. rewrite in_app_iff. intros [H | H].
      - apply pre_prefix in H. destruct H as [r ->]. exists j, r. split; [lia | now rewrite <- app_assoc].
      - destruct (IH (S j) q H) as [k [r [Hk E]]]. exists k, r. split; [lia | exact E]. }
    destruct (B _ _ _ H) as [k' [r' [Hk E']]]. rewrite firstn_length in Hk. rewrite E in E'. apply app_inv_head in E'. injection E' as -> _. lia.
  - intros [[k [r [Hk E]]] V]. destruct F as [_ F]. destruct F as [F | F]; [split; [exists k, r; split; [lia | exact E] | exact V] | exact F |].
    apply G in F. destruct F as [[k' [r' [Hk' E']]] _]. rewrite E in E'. apply app_inv_head in E'. injection E' as -> _. lia.
Qed.

Lemma ancestors_snoc (p : path) i : ancestors (p ++ [i]) None = length p :: ancestors p None.
Proof.
  unfold ancestors. rewrite app_length. cbn [length]. rewrite Nat.add_1_r. cbn [ancestors_from]. f_equal.
  generalize (length p) as k. intros k. induction k as [| k IH]; [reflexivity |]. cbn [ancestors_from]. f_equal. exact IH.
Qed.
Lemma ancestors_less (p : path) d : In d (ancestors p None) -> d < length p.
Proof.
  unfold ancestors. generalize (length p) at 1 2 as k. intros k. revert d. induction k as [| k IH]; intros d; cbn [ancestors_from]; [contradiction |].
  intros [<- | H]; [lia |]. specialize (IH d H). lia.
Qed.
Lemma anc_index_snoc p i d : d < length p -> anc_index root (p ++ [i]) d = anc_index root p d.
Proof.
  intros H. unfold anc_index. rewrite !firstn_app. replace (S d - length p) with 0 by lia. replace (d - length p) with 0 by lia.
  cbn [firstn]. now rewrite !app_nil_r.
Qed.
Lemma anc_index_last p i : wf_children (children root) -> valid root (p ++ [i]) -> anc_index root (p ++ [i]) (length p) = Some (p, i).
Proof.
  intros W V. unfold anc_index. rewrite firstn_all2 by (rewrite app_length; cbn; lia). rewrite (index_of_ok _ _ _ _ _ W V).
  now rewrite firstn_app, Nat.sub_diag, firstn_all, app_nil_r.
Qed.

Definition off_right (n q : path) : Prop := exists c i j r s, n = c ++ i :: r /\ q = c ++ j :: s /\ i < j.

Lemma off_right_snoc p i q : off_right (p ++ [i]) q <-> (exists j s, i < j /\ q = p ++ j :: s) \/ off_right p q.
Proof.
  split.
  - intros [c [a [j [r [s [E [-> H]]]]]]]. destruct r as [| b r _] using rev_ind.
    + apply app_inj_tail in E. destruct E as [-> ->]. left. now exists j, s.
    + rewrite app_comm_cons, app_assoc in E. apply app_inj_tail in E. destruct E as [-> ->]. right. now exists c, a, j, r, s.
  - intros [[j [s [H ->]]] | [c [a [j [r [s [-> [-> H]]]]]]]].
    + now exists p, i, j, [], s.
    + exists c, a, j, (r ++ [i]), s. split; [now rewrite <- app_assoc | now split].
Qed.
Lemma off_left_snoc p i q : off_right q (p ++ [i]) <-> (exists j s, j < i /\ q = p ++ j :: s) \/ off_right q p.
Proof.
  split.
  - intros [c [a [j [r [s [-> [E H]]]]]]]. destruct s as [| b s _] using rev_ind.
    + apply app_inj_tail in E. destruct E as [-> ->]. left. now exists a, r.
    + rewrite app_comm_cons, app_assoc in E. apply app_inj_tail in E. destruct E as [-> ->]. right. now exists c, a, j, r, s.
  - intros [[j [s [H ->]]] | [c [a [j [r [s [-> [-> H]]]]]]]].
    + now exists p, j, i, s, [].
    + exists c, a, j, r, (s ++ [i]). split; [reflexivity | split; [now rewrite <- app_assoc | exact H]].
Qed.

Lemma token_valid q : is_token q = true -> valid root q.
Proof. unfold QueryModel.is_token, QueryModel.at_, valid. destruct (node_at root q); congruence. Qed.
Lemma valid_up p i : valid root (p ++ [i]) -> valid root p.
Proof. intros V. destruct (valid_child _ _ _ _ _ V) as [l [cs [E _]]]. unfold valid. congruence. Qed.

Lemma pres_sorted p : forall cs j, StronglySorted before (pres L A p j cs).
Proof.
  intros cs j. induction cs as [| c cs IH] in j |- *; cbn [pres]; [constructor |].
  apply sorted_app; [apply pre_sorted | apply IH |]. intros x y Hx Hy.
  apply pres_in in Hy. destruct Hy as [i [r [Hi ->]]]. apply pre_prefix in Hx. destruct Hx as [s ->].
  right. exists p, j, i, s, r. repeat split; [now rewrite <- app_assoc | lia].
Qed.

Theorem forward_ok : wf_children (children root) -> forall n, valid root n ->
  exists f b, forward_of root n = Some f /\ backward_of root n = Some b /\
    StronglySorted before f /\ StronglySorted (fun x y => before y x) b /\
    (forall q, In q f <-> is_token q = true /\ off_right n q) /\ (forall q, In q b <-> is_token q = true /\ off_right q n).
Proof.
  intros W. induction n as [| i p IH] using rev_ind; intros V.
  - exists [], []. split; [reflexivity |]. split; [reflexivity |]. split; [constructor |]. split; [constructor |].
    split; intros q; (split; [intros [] |]); intros [_ [c [a [j [r [s [E1 [E2 _]]]]]]]]; destruct c; discriminate.
  - destruct (IH (valid_up _ _ V)) as [f [b [Ef [Eb [Sf [Sb [Mf Mb]]]]]]].
    destruct (valid_child _ _ _ _ _ V) as [l [cs [Hp Hi]]].
    exists (filter is_token (pres _ _ p (S i) (skipn (S i) cs)) ++ f), (rev (filter is_token (pres _ _ p 0 (firstn i cs))) ++ b).
    assert (R : forall q, In q (filter is_token (pres _ _ p (S i) (skipn (S i) cs))) <-> is_token q = true /\ exists j s, i < j /\ q = p ++ j :: s).
    { intros q. rewrite filter_In, (pres_after p l cs Hp _ _ eq_refl). split.
      - intros [[[j [s [Hj E]]] _] T]. split; [exact T |]. exists j, s. split; [lia | exact E].
      - intros [T [j [s [Hj E]]]]. split; [| exact T]. split; [| now apply token_valid]. exists j, s. split; [lia | exact E]. }
    assert (Q : forall q, In q (rev (filter is_token (pres _ _ p 0 (firstn i cs)))) <-> is_token q = true /\ exists j s, j < i /\ q = p ++ j :: s).
    { intros q. rewrite <- in_rev, filter_In, (pres_before p l cs i Hp) by lia. split.
      - intros [[X _] T]. now split.
      - intros [T X]. split; [| exact T]. split; [exact X | now apply token_valid]. }
    split; [| split; [| split; [| split; [| split]]]].
    + unfold forward_of in *. rewrite ancestors_snoc. cbn [map concat_opt]. rewrite (anc_index_last _ _ W V), (tokens_right _ _ _ _ Hp).
      replace (map _ (ancestors p None)) with (map (fun d => match anc_index root p d with
                            | Some (p, i) => tokens_of root false (skipn (i + 1) (kids root p))
                            | None => None
                            end) (ancestors p None)); [now rewrite Ef |].
      apply map_ext_in. intros d Hd. apply ancestors_less in Hd. now rewrite anc_index_snoc.
    + unfold backward_of in *. rewrite ancestors_snoc. cbn [map concat_opt]. rewrite (anc_index_last _ _ W V).
      replace (if i =? 0 then _ else _) with (Some (rev (filter is_token (pres _ _ p 0 (firstn i cs))))).
      2:{ destruct (i =? 0) eqn:Z0; [apply Nat.eqb_eq in Z0; subst i; reflexivity |]. symmetry. now apply tokens_left with (l := l); [| lia]. }
      replace (map _ (ancestors p None)) with (map (fun d => match anc_index root p d with
                            | Some (p, i) => if i =? 0 then Some [] else tokens_of root true (firstn i (kids root p))
                            | None => None
                            end) (ancestors p None)); [now rewrite Eb |].
      apply map_ext_in. intros d Hd. apply ancestors_less in Hd. now rewrite anc_index_snoc.
    + apply sorted_app; [apply sorted_filter, pres_sorted | exact Sf |]. intros x y Hx Hy. apply R in Hx. apply Mf in Hy.
      destruct Hx as [_ [j [s [Hj ->]]]]. destruct Hy as [_ [c [a [k [r [u [-> [-> H]]]]]]]].
      right. exists c, a, k, (r ++ j :: s), u. split; [now rewrite <- app_assoc | now split].
    + apply sorted_app; [apply sorted_rev, sorted_filter, pres_sorted | exact Sb |]. intros x y Hx Hy. apply Q in Hx. apply Mb in Hy.
      destruct Hx as [_ [j [s [Hj ->]]]]. destruct Hy as [_ [c [a [k [r [u [-> [-> H]]]]]]]].
      right. exists c, a, k, r, (u ++ j :: s). split; [reflexivity | split; [now rewrite <- app_assoc | exact H]].
    + intros q. rewrite in_app_iff, R, Mf, off_right_snoc. tauto.
    + intros q. rewrite in_app_iff, Q, Mb, off_left_snoc. tauto.
Qed.

(** In terms of the document order. *)
Lemma off_right_after n q : off_right n q <-> before n q /\ ~ below n q.
Proof.
  split.
  - intros H. split; [right; exact H |]. destruct H as [c [i [j [r [s [-> [-> H]]]]]]]. intros [k [u E]].
    rewrite <- app_assoc in E. apply app_inv_head in E. cbn [app] in E. injection E as -> _. lia.
  - intros [[H | H] N]; [contradiction | exact H].
Qed.
Lemma off_right_token n q : valid root n -> is_token q = true -> (off_right q n <-> before q n).
Proof.
  intros V T. rewrite off_right_after. split; [tauto |]. intros B. split; [exact B |]. intros [k [u ->]].
  unfold valid in V. rewrite node_at_app in V. unfold QueryModel.is_token, QueryModel.at_ in T. destruct (node_at root q) as [[t | l cs] |]; try discriminate.
  cbn in V. destruct k; now contradiction V.
Qed.

Theorem nav_ok n : wf_children (children root) -> valid root n ->
  exists f b, q_forward root [n] = Some f /\ q_backward root [n] = Some b /\
    StronglySorted before f /\ StronglySorted (fun x y => before y x) b /\
    (forall q, In q f <-> (exists t, node_at root q = Some (Tok t)) /\ before n q /\ ~ below n q) /\
    (forall q, In q b <-> (exists t, node_at root q = Some (Tok t)) /\ before q n) /\
    q_next root [n] = Some (firstn 1 f) /\ q_previous root [n] = Some (firstn 1 b).
Proof.
  intros W V. destruct (forward_ok W n V) as [f [b [Ef [Eb [Sf [Sb [Mf Mb]]]]]]]. exists f, b.
  assert (T : forall q, is_token q = true <-> exists t, node_at root q = Some (Tok t)).
  { intros q. unfold QueryModel.is_token, QueryModel.at_. destruct (node_at root q) as [[t | l cs] |]; (split; [| intros [t' E]]); try discriminate; eauto. }
  assert (N : forall q, is_token q = true -> off_right n q \/ off_right q n -> q <> []).
  { intros q _ [[c [i [j [r [s [-> [-> _]]]]]]] | [c [i [j [r [s [-> [-> _]]]]]]]] E; now apply app_eq_nil in E. }
  assert (F1 : forall l, (forall q, In q l -> is_token q = true /\ (off_right n q \/ off_right q n)) -> first_true root l = firstn 1 l).
  { intros [| t l] H; [reflexivity |]. cbn [first_true firstn]. destruct (H t (or_introl eq_refl)) as [T1 O1].
    now rewrite (wf_truth _ _ _ _ W (N _ T1 O1)). }
  unfold q_forward, q_backward, q_next, q_previous. cbn [each]. rewrite Ef, Eb. cbn [option_map].
  rewrite !F1 by (intros q Hq; (apply Mf in Hq || apply Mb in Hq); tauto). rewrite !app_nil_r.
  split; [reflexivity |]. split; [reflexivity |]. split; [exact Sf |]. split; [exact Sb |]. split; [| split; [| split; reflexivity]].
  - intros q. rewrite Mf, T, off_right_after. reflexivity.
  - intros q. rewrite Mb, <- T. split; intros [X Y]; (split; [exact X |]); now apply (off_right_token n q V X).
Qed.

End Proofs.
