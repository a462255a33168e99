(** Proofs about queries that navigate and select. *)
From Verif Require Import Base LexerModel TreeModel TreeSpec TreeProofs TreeWalkProofs TreeDeleteProofs QueryModel QuerySpec.
From Coq Require Import ZArith ZifyBool.

Section Proofs.
Variables L A : Type.
Notation node := (node L A).

(** * Paths *)

Lemma prefix_refl (p : path) : prefix p p.
Proof. exists []. now rewrite app_nil_r. Qed.
Lemma prefix_trans (a b c : path) : prefix a b -> prefix b c -> prefix a c.
Proof. intros [r ->] [s ->]. exists (r ++ s). now rewrite app_assoc. Qed.
Lemma below_prefix (a p : path) : below a p <-> prefix a p /\ p <> a.
Proof.
  split.
  - intros [i [r ->]]. split; [now exists (i :: r) |]. intros E. apply (f_equal (@length nat)) in E. rewrite app_length in E. cbn in E. lia.
  - intros [[r ->] H]. destruct r as [| i r]; [now rewrite app_nil_r in H | now exists i, r].
Qed.
Lemma prefix_snoc (a : path) p i : prefix a (p ++ [i]) -> prefix a p \/ a = p ++ [i].
Proof.
  intros [r E]. destruct r as [| j r] using rev_ind.
  - right. now rewrite app_nil_r in E.
  - left. rewrite app_assoc in E. apply app_inj_tail in E. destruct E as [-> _]. now exists r.
Qed.
Lemma prefixb_ok a p : prefixb a p = true <-> prefix a p.
Proof.
  revert p. induction a as [| i a IH]; intros p; cbn [prefixb].
  - split; [intros _; now exists p | reflexivity].
  - destruct p as [| j p].
    + split; [discriminate | intros [r E]; discriminate].
    + rewrite andb_true_iff, Nat.eqb_eq, IH. split.
      * intros [-> [r ->]]. now exists r.
      * intros [r E]. cbn in E. injection E as -> ->. split; [reflexivity | now exists r].
Qed.
Lemma path_eqb_ok (a b : path) : path_eqb a b = true <-> a = b.
Proof.
  unfold path_eqb. revert b. induction a as [| i a IH]; intros [| j b]; cbn [list_eqb]; try (split; (discriminate || reflexivity)).
  rewrite andb_true_iff, Nat.eqb_eq, IH. split; [intros [-> ->]; reflexivity | intros E; injection E as -> ->; auto].
Qed.
Lemma path_eqb_refl (a : path) : path_eqb a a = true.
Proof. now apply path_eqb_ok. Qed.
Lemma path_eqb_no (a b : path) : path_eqb a b = false <-> a <> b.
Proof. rewrite <- path_eqb_ok. destruct (path_eqb a b); split; congruence. Qed.
Lemma mem_ok p l : mem p l = true <-> In p l.
Proof.
  unfold mem. rewrite existsb_exists. split.
  - intros [x [H E]]. apply path_eqb_ok in E. now subst.
  - intros H. exists p. split; [exact H | apply path_eqb_refl].
Qed.
Lemma mem_no p l : mem p l = false <-> ~ In p l.
Proof. rewrite <- mem_ok. destruct (mem p l); split; congruence. Qed.

Lemma node_at_app (n : node) p q : node_at n (p ++ q) = match node_at n p with Some m => node_at m q | None => None end.
Proof.
  revert n. induction p as [| i p IH]; intros n; cbn [app node_at]; [reflexivity |].
  destruct (nth_error (children n) i) as [m |]; [apply IH | reflexivity].
Qed.
Lemma node_at_snoc (n : node) p i m : node_at n p = Some m -> node_at n (p ++ [i]) = nth_error (children m) i.
Proof. intros H. rewrite node_at_app, H. cbn [node_at]. now destruct (nth_error (children m) i). Qed.
Lemma node_at_prefix (n : node) p q : prefix p q -> node_at n q <> None -> node_at n p <> None.
Proof. intros [r ->] H E. apply H. now rewrite node_at_app, E. Qed.

Variable root : node.
Notation at_ := (at_ root). Notation len := (len root). Notation kids := (kids root).
Notation is_context := (is_context root). Notation is_token := (is_token root).

(** * Preorder *)

Fixpoint pre (p : path) (n : node) : list path :=
  p :: match n with
       | Tok _ => []
       | Ctx _ cs => (fix go (i : nat) (cs : list node) := match cs with [] => [] | c :: cs => pre (p ++ [i]) c ++ go (S i) cs end) 0 cs
       end.
Fixpoint pres (p : path) (i : nat) (cs : list node) : list path :=
  match cs with [] => [] | c :: cs => pre (p ++ [i]) c ++ pres p (S i) cs end.
Lemma pre_ctx p l cs : pre p (Ctx l cs) = p :: pres p 0 cs.
Proof.
  cbn [pre]. f_equal. generalize 0. induction cs as [| c cs IH]; intros i; [reflexivity |]. cbn [pres]. f_equal. apply IH.
Qed.

Fixpoint cost (n : node) : nat :=
  match n with
  | Tok _ => 1
  | Ctx _ cs => 2 + (fix go (cs : list node) := match cs with [] => 0 | c :: cs => cost c + go cs end) cs
  end.
Definition costs (cs : list node) : nat := list_sum (map cost cs).
Lemma cost_ctx l cs : cost (Ctx l cs) = 2 + costs cs.
Proof. unfold costs. simpl. do 2 f_equal. induction cs as [| c cs IH]; simpl; [reflexivity |]. f_equal. apply IH. Qed.
Lemma cost_size n : cost n <= 2 * size n.
Proof.
  induction n as [t | l cs IH] using node_ind'; [cbn; lia |]. rewrite cost_ctx, size_ctx. unfold costs.
  enough (list_sum (map cost cs) <= 2 * list_sum (map size cs)) by lia.
  induction IH as [| c cs H _ IH]; [cbn; lia |]. cbn [map list_sum fold_right]. unfold list_sum in IH. lia.
Qed.

Definition keep (ctxs : bool) (p : path) : bool := if ctxs then is_context p else true.

Lemma skipn_next {T} (l : list T) j x t : skipn j l = x :: t -> nth_error l j = Some x /\ skipn (S j) l = t /\ j < length l.
Proof.
  revert j. induction l as [| y l IH]; intros [| j] H; cbn [skipn] in H; try discriminate.
  - injection H as -> ->. cbn. repeat split. lia.
  - destruct (IH j H) as [E1 [E2 E3]]. cbn [nth_error length]. repeat split; [exact E1 | exact E2 | lia].
Qed.
Lemma skipn_end {T} (l : list T) j : skipn j l = [] -> length l <= j.
Proof. intros H. pose proof (skipn_length j l) as X. rewrite H in X. cbn in X. lia. Qed.

Definition onto {T} (a : list T) (o : option (list T)) : option (list T) := match o with Some r => Some (a ++ r) | None => None end.
Lemma onto_onto {T} (a b : list T) o : onto a (onto b o) = onto (a ++ b) o.
Proof. destruct o; cbn; [now rewrite app_assoc | reflexivity]. Qed.

Lemma len_at p n : node_at root p = Some n -> len p = length (children n).
Proof. intros H. unfold QueryModel.len, QueryModel.at_. now rewrite H. Qed.
Lemma is_context_at p n : node_at root p = Some n -> is_context p = match n with Ctx _ _ => true | _ => false end.
Proof. intros H. unfold QueryModel.is_context, QueryModel.at_. rewrite H. now destruct n. Qed.
Lemma is_token_at p n : node_at root p = Some n -> is_token p = match n with Tok _ => true | _ => false end.
Proof. intros H. unfold QueryModel.is_token, QueryModel.at_. rewrite H. now destruct n. Qed.

Lemma inner_from ctxs : forall n p, node_at root p = Some n ->
  forall tail j, skipn j (children n) = tail -> forall fuel stack,
  inner root ctxs (costs tail + S fuel) p j stack =
  onto (filter (keep ctxs) (pres p j tail))
       (match stack with [] => Some [] | i :: st => inner root ctxs fuel (removelast p) (i + 1) st end).
Proof.
  induction n as [t | l cs IHn] using node_ind'; intros p Hp; cbn [children].
  - intros tail j Hj fuel stack. rewrite skipn_nil in Hj. subst tail. cbn. unfold QueryModel.len, QueryModel.at_. rewrite Hp. cbn.
    destruct stack; [reflexivity |]. destruct (inner root ctxs fuel _ _ _); reflexivity.
  - induction tail as [| c tail IHt]; intros j Hj fuel stack.
    + apply skipn_end in Hj. cbn [costs map list_sum fold_right plus inner pres filter]. rewrite (len_at _ _ Hp). cbn [children].
      replace (j <? length cs) with false by lia. destruct stack; [reflexivity |]. destruct (inner root ctxs fuel _ _ _); reflexivity.
    + apply skipn_next in Hj. destruct Hj as [E1 [E2 E3]].
      assert (Hc : node_at root (p ++ [j]) = Some c) by (rewrite (node_at_snoc _ _ _ _ Hp); exact E1).
      assert (Hcost : costs (c :: tail) = cost c + costs tail) by reflexivity. rewrite Hcost.
      assert (cost c >= 1) by (destruct c; cbn; lia).
      replace (cost c + costs tail + S fuel) with (S (cost c - 1 + (costs tail + S fuel))) by lia.
      cbn [inner pres]. rewrite (len_at _ _ Hp). cbn [children]. replace (j <? length cs) with true by lia.
      rewrite (is_context_at _ _ Hc). rewrite filter_app.
      destruct c as [t | cl ccs].
      * cbn [cost]. replace (1 - 1 + (costs tail + S fuel)) with (costs tail + S fuel) by lia.
        replace (j + 1) with (S j) by lia. rewrite (IHt (S j) E2). cbn [pre filter]. unfold keep. rewrite (is_context_at _ _ Hc).
        destruct ctxs; destruct (match stack with [] => Some [] | i :: st => _ end); reflexivity.
      * rewrite cost_ctx. replace (2 + costs ccs - 1 + (costs tail + S fuel)) with (costs ccs + S (costs tail + S fuel)) by lia.
        rewrite Forall_forall in IHn. rewrite (IHn (Ctx cl ccs) (nth_error_In _ _ E1) _ Hc ccs 0 eq_refl).
        rewrite removelast_last. replace (j + 1) with (S j) by lia. rewrite (IHt (S j) E2). rewrite pre_ctx. cbn [filter].
        replace (keep ctxs (p ++ [j])) with true by (unfold keep; rewrite (is_context_at _ _ Hc); now destruct ctxs).
        rewrite onto_onto. destruct (match stack with [] => Some [] | i :: st => _ end); reflexivity.
Qed.

Lemma inner_all ctxs p l cs : node_at root p = Some (Ctx l cs) ->
  inner root ctxs (fuel_for root p) p 0 [] = Some (filter (keep ctxs) (pres p 0 cs)).
Proof.
  intros Hp. unfold fuel_for, QueryModel.at_. rewrite Hp. pose proof (cost_size (Ctx l cs)) as C. rewrite cost_ctx in C.
  replace (2 * size (Ctx l cs)) with (costs cs + S (2 * size (Ctx l cs) - costs cs - 1)) by lia.
  rewrite (inner_from ctxs _ _ Hp cs 0 eq_refl). cbn [onto]. now rewrite app_nil_r.
Qed.

Lemma kids_at p n : node_at root p = Some n -> kids p = map (fun i => p ++ [i]) (seq 0 (length (children n))).
Proof. intros H. unfold QueryModel.kids. now rewrite (len_at _ _ H). Qed.

Lemma tokens_from : forall n p, node_at root p = Some n ->
  forall tail j, skipn j (children n) = tail -> forall fuel stack,
  tokens_below root (costs tail + S fuel) stack (map (fun i => p ++ [i]) (seq j (length tail))) =
  onto (filter is_token (pres p j tail))
       (match stack with [] => Some [] | g :: st => tokens_below root fuel st g end).
Proof.
  induction n as [t | l cs IHn] using node_ind'; intros p Hp; cbn [children].
  - intros tail j Hj fuel stack. rewrite skipn_nil in Hj. subst tail. cbn.
    destruct stack; [reflexivity |]. destruct (tokens_below root fuel _ _); reflexivity.
  - induction tail as [| c tail IHt]; intros j Hj fuel stack.
    + cbn [costs map list_sum fold_right plus tokens_below pres filter length seq].
      destruct stack; [reflexivity |]. destruct (tokens_below root fuel _ _); reflexivity.
    + apply skipn_next in Hj. destruct Hj as [E1 [E2 E3]].
      assert (Hc : node_at root (p ++ [j]) = Some c) by (rewrite (node_at_snoc _ _ _ _ Hp); exact E1).
      assert (Hcost : costs (c :: tail) = cost c + costs tail) by reflexivity. rewrite Hcost.
      assert (cost c >= 1) by (destruct c; cbn; lia).
      replace (cost c + costs tail + S fuel) with (S (cost c - 1 + (costs tail + S fuel))) by lia.
      cbn [length seq map tokens_below pres]. rewrite (is_token_at _ _ Hc). rewrite filter_app.
      destruct c as [t | cl ccs].
      * cbn [cost]. replace (1 - 1 + (costs tail + S fuel)) with (costs tail + S fuel) by lia.
        rewrite (IHt (S j) E2). cbn [pre filter]. rewrite (is_token_at _ _ Hc).
        destruct (match stack with [] => Some [] | g :: st => _ end); reflexivity.
      * rewrite cost_ctx. replace (2 + costs ccs - 1 + (costs tail + S fuel)) with (costs ccs + S (costs tail + S fuel)) by lia.
        rewrite Forall_forall in IHn. rewrite (kids_at _ _ Hc). cbn [children].
        rewrite (IHn (Ctx cl ccs) (nth_error_In _ _ E1) _ Hc ccs 0 eq_refl).
        rewrite (IHt (S j) E2). rewrite pre_ctx. cbn [filter]. rewrite (is_token_at _ _ Hc). now rewrite onto_onto.
Qed.

Lemma tokens_all p l cs : node_at root p = Some (Ctx l cs) ->
  tokens_below root (fuel_for root p) [] (kids p) = Some (filter is_token (pres p 0 cs)).
Proof.
  intros Hp. unfold fuel_for, QueryModel.at_. rewrite Hp. pose proof (cost_size (Ctx l cs)) as C. rewrite cost_ctx in C.
  replace (2 * size (Ctx l cs)) with (costs cs + S (2 * size (Ctx l cs) - costs cs - 1)) by lia.
  rewrite (kids_at _ _ Hp). cbn [children].
  rewrite (tokens_from _ _ Hp cs 0 eq_refl). cbn [onto]. now rewrite app_nil_r.
Qed.

(** * The preorder is the document order *)

Lemma pre_in n : forall p, node_at root p = Some n -> forall q, In q (pre p n) <-> prefix p q /\ node_at root q <> None.
Proof.
  induction n as [t | l cs IH] using node_ind'; intros p Hp q.
  - cbn. split.
    + intros [<- | []]. split; [apply prefix_refl | congruence].
    + intros [[r ->] V]. rewrite node_at_app, Hp in V. destruct r as [| i r]; [left; now rewrite app_nil_r |].
      cbn in V. destruct i; now contradiction V.
  - rewrite pre_ctx.
    assert (X : forall tail j, skipn j cs = tail -> (In q (pres p j tail) <-> (exists i r, j <= i /\ q = p ++ i :: r) /\ node_at root q <> None)).
    { induction tail as [| c tail IHt]; intros j Hj.
      - apply skipn_end in Hj. cbn. split; [contradiction |]. intros [[i [r [Hi ->]]] V].
        rewrite node_at_app, Hp in V. cbn in V. replace (nth_error cs i) with (@None node) in V; [congruence |].
        symmetry. apply nth_error_None. lia.
      - apply skipn_next in Hj. destruct Hj as [E1 [E2 E3]]. cbn [pres]. rewrite in_app_iff.
        assert (Hc : node_at root (p ++ [j]) = Some c) by (rewrite (node_at_snoc _ _ _ _ Hp); exact E1).
        rewrite Forall_forall in IH. rewrite (IH c (nth_error_In _ _ E1) _ Hc), (IHt (S j) E2). split.
        + intros [[[r ->] V] | [[i [r [Hi ->]]] V]].
          * split; [| exact V]. exists j, r. split; [lia | now rewrite <- app_assoc].
          * split; [| exact V]. exists i, r. split; [lia | reflexivity].
        + intros [[i [r [Hi ->]]] V]. destruct (Nat.eq_dec i j) as [-> | D].
          * left. split; [exists r; now rewrite <- app_assoc | exact V].
          * right. split; [| exact V]. exists i, r. split; [lia | reflexivity]. }
    cbn [In]. rewrite (X cs 0 eq_refl). split.
    + intros [<- | [[i [r [_ ->]]] V]]; [split; [apply prefix_refl | congruence] | split; [now exists (i :: r) | exact V]].
    + intros [[r ->] V]. destruct r as [| i r]; [left; now rewrite app_nil_r |]. right. split; [| exact V]. exists i, r. split; [lia | reflexivity].
Qed.

Lemma pre_prefix : forall n p q, In q (pre p n) -> prefix p q.
Proof.
  induction n as [t | l cs IH] using node_ind'; intros p q.
  - cbn. intros [<- | []]. apply prefix_refl.
  - rewrite pre_ctx. intros [<- | H]; [apply prefix_refl |]. revert H. generalize 0.
    induction IH as [| c cs Hc _ IHc]; intros i; cbn [pres]; [contradiction |]. rewrite in_app_iff.
    intros [H | H]; [| exact (IHc (S i) H)]. apply Hc in H. apply (prefix_trans p (p ++ [i])); [now exists [i] | exact H].
Qed.
Lemma pres_in p j cs q : In q (pres p j cs) -> exists i r, j <= i /\ q = p ++ i :: r.
Proof.
  revert j. induction cs as [| c cs IH]; intros j; cbn [pres]; [contradiction |]. rewrite in_app_iff. intros [H | H].
  - apply pre_prefix in H. destruct H as [r ->]. exists j, r. split; [lia | now rewrite <- app_assoc].
  - destruct (IH (S j) H) as [i [r [Hi ->]]]. exists i, r. split; [lia | reflexivity].
Qed.

Lemma sorted_app {T} (R : T -> T -> Prop) a b : StronglySorted R a -> StronglySorted R b ->
  (forall x y, In x a -> In y b -> R x y) -> StronglySorted R (a ++ b).
Proof.
  induction a as [| x a IH]; intros Ha Hb H; cbn [app]; [exact Hb |]. inversion Ha; subst. constructor.
  - apply IH; auto. intros u v Hu Hv. apply H; [now right | exact Hv].
  - apply Forall_app. split; [assumption |]. apply Forall_forall. intros y Hy. apply H; [now left | exact Hy].
Qed.

Lemma pre_sorted n : forall p, StronglySorted before (pre p n).
Proof.
  induction n as [t | l cs IH] using node_ind'; intros p; [cbn; repeat constructor |]. rewrite pre_ctx. constructor.
  - generalize 0. induction IH as [| c cs Hc _ IHc]; intros j; cbn [pres]; [constructor |].
    apply sorted_app; [apply Hc | apply IHc |]. intros x y Hx Hy.
    apply pres_in in Hy. destruct Hy as [i [r [Hi ->]]].
    assert (exists s, x = p ++ j :: s) as [s ->].
    { apply pre_prefix in Hx. destruct Hx as [s ->]. exists s. now rewrite <- app_assoc. }
    right. exists p, j, i, s, r. repeat split. lia.
  - apply Forall_forall. intros q Hq. apply pres_in in Hq. destruct Hq as [i [r [_ ->]]]. left. now exists i, r.
Qed.

Lemma pre_order p n : node_at root p = Some n -> document_order root p (pre p n).
Proof. intros H. split; [apply pre_sorted |]. intros q. apply pre_in, H. Qed.

(** A strictly sorted list is determined by its members. *)
Lemma before_irrefl p : ~ before p p.
Proof.
  intros [[i [r E]] | [c [i [j [r [s [E1 [E2 H]]]]]]]].
  - apply (f_equal (@length nat)) in E. rewrite app_length in E. cbn in E. lia.
  - rewrite E1 in E2. apply app_inv_head in E2. injection E2 as -> _. lia.
Qed.

Theorem all_ok ns : Forall (valid root) ns ->
  exists ls, Forall2 (document_order root) ns ls /\ q_all root ns = Some (concat ls) /\
    q_alltokens root ns = Some (filter is_token (concat ls)) /\ q_allcontexts root ns = Some (filter is_context (concat ls)).
Proof.
  induction ns as [| p ns IH]; intros V.
  - exists []. repeat split; constructor.
  - inversion V as [| x y Vp Vn]; subst. destruct (IH Vn) as [ls [H1 [H2 [H3 H4]]]].
    destruct (node_at root p) as [n |] eqn:Hp; [| now contradiction Vp].
    exists (pre p n :: ls). split; [constructor; [now apply pre_order | exact H1] |].
    unfold q_all, q_alltokens, q_allcontexts in *. cbn [each concat]. rewrite H2, H3, H4, !filter_app.
    rewrite (is_context_at _ _ Hp), (is_token_at _ _ Hp). destruct n as [t | l cs].
    + cbn [pre filter]. rewrite (is_context_at _ _ Hp), (is_token_at _ _ Hp). repeat split.
    + rewrite (inner_all false _ _ _ Hp), (inner_all true _ _ _ Hp), (tokens_all _ _ _ Hp). rewrite pre_ctx. cbn [filter].
      rewrite (is_context_at _ _ Hp), (is_token_at _ _ Hp).
      replace (filter (keep false) (pres p 0 cs)) with (pres p 0 cs); [repeat split |].
      symmetry. clear. induction (pres p 0 cs) as [| x l IH]; [reflexivity |]. cbn. now rewrite IH.
Qed.

(** * Selections *)

Lemma uniq_loop_snoc n : forall ns seen,
  uniq_loop seen (ns ++ [n]) = if mem n seen || mem n ns then uniq_loop seen ns else uniq_loop seen ns ++ [n].
Proof.
  induction ns as [| m ns IH]; intros seen; cbn [app uniq_loop].
  - cbn. rewrite orb_false_r. now destruct (mem n seen).
  - destruct (mem m seen) eqn:Em.
    + rewrite IH. destruct (mem n seen) eqn:En; [reflexivity |]. cbn [orb]. cbn [mem existsb].
      destruct (path_eqb n m) eqn:E; [| reflexivity]. apply path_eqb_ok in E. congruence.
    + rewrite IH. cbn [mem existsb]. destruct (path_eqb n m) eqn:E; cbn [orb].
      * now rewrite orb_true_r.
      * unfold mem. destruct (existsb (path_eqb n) seen || existsb (path_eqb n) ns); reflexivity.
Qed.
Lemma uniq_snoc ns n : (In n ns -> q_uniq (ns ++ [n]) = q_uniq ns) /\ (~ In n ns -> q_uniq (ns ++ [n]) = q_uniq ns ++ [n]).
Proof.
  unfold q_uniq. rewrite uniq_loop_snoc. cbn [mem existsb orb]. split; intros H.
  - apply mem_ok in H. now rewrite H.
  - apply mem_no in H. now rewrite H.
Qed.
Lemma uniq_in ns n : In n (q_uniq ns) <-> In n ns.
Proof.
  induction ns as [| m ns IH] using rev_ind; [reflexivity |]. rewrite in_app_iff. cbn [In].
  destruct (uniq_snoc ns m) as [A1 A2]. destruct (mem m ns) eqn:E.
  - apply mem_ok in E. rewrite (A1 E), IH. split; [auto | intros [X | [<- | []]]; auto].
  - apply mem_no in E. rewrite (A2 E), in_app_iff, IH. reflexivity.
Qed.
Lemma nodup_snoc {T} (l : list T) x : NoDup l -> ~ In x l -> NoDup (l ++ [x]).
Proof.
  induction l as [| y l IH]; intros H N; cbn [app]; [constructor; [auto | constructor] |]. inversion H; subst. constructor.
  - rewrite in_app_iff. intros [X | [<- | []]]; [contradiction | apply N; now left].
  - apply IH; [assumption |]. intros X. apply N. now right.
Qed.
Lemma uniq_nodup ns : NoDup (q_uniq ns).
Proof.
  induction ns as [| m ns IH] using rev_ind; [constructor |].
  destruct (uniq_snoc ns m) as [A1 A2]. destruct (mem m ns) eqn:E.
  - apply mem_ok in E. now rewrite (A1 E).
  - apply mem_no in E. rewrite (A2 E). apply nodup_snoc; [exact IH |]. now rewrite uniq_in.
Qed.

Lemma ancs_eq n : ancs n = map (fun d => firstn d n) (rev (seq 0 (length n))).
Proof.
  unfold ancs, ancestors. f_equal. generalize (length n). intros k. induction k as [| k IH]; [reflexivity |].
  cbn [ancestors_from]. rewrite seq_S, rev_app_distr. cbn [rev app plus]. f_equal. exact IH.
Qed.
Lemma ancs_in a n : In a (ancs n) <-> below a n.
Proof.
  rewrite ancs_eq, in_map_iff. split.
  - intros [d [<- H]]. apply in_rev in H. apply in_seq in H.
    destruct (skipn d n) as [| i r] eqn:E; [apply skipn_end in E; lia |]. exists i, r. rewrite <- E. symmetry. apply firstn_skipn.
  - intros [i [r ->]]. exists (length a). split; [now rewrite firstn_app, Nat.sub_diag, firstn_all, app_nil_r |].
    apply -> in_rev. apply in_seq. rewrite app_length. cbn. lia.
Qed.

Lemma remove_descendants_ok ns : exists keep, q_remove_descendants ns = filter keep ns /\
  forall n, keep n = true <-> ~ exists a, In a ns /\ below a n.
Proof.
  unfold q_remove_descendants. eexists. split; [reflexivity |]. intros n. cbv beta. rewrite negb_true_iff. split.
  - intros H [a [H1 H2]]. assert (X : existsb (fun p => mem p ns) (ancs n) = true); [| congruence].
    apply existsb_exists. exists a. split; [now apply ancs_in | now apply mem_ok].
  - intros H. destruct (existsb _ _) eqn:E; [exfalso | reflexivity]. apply existsb_exists in E. destruct E as [a [H1 H2]].
    apply H. exists a. split; [now apply mem_ok | now apply ancs_in].
Qed.
Lemma remove_ancestors_ok ns : exists keep, q_remove_ancestors ns = filter keep ns /\
  forall n, In n ns -> (keep n = true <-> ~ exists d, In d ns /\ below n d).
Proof.
  unfold q_remove_ancestors. eexists. split; [reflexivity |]. intros n Hn. cbv beta. rewrite negb_true_iff.
  apply mem_ok in Hn. rewrite Hn. cbn [andb]. rewrite mem_no. unfold q_ancestors. rewrite in_flat_map. split; intros H [d [H1 H2]]; apply H; exists d;
    (split; [exact H1 | now apply ancs_in]).
Qed.

(** ** Inverting *)

Lemma sel_token_inverted test : inverted (fun n => exists t, node_at root n = Some (Tok t)) (fun inv => sel_token root inv test).
Proof.
  unfold sel_token. do 2 eexists. split; [intros ns; reflexivity |]. split; [intros ns; reflexivity |]. intros n. cbv beta. unfold QueryModel.at_.
  destruct (node_at root n) as [[t | l cs] |].
  - destruct (test t); cbn; split; [split; [eauto | auto] | intros []; discriminate | split; [eauto | auto] | intros []; discriminate].
  - split; [split; [intros []; discriminate | intros [t E]; discriminate] | intros []; discriminate].
  - split; [split; [intros []; discriminate | intros [t E]; discriminate] | intros []; discriminate].
Qed.
Lemma sel_context_inverted test : inverted (fun n => exists l cs, node_at root n = Some (Ctx l cs)) (fun inv => sel_context root inv test).
Proof.
  unfold sel_context. do 2 eexists. split; [intros ns; reflexivity |]. split; [intros ns; reflexivity |]. intros n. cbv beta.
  unfold QueryModel.is_context, QueryModel.at_.
  destruct (node_at root n) as [[t | l cs] |]; cbn [andb].
  - split; [split; [intros []; discriminate | intros [l [cs E]]; discriminate] | intros []; discriminate].
  - destruct (test n); cbn; split; [split; [eauto | auto] | intros []; discriminate | split; [eauto | auto] | intros []; discriminate].
  - split; [split; [intros []; discriminate | intros [l [cs E]]; discriminate] | intros []; discriminate].
Qed.
Lemma call_inverted l_eqb texts lexicons : inverted (valid root) (fun inv => q_call root l_eqb inv texts lexicons).
Proof.
  unfold q_call. do 2 eexists. split; [intros ns; reflexivity |]. split; [intros ns; reflexivity |]. intros n. cbv beta.
  unfold QueryModel.at_, valid. destruct (node_at root n) as [[t | l cs] |].
  - destruct (existsb _ texts); cbn; split; [split; [congruence | auto] | intros []; discriminate | split; [congruence | auto] | intros []; discriminate].
  - destruct (existsb _ lexicons); cbn; split; [split; [congruence | auto] | intros []; discriminate | split; [congruence | auto] | intros []; discriminate].
  - split; [split; [intros []; discriminate | congruence] | intros []; discriminate].
Qed.

Lemma starts_with_ok text s : starts_with text s = true <-> exists r, s = text ++ r.
Proof.
  revert s. induction text as [| a text IH]; intros s; cbn [starts_with].
  - split; [intros _; now exists s | reflexivity].
  - destruct s as [| b s]; [split; [discriminate | intros [r E]; discriminate] |]. rewrite andb_true_iff, Nat.eqb_eq, IH. split.
    + intros [-> [r ->]]. now exists r.
    + intros [r E]. cbn in E. injection E as -> ->. split; [reflexivity | now exists r].
Qed.
Lemma ends_with_ok text s : ends_with text s = true <-> exists r, s = r ++ text.
Proof.
  unfold ends_with. rewrite starts_with_ok. split; intros [r E].
  - exists (rev r). rewrite <- (rev_involutive s), E, rev_app_distr, rev_involutive. reflexivity.
  - exists (rev r). now rewrite E, rev_app_distr.
Qed.
Lemma contains_ok text s : contains text s = true <-> exists a b, s = a ++ text ++ b.
Proof.
  induction s as [| c s IH]; cbn [contains].
  - rewrite orb_false_r, starts_with_ok. split.
    + intros [r E]. now exists [], r.
    + intros [a [b E]]. symmetry in E. apply app_eq_nil in E. destruct E as [_ E]. exists b. now symmetry.
  - rewrite orb_true_iff, starts_with_ok, IH. split.
    + intros [[r E] | [a [b E]]]; [now exists [], r | exists (c :: a), b; now rewrite E].
    + intros [[| x a] [b E]]; cbn [app] in E; [left; now exists b |]. injection E as -> ->. right. now exists a, b.
Qed.

Lemma sel_token_in inv test ns n : In n (sel_token root inv test ns) <->
  In n ns /\ exists t, node_at root n = Some (Tok t) /\ xorb inv (test t) = true.
Proof.
  unfold sel_token. rewrite filter_In. unfold QueryModel.at_. destruct (node_at root n) as [[t | l cs] |].
  - split; [intros [H E]; eauto | intros [H [t' [E1 E2]]]; injection E1 as ->; auto].
  - split; [intros [_ E]; discriminate | intros [_ [t' [E1 _]]]; discriminate].
  - split; [intros [_ E]; discriminate | intros [_ [t' [E1 _]]]; discriminate].
Qed.

(** ** range *)

Lemma range_fold ns : forall a b,
  let '(pos, end_) := fold_left (fun '(pos, end_) n => (Z.min pos (Z.of_nat (pos_of root n)), Z.max end_ (Z.of_nat (end_of root n)))) ns (a, b) in
  (forall n, In n ns -> (pos <= Z.of_nat (pos_of root n))%Z /\ (Z.of_nat (end_of root n) <= end_)%Z) /\ (pos <= a)%Z /\ (b <= end_)%Z /\
  (pos = a \/ exists n, In n ns /\ pos = Z.of_nat (pos_of root n)) /\ (end_ = b \/ exists n, In n ns /\ end_ = Z.of_nat (end_of root n)).
Proof.
  induction ns as [| m ns IH]; intros a b; cbn [fold_left].
  - repeat split; try lia; try contradiction; auto.
  - specialize (IH (Z.min a (Z.of_nat (pos_of root m))) (Z.max b (Z.of_nat (end_of root m)))).
    destruct (fold_left _ ns _) as [pos end_]. destruct IH as [H1 [H2 [H3 [H4 H5]]]].
    split; [| split; [lia | split; [lia | split]]].
    + intros n [<- | Hn]; [lia | now apply H1].
    + destruct H4 as [-> | [n [Hn ->]]].
      * destruct (Z.min_spec a (Z.of_nat (pos_of root m))) as [[_ ->] | [_ ->]]; [now left | right; exists m; split; [now left | reflexivity]].
      * right. exists n. split; [now right | reflexivity].
    + destruct H5 as [-> | [n [Hn ->]]].
      * destruct (Z.max_spec b (Z.of_nat (end_of root m))) as [[_ ->] | [_ ->]]; [right; exists m; split; [now left | reflexivity] | now left].
      * right. exists n. split; [now right | reflexivity].
Qed.
Lemma range_ok ns pos end_ : ns <> [] -> q_range root ns = (pos, end_) ->
  (forall n, In n ns -> (pos <= Z.of_nat (pos_of root n))%Z /\ (Z.of_nat (end_of root n) <= end_)%Z) /\
  (exists n, In n ns /\ pos = Z.of_nat (pos_of root n)) /\ (exists n, In n ns /\ end_ = Z.of_nat (end_of root n)).
Proof.
  destruct ns as [| m ns]; [congruence |]. intros _. cbn [q_range]. intros E.
  pose proof (range_fold ns (Z.of_nat (pos_of root m)) (Z.of_nat (end_of root m))) as H. rewrite E in H.
  destruct H as [H1 [H2 [H3 [H4 H5]]]]. split; [| split].
  - intros n [<- | Hn]; [lia | now apply H1].
  - destruct H4 as [-> | [n [Hn ->]]]; [exists m | exists n]; (split; [cbn; auto | reflexivity]).
  - destruct H5 as [-> | [n [Hn ->]]]; [exists m | exists n]; (split; [cbn; auto | reflexivity]).
Qed.

(** * Siblings *)

Lemma split_snoc (p : path) i : split_path (p ++ [i]) = Some (p, i).
Proof. unfold split_path, last_opt. rewrite rev_app_distr. cbn [rev app]. now rewrite removelast_last. Qed.

Lemma valid_child p i : valid root (p ++ [i]) -> exists l cs, node_at root p = Some (Ctx l cs) /\ i < length cs.
Proof.
  unfold valid. rewrite node_at_app. destruct (node_at root p) as [[t | l cs] |] eqn:E; cbn.
  - destruct i; now intros X.
  - intros H. exists l, cs. split; [reflexivity |]. apply nth_error_Some. destruct (nth_error cs i); congruence.
  - now intros X.
Qed.
Lemma child_valid p i l cs : node_at root p = Some (Ctx l cs) -> (valid root (p ++ [i]) <-> i < length cs).
Proof.
  intros E. unfold valid. rewrite (node_at_snoc _ _ _ _ E). cbn [children]. apply nth_error_Some.
Qed.
Lemma index_of_ok p i : wf_children (children root) -> valid root (p ++ [i]) -> index_of root (p ++ [i]) = Some i.
Proof.
  intros W V. destruct (valid_child _ _ V) as [l [cs [E H]]]. unfold index_of. rewrite split_snoc. unfold QueryModel.at_. rewrite E. cbn [children].
  apply parent_index_ok; [eapply wf_at; eassumption | exact H].
Qed.
Lemma wf_truth p : wf_children (children root) -> p <> [] -> truth root p = true.
Proof.
  intros W N. unfold truth, QueryModel.at_. destruct (node_at root p) as [[t | l [| c cs]] |] eqn:E; try reflexivity.
  - destruct (k_text t) eqn:Et; [exfalso | reflexivity].
    destruct p as [| i p _] using rev_ind; [congruence |].
    destruct (valid_child p i) as [l' [cs [E' H]]]; [unfold valid; congruence |].
    rewrite (node_at_snoc _ _ _ _ E') in E. cbn [children] in E.
    pose proof (wf_at _ _ _ _ _ _ W E') as [_ [_ F]]. rewrite Forall_forall in F. apply (F t); [| exact Et].
    unfold flat. apply in_concat. exists [t]. split; [| left; reflexivity].
    change [t] with (flatten (Tok t : node)). apply in_map. apply (nth_error_In _ _ E).
  - exfalso. destruct p as [| i p _] using rev_ind; [congruence |].
    destruct (valid_child p i) as [l' [cs [E' H]]]; [unfold valid; congruence |].
    rewrite (node_at_snoc _ _ _ _ E') in E. cbn [children] in E.
    pose proof (wf_at _ _ _ _ _ _ W E') as [F _]. rewrite Forall_forall in F. specialize (F _ (nth_error_In _ _ E)). inversion F. congruence.
Qed.

Theorem siblings_of p i : wf_children (children root) -> valid root (p ++ [i]) ->
  q_right root [p ++ [i]] = Some (if S i <? len p then [p ++ [S i]] else []) /\
  q_left root [p ++ [i]] = Some (match i with 0 => [] | S k => [p ++ [k]] end) /\
  q_right_siblings root [p ++ [i]] = Some (map (fun k => p ++ [k]) (seq (S i) (len p - S i))) /\
  q_left_siblings root [p ++ [i]] = Some (map (fun k => p ++ [k]) (rev (seq 0 i))).
Proof.
  intros W V. destruct (valid_child _ _ V) as [l [cs [E H]]]. pose proof (index_of_ok p i W V) as X. pose proof (len_at _ _ E) as Y. cbn [children] in Y.
  assert (Hk : forall a b c, skipn a (map (fun k => p ++ [k]) (seq b c)) = map (fun k => p ++ [k]) (seq (b + a) (c - a))).
  { induction a as [| a IHa]; intros b c; cbn [skipn]; [now rewrite Nat.add_0_r, Nat.sub_0_r |].
    destruct c as [| c]; [reflexivity |]. cbn [seq map]. rewrite IHa. f_equal. f_equal; lia. }
  unfold q_right, q_left, q_right_siblings, q_left_siblings. cbn [each]. rewrite split_snoc, X, Y. repeat split.
  - destruct (i =? length cs - 1) eqn:Z1.
    + replace (S i <? length cs) with false by lia. reflexivity.
    + replace (i + 1 <? length cs) with true by lia. replace (S i <? length cs) with true by lia.
      rewrite (wf_truth _ W) by (now destruct p). replace (i + 1) with (S i) by lia. reflexivity.
  - destruct i as [| k]; [reflexivity |]. cbn [Nat.eqb]. rewrite (wf_truth _ W) by (now destruct p). reflexivity.
  - unfold QueryModel.kids. rewrite Y. destruct (i =? length cs - 1) eqn:Z1.
    + replace (length cs - S i) with 0 by lia. reflexivity.
    + rewrite app_nil_r, Hk. replace (0 + (i + 1)) with (S i) by lia. replace (length cs - (i + 1)) with (length cs - S i) by lia. reflexivity.
  - unfold QueryModel.kids. rewrite Y. destruct i as [| k]; [reflexivity |]. cbn [Nat.eqb]. rewrite app_nil_r, map_rev.
    rewrite firstn_map. do 3 f_equal. replace (length cs) with (S k + (length cs - S k)) by lia. rewrite seq_app.
    pose proof (firstn_all (seq 0 (S k))) as F. rewrite seq_length in F. rewrite firstn_app, F, seq_length, Nat.sub_diag. apply app_nil_r.
Qed.


(** * Statements about all selectors *)

Theorem selected_ok l_eqb a_eqb (isin : A -> A -> bool) ns n :
  (forall s, In n (q_startingwith root false s ns) <-> In n ns /\ exists t, node_at root n = Some (Tok t) /\ exists r, k_text t = s ++ r) /\
  (forall s, In n (q_endingwith root false s ns) <-> In n ns /\ exists t, node_at root n = Some (Tok t) /\ exists r, k_text t = r ++ s) /\
  (forall s, In n (q_containing root false s ns) <-> In n ns /\ exists t, node_at root n = Some (Tok t) /\ exists a b, k_text t = a ++ s ++ b) /\
  (forall search, In n (q_matching root false search ns) <-> In n ns /\ exists t, node_at root n = Some (Tok t) /\ search (k_text t) = true) /\
  (forall acts, (forall a b, a_eqb a b = true <-> a = b) ->
     (In n (q_action root a_eqb false acts ns) <-> In n ns /\ exists t, node_at root n = Some (Tok t) /\ In (k_act t) acts)) /\
  (forall acts, In n (q_in_action root false isin acts ns) <->
     In n ns /\ exists t, node_at root n = Some (Tok t) /\ exists a, In a acts /\ isin (k_act t) a = true) /\
  (forall texts lexs, (forall a b, l_eqb a b = true <-> a = b) ->
     (In n (q_call root l_eqb false texts lexs ns) <-> In n ns /\
        ((exists t, node_at root n = Some (Tok t) /\ In (k_text t) texts) \/ (exists l cs, node_at root n = Some (Ctx l cs) /\ In l lexs)))) /\
  (forall k, In n (q_len root false k None ns) <-> In n ns /\ exists l cs, node_at root n = Some (Ctx l cs) /\ length cs = k) /\
  (forall k m, In n (q_len root false k (Some m) ns) <-> In n ns /\ exists l cs, node_at root n = Some (Ctx l cs) /\ k <= length cs <= m) /\
  (In n (q_tokens root ns) <-> In n ns /\ exists t, node_at root n = Some (Tok t)) /\
  (In n (q_contexts root ns) <-> In n ns /\ exists l cs, node_at root n = Some (Ctx l cs)).
Proof.
  assert (T : forall test (P : tok A -> Prop), (forall t, test t = true <-> P t) ->
    (In n (sel_token root false test ns) <-> In n ns /\ exists t, node_at root n = Some (Tok t) /\ P t)).
  { intros test P H. rewrite sel_token_in. split; intros [H1 [t [H2 H3]]]; (split; [exact H1 |]); exists t; (split; [exact H2 |]);
      rewrite xorb_false_l in *; now apply H. }
  assert (M : forall a_eqb (acts : list A) a, (forall a b, a_eqb a b = true <-> a = b) -> (existsb (a_eqb a) acts = true <-> In a acts)).
  { intros eqb acts a H. rewrite existsb_exists. split; [intros [b [H1 H2]]; apply H in H2; congruence | intros H1; exists a; split; [exact H1 | now apply H]]. }
  assert (C : forall test (P : list node -> Prop), (forall l cs, node_at root n = Some (Ctx l cs) -> (test n = true <-> P cs)) ->
    (In n (sel_context root false test ns) <-> In n ns /\ exists l cs, node_at root n = Some (Ctx l cs) /\ P cs)).
  { intros test P H. unfold sel_context. rewrite filter_In, andb_true_iff, xorb_false_l. unfold QueryModel.is_context, QueryModel.at_.
    destruct (node_at root n) as [[t | l cs] |].
    - split; [intros [_ [E _]]; discriminate | intros [_ [l [cs [E _]]]]; discriminate].
    - split; [intros [H1 [_ H2]]; split; [exact H1 |]; exists l, cs; split; [reflexivity | now apply (H l cs)] |].
      intros [H1 [l' [cs' [E H2]]]]. injection E as -> ->. repeat split; [exact H1 | now apply (H l' cs')].
    - split; [intros [_ [E _]]; discriminate | intros [_ [l [cs [E _]]]]; discriminate]. }
  repeat match goal with |- _ /\ _ => split end.
  - intros s. apply T. intros t. apply starts_with_ok.
  - intros s. apply T. intros t. apply ends_with_ok.
  - intros s. apply T. intros t. apply contains_ok.
  - intros search. apply T. intros t. reflexivity.
  - intros acts H. apply T. intros t. now apply M.
  - intros acts. apply T. intros t. apply existsb_exists.
  - intros texts lexs H. unfold q_call. rewrite filter_In. unfold QueryModel.at_.
    assert (St : forall t, existsb (str_eqb t) texts = true <-> In t texts).
    { intros t. rewrite existsb_exists. split.
      - intros [u [H1 H2]]. apply path_eqb_ok in H2. congruence.
      - intros H1. exists t. split; [exact H1 | now apply path_eqb_ok]. }
    destruct (node_at root n) as [[t | l cs] |]; rewrite ?xorb_false_l.
    + rewrite St. split; intros [H1 H2]; (split; [exact H1 |]).
      * left. eauto.
      * destruct H2 as [[u [E H2]] | [l [cs [E _]]]]; [injection E as ->; exact H2 | discriminate].
    + rewrite existsb_exists. split; intros [H1 H2]; (split; [exact H1 |]).
      * destruct H2 as [x [H2 H3]]. apply H in H3. subst x. right. eauto.
      * destruct H2 as [[u [E H2]] | [l' [cs' [E H2]]]]; [discriminate |]. injection E as -> ->. exists l'. split; [exact H2 | now apply H].
    + split; [intros [_ E]; discriminate | intros [_ [[u [E _]] | [l [cs [E _]]]]]; discriminate].
  - intros k. apply C. intros l cs E. rewrite (len_at _ _ E). cbn [children]. apply Nat.eqb_eq.
  - intros k m. apply C. intros l cs E. rewrite (len_at _ _ E). cbn [children]. rewrite andb_true_iff, !Nat.leb_le. reflexivity.
  - unfold q_tokens. rewrite filter_In. unfold QueryModel.is_token, QueryModel.at_. destruct (node_at root n) as [[t | l cs] |].
    + split; intros [H _]; split; eauto.
    + split; intros [_ H]; [discriminate | destruct H as [t H]; discriminate].
    + split; intros [_ H]; [discriminate | destruct H as [t H]; discriminate].
  - unfold q_contexts. rewrite filter_In. unfold QueryModel.is_context, QueryModel.at_. destruct (node_at root n) as [[t | l cs] |].
    + split; intros [_ H]; [discriminate | destruct H as [l [cs H]]; discriminate].
    + split; intros [H _]; split; eauto.
    + split; intros [_ H]; [discriminate | destruct H as [l [cs H]]; discriminate].
Qed.

Theorem relatives_ok n m : node_at root n = Some m ->
  let child i := n ++ [i] in let k := length (children m) in
  q_children root [n] = map child (seq 0 k) /\
  (forall i, q_item root (Z.of_nat i) [n] = if i <? k then [child i] else []) /\
  (forall i, 0 < i -> q_item root (- Z.of_nat i)%Z [n] = if i <=? k then [child (k - i)] else []) /\
  q_first root [n] = (if 0 <? k then [child 0] else []) /\ q_last root [n] = (if 0 <? k then [child (k - 1)] else []) /\
  (q_parent [[]] = [] /\ forall i, q_parent [child i] = [n]) /\
  (forall a, In a (q_ancestors [n]) <-> below a n) /\ StronglySorted (fun a b => below b a) (q_ancestors [n]) /\
  (wf_children (children root) -> forall i, i < k ->
     q_right root [child i] = Some (if S i <? k then [child (S i)] else []) /\
     q_left root [child i] = Some (match i with 0 => [] | S j => [child j] end) /\
     q_right_siblings root [child i] = Some (map child (seq (S i) (k - S i))) /\
     q_left_siblings root [child i] = Some (map child (rev (seq 0 i)))).
Proof.
  intros Hn child k. pose proof (len_at _ _ Hn) as Hl. fold k in Hl. pose proof (is_context_at _ _ Hn) as Hc.
  assert (Hk0 : is_context n = false -> k = 0) by (rewrite Hc; unfold k; destruct m; [reflexivity | discriminate]).
  repeat match goal with |- _ /\ _ => split end.
  - unfold q_children. cbn [flat_map]. rewrite app_nil_r. destruct (is_context n) eqn:E.
    + unfold QueryModel.kids. now rewrite Hl.
    + now rewrite (Hk0 eq_refl).
  - intros i. unfold q_item. cbn [flat_map]. rewrite app_nil_r. destruct (is_context n) eqn:E.
    + replace (Z.of_nat i <? 0)%Z with false by lia. cbv zeta. rewrite Hl. destruct (i <? k) eqn:F.
      * replace ((0 <=? Z.of_nat i)%Z && (Z.of_nat i <? Z.of_nat k)%Z) with true by lia. now rewrite Nat2Z.id.
      * replace ((0 <=? Z.of_nat i)%Z && (Z.of_nat i <? Z.of_nat k)%Z) with false by lia. reflexivity.
    + now rewrite (Hk0 eq_refl).
  - intros i Hi. unfold q_item. cbn [flat_map]. rewrite app_nil_r. destruct (is_context n) eqn:E.
    + replace (- Z.of_nat i <? 0)%Z with true by lia. cbv zeta. rewrite Hl. destruct (i <=? k) eqn:F.
      * replace ((0 <=? - Z.of_nat i + Z.of_nat k)%Z && (- Z.of_nat i + Z.of_nat k <? Z.of_nat k)%Z) with true by lia. unfold child. do 3 f_equal. lia.
      * replace ((0 <=? - Z.of_nat i + Z.of_nat k)%Z && (- Z.of_nat i + Z.of_nat k <? Z.of_nat k)%Z) with false by lia. reflexivity.
    + replace (i <=? k) with false by (rewrite (Hk0 eq_refl); lia). reflexivity.
  - unfold q_first. cbn [flat_map]. rewrite app_nil_r, Hc. unfold truth, QueryModel.at_. rewrite Hn. unfold k. destruct m as [t | l [| c cs]]; try reflexivity. destruct (k_text t); reflexivity.
  - unfold q_last. cbn [flat_map]. rewrite app_nil_r, Hc, Hl. unfold truth, QueryModel.at_. rewrite Hn. unfold k. destruct m as [t | l [| c cs]]; try reflexivity. destruct (k_text t); reflexivity.
  - reflexivity.
  - intros i. unfold q_parent, child. cbn [flat_map]. rewrite app_nil_r, removelast_last. destruct (n ++ [i]) eqn:E; [now destruct n | reflexivity].
  - intros a. unfold q_ancestors. cbn [flat_map]. rewrite app_nil_r. apply ancs_in.
  - unfold q_ancestors. cbn [flat_map]. rewrite app_nil_r, ancs_eq. assert (H : length n <= length n) by lia. revert H. generalize (length n) at 1 3.
    intros d. induction d as [| d IH]; intros H; [constructor |]. rewrite seq_S, rev_app_distr. cbn [rev app map plus]. constructor; [apply IH; lia |].
    apply Forall_forall. intros x Hx. apply in_map_iff in Hx. destruct Hx as [e [<- He]]. apply in_rev, in_seq in He.
    apply ancs_in. rewrite ancs_eq, in_map_iff. exists e. split; [rewrite firstn_firstn; f_equal; lia |].
    apply -> in_rev. apply in_seq. rewrite firstn_length. lia.
  - intros W i Hi.
    assert (V : valid root (n ++ [i])).
    { unfold valid. rewrite (node_at_snoc _ _ _ _ Hn). unfold k in Hi. now apply nth_error_Some. }
    pose proof (siblings_of n i W V) as H. rewrite Hl in H. exact H.
Qed.

Lemma each_app f a b : each f (a ++ b) = match each f a, each f b with Some x, Some y => Some (x ++ y) | _, _ => None end.
Proof.
  induction a as [| n a IH]; cbn [app each]; [now destruct (each f b) |]. rewrite IH. destruct (f n); [| reflexivity].
  destruct (each f a), (each f b); try reflexivity. now rewrite app_assoc.
Qed.
Theorem each_ok a b :
  q_children root (a ++ b) = q_children root a ++ q_children root b /\ (forall k, q_item root k (a ++ b) = q_item root k a ++ q_item root k b) /\
  q_first root (a ++ b) = q_first root a ++ q_first root b /\ q_last root (a ++ b) = q_last root a ++ q_last root b /\
  q_parent (a ++ b) = q_parent a ++ q_parent b /\ q_ancestors (a ++ b) = q_ancestors a ++ q_ancestors b /\
  (forall f, In f [q_right root; q_left root; q_right_siblings root; q_left_siblings root] ->
     f (a ++ b) = match f a, f b with Some x, Some y => Some (x ++ y) | _, _ => None end).
Proof.
  repeat match goal with |- _ /\ _ => split end; intros; try apply flat_map_app.
  repeat destruct H as [<- | H]; try apply each_app. contradiction.
Qed.

Theorem siblings_of_root ns :
  q_right root ([] :: ns) = None /\ q_left root ([] :: ns) = None /\
  q_right_siblings root ([] :: ns) = None /\ q_left_siblings root ([] :: ns) = None /\
  forall l, q_all root [[]] = Some l -> q_right root l = None.
Proof.
  repeat split. intros l H. destruct (all_ok [[]]) as [ls [H1 [H2 _]]]; [repeat constructor; discriminate |].
  unfold q_all in H. cbn [each] in H. destruct (is_context []).
  - destruct (inner root false (fuel_for root []) [] 0 []); [| discriminate]. injection H as <-. reflexivity.
  - injection H as <-. reflexivity.
Qed.

End Proofs.
