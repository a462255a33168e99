(** Proofs about the cache of a transformer when the tree is updated. *)
From Verif Require Import Base BaseFacts TargetModel LexerModel TreeModel TreeSpec TreeProofs TreeRangeProofs BuildModel ChangesModel RebuildModel RebuildEventsProofs ReplaceTreeProofs
  TransformModel TransformSpec TransformTextProofs TransformTreeProofs TransformUpdateModel TransformUpdateSpec.
From Coq Require Import ZArith ZifyBool.

Section Trees.
Variables L A : Type.
Notation inode := (node (nat * L) A).
Implicit Types (n x : inode) (c cs t ts : list inode).

(** All contexts at or below a node, without positions. *)
Fixpoint subs n : list inode :=
  match n with
  | Tok _ => []
  | Ctx l cs => unplace (Ctx l cs) :: concat (map subs cs)
  end.
Definition subsl cs : list inode := concat (map subs cs).
Lemma subsl_app a b : subsl (a ++ b) = subsl a ++ subsl b.
Proof. unfold subsl. rewrite map_app, concat_app. reflexivity. Qed.
Lemma subsl_cons n cs : subsl (n :: cs) = subs n ++ subsl cs.
Proof. reflexivity. Qed.
Lemma subs_ctx l cs : subs (Ctx l cs) = unplace (Ctx l cs) :: subsl cs.
Proof. reflexivity. Qed.

Lemma unplace_shift off n : unplace (shift_node off n) = unplace n.
Proof. induction n as [t|l cs IH] using node_ind'; [reflexivity|]. cbn [shift_node unplace]. f_equal. rewrite map_map. induction IH as [|c cs Hc _ IHc]; [reflexivity|]. cbn [map]. rewrite Hc, IHc. reflexivity. Qed.
Lemma unplace_shifts off cs : map unplace (map (shift_node off) cs) = map unplace cs.
Proof. rewrite map_map. apply map_ext. apply unplace_shift. Qed.
Lemma subs_unplace n : subs (unplace n) = subs n.
Proof.
  induction n as [t|l cs IH] using node_ind'; [reflexivity|]. cbn [unplace]. rewrite !subs_ctx. cbn [unplace]. f_equal.
  - f_equal. rewrite map_map. induction IH as [|c cs Hc _ IHc]; [reflexivity|]. cbn [map]. rewrite IHc. f_equal.
    clear. induction c as [t|l cs IH] using node_ind'; [reflexivity|]. cbn [unplace]. f_equal. rewrite map_map. induction IH as [|c cs Hc _ IHc]; [reflexivity|]. cbn [map]. rewrite Hc, IHc. reflexivity.
  - unfold subsl. rewrite map_map. f_equal. induction IH as [|c cs Hc _ IHc]; [reflexivity|]. cbn [map]. rewrite Hc, IHc. reflexivity.
Qed.
Lemma subs_eq n n' : unplace n = unplace n' -> subs n = subs n'.
Proof. intros H. rewrite <- (subs_unplace n), <- (subs_unplace n'), H. reflexivity. Qed.
Lemma subs_shift off n : subs (shift_node off n) = subs n.
Proof. apply subs_eq, unplace_shift. Qed.
Lemma subsl_shift off cs : subsl (map (shift_node off) cs) = subsl cs.
Proof. unfold subsl. rewrite map_map. f_equal. apply map_ext. apply subs_shift. Qed.

(** A context in the list, at its place. *)
Lemma subs_at n : forall p l cs, node_at n p = Some (Ctx l cs) -> In (unplace (Ctx l cs)) (subs n).
Proof.
  induction n as [t|l0 cs0 IH] using node_ind'; intros p l cs H.
  - destruct p as [|[|i] p]; discriminate.
  - rewrite subs_ctx. destruct p as [|i p]; [injection H as -> ->; left; reflexivity|]. cbn [node_at children] in H. right.
    destruct (nth_error cs0 i) as [m|] eqn:E; [|discriminate]. apply nth_error_In in E. rewrite Forall_forall in IH.
    apply in_concat. exists (subs m). split; [apply in_map; exact E|exact (IH m E _ _ _ H)].
Qed.
Lemma at_subs n : forall x, In x (subs n) -> exists p l cs, node_at n p = Some (Ctx l cs) /\ unplace (Ctx l cs) = x.
Proof.
  induction n as [t|l0 cs0 IH] using node_ind'; intros x H; [destruct H|]. rewrite subs_ctx in H. destruct H as [<-|H]; [exists [], l0, cs0; auto|].
  apply in_concat in H as (y & Hy & Hx). apply in_map_iff in Hy as (m & <- & Hm). rewrite Forall_forall in IH. destruct (IH m Hm x Hx) as (p & l & cs & H1 & H2).
  apply In_nth_error in Hm as (i & Hi). exists (i :: p), l, cs. split; [|exact H2]. cbn [node_at children]. rewrite Hi. exact H1.
Qed.
Lemma at_subsl l0 cs0 : forall x, In x (subsl cs0) -> exists p l cs, p <> [] /\ node_at (Ctx l0 cs0) p = Some (Ctx l cs) /\ unplace (Ctx l cs) = x.
Proof.
  intros x H. apply in_concat in H as (y & Hy & Hx). apply in_map_iff in Hy as (m & <- & Hm). destruct (at_subs m x Hx) as (p & l & cs & H1 & H2).
  apply In_nth_error in Hm as (i & Hi). exists (i :: p), l, cs. split; [discriminate|]. split; [|exact H2]. cbn [node_at children]. rewrite Hi. exact H1.
Qed.
Lemma subsl_at l0 cs0 p l cs : p <> [] -> node_at (Ctx l0 cs0) p = Some (Ctx l cs) -> In (unplace (Ctx l cs)) (subsl cs0).
Proof.
  destruct p as [|i p]; [congruence|]. intros _ H. cbn [node_at children] in H. destruct (nth_error cs0 i) as [m|] eqn:E; [|discriminate].
  apply in_concat. exists (subs m). split; [apply in_map; eapply nth_error_In; exact E|exact (subs_at m _ _ _ H)].
Qed.

Definition idof n : option nat := match n with Tok _ => None | Ctx (id, _) _ => Some id end.
Lemma idof_unplace n : idof (unplace n) = idof n.
Proof. destruct n as [t|[id l] cs]; reflexivity. Qed.

(** ** Where the contexts of the updated tree come from *)

Definition idin (x : inode) cs : Prop := exists y, In y (subsl cs) /\ idof y = idof x.

Lemma in_firstn {T} (l : list T) i (x : T) : In x (firstn i l) -> In x l.
Proof. intros H. rewrite <- (firstn_skipn i l). apply in_or_app. left. exact H. Qed.
Lemma in_skipn {T} (l : list T) i (x : T) : In x (skipn i l) -> In x l.
Proof. intros H. rewrite <- (firstn_skipn i l). apply in_or_app. right. exact H. Qed.
Lemma subsl_incl a b x : (forall y, In y a -> In y b) -> In x (subsl a) -> In x (subsl b).
Proof. intros H Hx. apply in_concat in Hx as (y & Hy & Hx). apply in_map_iff in Hy as (m & <- & Hm). apply in_concat. exists (subs m). split; [apply in_map, H, Hm|exact Hx]. Qed.
Lemma subsl_nth c e m x : nth_error c e = Some m -> In x (subsl (children m)) -> In x (subsl c).
Proof.
  intros E H. apply nth_error_In in E. apply in_concat. exists (subs m). split; [apply in_map; exact E|]. destruct m as [t|l cs]; [destruct H|]. rewrite subs_ctx. right. exact H.
Qed.
Lemma last_in {T} (l : list T) (x : T) : last_opt l = Some x -> l = removelast l ++ [x].
Proof.
  destruct l as [|y l _] using rev_ind; [discriminate|]. unfold last_opt. rewrite rev_app_distr. cbn. intros E. injection E as <-. rewrite BuildProofs.removelast_app1. reflexivity.
Qed.

Lemma join_from off et : forall first c t t', rt_join off first c t et = Some t' -> forall x, In x (subsl t') -> idin x t \/ In x (subsl c).
Proof.
  induction et as [|e et IH]; intros first c t t' E x Hx.
  - injection E as <-. left. exists x. auto.
  - cbn [rt_join] in E. set (next := match et with [] => e | _ => S e end) in E.
    set (t1 := if first then t else t ++ map (shift_node off) (skipn next c)) in E.
    assert (Ht1 : forall y, In y (subsl t1) -> In y (subsl t) \/ In y (subsl c)).
    { intros y Hy. unfold t1 in Hy. destruct first; [left; exact Hy|]. rewrite subsl_app, subsl_shift in Hy. apply in_app_or in Hy as [Hy|Hy]; [left; exact Hy|right].
      revert Hy. apply subsl_incl. intros z. apply in_skipn. }
    destruct et as [|e' et].
    + injection E as <-. destruct (Ht1 x Hx) as [H|H]; [left; exists x; auto|right; exact H].
    + destruct (last_opt t) as [[tk|l ts]|] eqn:El; try discriminate. destruct (nth_error c e) as [m|] eqn:Ee; [|discriminate].
      destruct (rt_join off false (children m) ts (e' :: et)) as [ts'|] eqn:Ej; [|discriminate]. injection E as <-.
      pose proof (last_in _ _ El) as Et. rewrite subsl_app, subsl_cons in Hx. apply in_app_or in Hx as [Hx|Hx]; [|apply in_app_or in Hx as [Hx|Hx]].
      * apply (subsl_incl _ t1) in Hx; [|intros z; apply in_firstn]. destruct (Ht1 x Hx) as [H|H]; [left; exists x; auto|right; exact H].
      * rewrite subs_ctx in Hx. destruct Hx as [<-|Hx].
        -- left. exists (unplace (Ctx l ts)). split; [|destruct l; reflexivity]. rewrite Et, subsl_app. apply in_or_app. right. left. reflexivity.
        -- destruct (IH false (children m) ts ts' Ej x Hx) as [(y & Hy & Hi)|H]; [|right; exact (subsl_nth _ _ _ _ Ee H)].
           left. exists y. split; [|exact Hi]. rewrite Et, subsl_app. apply in_or_app. right. rewrite subsl_cons. apply in_or_app. left. rewrite subs_ctx. right. exact Hy.
      * apply (subsl_incl _ t1) in Hx; [|intros z; apply in_skipn]. destruct (Ht1 x Hx) as [H|H]; [left; exists x; auto|right; exact H].
Qed.

Lemma set_slice_in c a b t x : In x (subsl (set_slice c a b t)) -> In x (subsl (firstn a c)) \/ In x (subsl t) \/ (exists b', b = Some b' /\ In x (subsl (skipn (Nat.max a b') c))).
Proof.
  unfold set_slice. rewrite !subsl_app. intros H. apply in_app_or in H as [H|H]; [auto|]. apply in_app_or in H as [H|H]; [auto|].
  destruct b as [b|]; [|destruct H]. right. right. exists b. auto.
Qed.

Lemma start_from st : forall l0 c t se c', rt_start c t st se = Some c' -> forall x, In x (subsl c') ->
  In x (subsl t) \/ In x (subsl c) \/ (exists id, idof x = Some id /\ In id (chain_ids (Ctx l0 c') (removelast st))).
Proof.
  induction st as [|i st IH]; intros l0 c t se c' E x Hx.
  - cbn [rt_start] in E. injection E as <-. apply set_slice_in in Hx as [H|[H|(b & -> & H)]]; [|auto|].
    + right. left. revert H. apply subsl_incl. intros z. apply in_firstn.
    + right. left. revert H. apply subsl_incl. intros z. apply in_skipn.
  - destruct st as [|i' st].
    + cbn [rt_start] in E. injection E as <-. apply set_slice_in in Hx as [H|[H|(b & -> & H)]]; [|auto|].
      * right. left. revert H. apply subsl_incl. intros z. apply in_firstn.
      * right. left. revert H. apply subsl_incl. intros z. apply in_skipn.
    + set (st' := i' :: st) in *. assert (Eq : rt_start c t (i :: st') se = match t, nth_error c i with
         | Ctx _ t0 :: ts, Some (Ctx l ci) => match rt_start ci t0 st' None with None => None
             | Some ci => Some (set_slice (firstn i c ++ Ctx l ci :: skipn (S i) c) (S i) se ts) end
         | _, _ => None end) by reflexivity. rewrite Eq in E. clear Eq.
      destruct t as [|[tk|lt t0] ts]; try discriminate. destruct (nth_error c i) as [[tk|[id l] ci]|] eqn:Ei; try discriminate.
      destruct (rt_start ci t0 st' None) as [ci'|] eqn:Es; [|discriminate].
      match type of E with Some ?u = _ => assert (E2 : c' = u) by congruence end. clear E. subst c'.
      assert (Hi : i < length c) by (apply nth_error_Some; congruence).
      assert (Hf : firstn (S i) (firstn i c ++ Ctx (id, l) ci' :: skipn (S i) c) = firstn i c ++ [Ctx (id, l) ci']).
      { rewrite firstn_app, firstn_firstn. replace (Nat.min (S i) i) with i by lia. rewrite firstn_length. replace (S i - Nat.min i (length c)) with 1 by lia. reflexivity. }
      assert (Hch : chain_ids (Ctx l0 (set_slice (firstn i c ++ Ctx (id, l) ci' :: skipn (S i) c) (S i) se ts)) (removelast (i :: st'))
         = id :: chain_ids (Ctx (id, l) ci') (removelast st')).
      { unfold st' at 1. cbn [removelast]. fold st'. cbn [chain_ids children]. unfold set_slice. rewrite Hf, <- app_assoc.
        rewrite nth_error_app2 by (rewrite firstn_length; lia). rewrite firstn_length. replace (i - Nat.min i (length c)) with 0 by lia. reflexivity. }
      rewrite Hch. apply set_slice_in in Hx as [H|[H|(b & -> & H)]].
      * rewrite Hf, subsl_app in H. apply in_app_or in H as [H|H].
        -- right. left. revert H. apply subsl_incl. intros z. apply in_firstn.
        -- rewrite subsl_cons in H. apply in_app_or in H as [H|[]]. rewrite subs_ctx in H. destruct H as [<-|H].
           ++ right. right. exists id. split; [reflexivity|left; reflexivity].
           ++ destruct (IH (id, l) ci t0 None ci' Es x H) as [G|[G|(id' & G1 & G2)]].
              ** left. rewrite subsl_cons. apply in_or_app. left. rewrite subs_ctx. right. exact G.
              ** right. left. exact (subsl_nth _ _ _ _ Ei G).
              ** right. right. exists id'. split; [exact G1|right; exact G2].
      * left. rewrite subsl_cons. apply in_or_app. right. exact H.
      * right. left. revert H. apply subsl_incl. intros z Hz.
        assert (Hsk : skipn (Nat.max (S i) b) (firstn i c ++ Ctx (id, l) ci' :: skipn (S i) c) = skipn (Nat.max (S i) b) c).
        { rewrite skipn_app. rewrite skipn_all2 by (rewrite firstn_length; lia). rewrite firstn_length. cbn [app].
          replace (Nat.max (S i) b - Nat.min i (length c)) with (S (Nat.max (S i) b - S i)) by lia.
          rewrite skipn_cons, skipn_skipn. f_equal. lia. }
        rewrite Hsk in Hz. exact (in_skipn _ _ _ Hz).
Qed.

Lemma chain_app n : forall p m q, node_at n p = Some m -> chain_ids n (p ++ q) = chain_ids n p ++ match m with Tok _ => [] | Ctx _ _ => chain_ids m q end.
Proof.
  intros p. revert n. induction p as [|i p IH]; intros n m q H.
  - injection H as <-. cbn [app chain_ids]. destruct n as [t|l cs]; [|reflexivity]. destruct q as [|[|i] q]; reflexivity.
  - cbn [app chain_ids node_at] in *. destruct (nth_error (children n) i) as [[t|[id l] cs]|]; try discriminate.
    + destruct p as [|[|j] p]; try discriminate. injection H as <-. reflexivity.
    + cbn [app]. f_equal. apply IH. exact H.
Qed.

Lemma update_from path : forall l0 cs0 l c f, node_at (Ctx l0 cs0) path = Some (Ctx l c) ->
  node_at (update_at (Ctx l0 cs0) path f) path = Some (Ctx l (f c))
  /\ forall x, In x (subsl (children (update_at (Ctx l0 cs0) path f))) ->
       In x (subsl cs0) \/ In x (subsl (f c)) \/ (exists id, idof x = Some id /\ In id (chain_ids (update_at (Ctx l0 cs0) path f) path)).
Proof.
  induction path as [|i p IH]; intros l0 cs0 l c f H; [injection H as -> ->; split; [reflexivity|cbn; auto]|].
  cbn [node_at children] in H. destruct (nth_error cs0 i) as [m|] eqn:Ei; [|discriminate]. cbn [update_at]. rewrite Ei.
  destruct m as [t|[id l1] c1]; [destruct p as [|[|j] p]; discriminate|]. destruct (IH (id, l1) c1 l c f H) as (I1 & I2). clear IH.
  assert (Hi : i < length cs0) by (apply nth_error_Some; congruence).
  assert (En : nth_error (firstn i cs0 ++ [update_at (Ctx (id, l1) c1) p f] ++ skipn (S i) cs0) i = Some (update_at (Ctx (id, l1) c1) p f)).
  { rewrite nth_error_app2 by (rewrite firstn_length; lia). rewrite firstn_length. replace (i - Nat.min i (length cs0)) with 0 by lia. reflexivity. }
  split; [cbn [node_at children]; rewrite En; exact I1|]. intros x Hx. cbn [children] in Hx. rewrite subsl_app in Hx. apply in_app_or in Hx as [Hx|Hx].
  - left. revert Hx. apply subsl_incl. intros z. apply in_firstn.
  - cbn [app] in Hx. rewrite subsl_cons in Hx. apply in_app_or in Hx as [Hx|Hx]; [|left; revert Hx; apply subsl_incl; intros z; apply in_skipn].
    assert (Hu : exists c2, update_at (Ctx (id, l1) c1) p f = Ctx (id, l1) c2).
    { destruct p as [|j p]; cbn [update_at]; [eauto|]. destruct (nth_error c1 j); eauto. }
    destruct Hu as (c2 & Hu). cbn [chain_ids children]. cbn [app] in En |- *. rewrite En. rewrite Hu in *. rewrite subs_ctx in Hx. destruct Hx as [<-|Hx].
    + right. right. exists id. split; [reflexivity|left; reflexivity].
    + destruct (I2 x Hx) as [G|[G|(id' & G1 & G2)]]; [left; exact (subsl_nth _ _ _ _ Ei G)|auto|]. right. right. exists id'. split; [exact G1|right; exact G2].
Qed.

(** Moving tokens changes nothing here. *)
Lemma unplace_update path : forall n f, (forall c, map unplace (f c) = map unplace c) -> unplace (update_at n path f) = unplace n.
Proof.
  induction path as [|i p IH]; intros [t|l cs] f Hf; cbn [update_at]; try reflexivity; [cbn [unplace]; rewrite Hf; reflexivity|].
  destruct (nth_error cs i) as [m|] eqn:E; [|reflexivity]. cbn [unplace]. f_equal. rewrite !map_app. cbn [map]. rewrite (IH m f Hf).
  rewrite <- (firstn_skipn i cs) at 3. rewrite map_app. f_equal. clear - E. revert cs E. induction i as [|i IH]; intros [|c cs] E; try discriminate; cbn in *; [injection E as ->; reflexivity|]. exact (IH cs E).
Qed.
Lemma replace_pos_unplace off i cs : map unplace (replace_pos off i cs) = map unplace cs.
Proof. unfold replace_pos. rewrite map_app, unplace_shifts, <- map_app, firstn_skipn. reflexivity. Qed.
Lemma ancestors_unplace off path d : forall n n', shift_ancestors off d path n = Some n' -> unplace n' = unplace n.
Proof.
  induction d as [|d IH]; intros n n' E; cbn [shift_ancestors] in E; [injection E as <-; reflexivity|].
  destruct (ancestor_with_index n path d) as [[m i]|]; [|discriminate]. rewrite (IH _ _ E). apply unplace_update. intros c. apply replace_pos_unplace.
Qed.
Lemma update_ext path : forall n f g, (forall c, map unplace (f c) = map unplace (g c)) -> unplace (update_at n path f) = unplace (update_at n path g).
Proof.
  induction path as [|i p IH]; intros [t|l cs] f g Hf; cbn [update_at]; try reflexivity; [cbn [unplace]; rewrite Hf; reflexivity|].
  destruct (nth_error cs i) as [m|] eqn:E; [|reflexivity]. cbn [unplace]. f_equal. rewrite !map_app. cbn [map]. rewrite (IH m f g Hf). reflexivity.
Qed.
Lemma chain_unplace p : forall n, chain_ids (unplace n) p = chain_ids n p.
Proof.
  induction p as [|i p IH]; intros n; [reflexivity|]. cbn [chain_ids].
  assert (E : children (unplace n) = map unplace (children n)) by (destruct n; reflexivity). rewrite E, nth_error_map.
  destruct (nth_error (children n) i) as [[t|[id l] cs]|]; cbn [option_map unplace]; [reflexivity| |reflexivity]. f_equal. exact (IH (Ctx (id, l) cs)).
Qed.

(** [rt_common] gives the nodes of the new tree below a chain of contexts. *)
Lemma common_sub st : forall et k i path t path' t' i', rt_common k i path t st et = (path', t', i') -> forall x, In x (subsl t') -> In x (subsl t).
Proof.
  induction st as [|s st IH]; intros et k i path t path' t' i' E x Hx; [cbn in E; injection E as <- <- <-; exact Hx|].
  destruct et as [|e et]; [cbn in E; injection E as <- <- <-; exact Hx|]. cbn [rt_common] in E.
  destruct t as [|[tk|l t0] [|? ?]]; try (injection E as <- <- <-; exact Hx).
  destruct (s =? e); [|injection E as <- <- <-; exact Hx]. pose proof (IH _ _ _ _ _ _ _ _ E x Hx) as H. rewrite subsl_cons, subs_ctx. apply in_or_app. left. right. exact H.
Qed.


(** ** No context is at two places of the updated tree *)

Fixpoint cnt (k : nat) n : nat :=
  match n with
  | Tok _ => 0
  | Ctx (id, _) cs => (if id =? k then 1 else 0) + list_sum (map (cnt k) cs)
  end.
Definition cntl k cs : nat := list_sum (map (cnt k) cs).
Definition own (k : nat) n : nat := match n with Tok _ => 0 | Ctx (id, _) _ => if id =? k then 1 else 0 end.
Lemma cntl_app k a b : cntl k (a ++ b) = cntl k a + cntl k b.
Proof. unfold cntl. rewrite map_app, list_sum_app. reflexivity. Qed.
Lemma cntl_cons k n cs : cntl k (n :: cs) = cnt k n + cntl k cs.
Proof. reflexivity. Qed.
Lemma cnt_ctx k l cs : cnt k (Ctx l cs) = own k (Ctx l cs) + cntl k cs.
Proof. destruct l. reflexivity. Qed.
Lemma cnt_children k n : cnt k n = own k n + cntl k (children n).
Proof. destruct n as [t|l cs]; [reflexivity|apply cnt_ctx]. Qed.
Lemma cnt_unplace k n : cnt k (unplace n) = cnt k n.
Proof.
  induction n as [t|l cs IH] using node_ind'; [reflexivity|]. cbn [unplace]. rewrite !cnt_ctx. destruct l as [id l]. cbn [own]. f_equal.
  unfold cntl. rewrite map_map. f_equal. induction IH as [|c cs Hc _ IHc]; [reflexivity|]. cbn [map]. rewrite Hc, IHc. reflexivity.
Qed.
Lemma cnt_eq k n n' : unplace n = unplace n' -> cnt k n = cnt k n'.
Proof. intros H. rewrite <- (cnt_unplace k n), <- (cnt_unplace k n'), H. reflexivity. Qed.
Lemma cntl_shift k off cs : cntl k (map (shift_node off) cs) = cntl k cs.
Proof. unfold cntl. rewrite map_map. f_equal. apply map_ext. intros n. apply cnt_eq, unplace_shift. Qed.
Lemma cntl_split k i cs : cntl k (firstn i cs) + cntl k (skipn i cs) = cntl k cs.
Proof. rewrite <- cntl_app, firstn_skipn. reflexivity. Qed.
Lemma cntl_nth k cs i m : nth_error cs i = Some m -> cntl k (skipn i cs) = cnt k m + cntl k (skipn (S i) cs) /\ cntl k (firstn (S i) cs) = cntl k (firstn i cs) + cnt k m.
Proof.
  revert cs. induction i as [|i IH]; intros [|c cs] E; try discriminate.
  - injection E as ->. cbn. split; [reflexivity|]. unfold cntl. cbn. lia.
  - cbn [nth_error] in E. destruct (IH cs E) as [H1 H2]. split; [exact H1|]. change (firstn (S (S i)) (c :: cs)) with (c :: firstn (S i) cs). change (firstn (S i) (c :: cs)) with (c :: firstn i cs).
    rewrite !cntl_cons. lia.
Qed.
Lemma cntl_skip k i j cs : i <= j -> cntl k (skipn j cs) <= cntl k (skipn i cs).
Proof.
  intros H. assert (E : skipn j cs = skipn (j - i) (skipn i cs)) by (rewrite skipn_skipn; f_equal; lia). rewrite E.
  pose proof (cntl_split k (j - i) (skipn i cs)). lia.
Qed.
Lemma cntl_first k i j cs : i <= j -> cntl k (firstn i cs) <= cntl k (firstn j cs).
Proof. intros H. pose proof (cntl_split k i cs). pose proof (cntl_split k j cs). pose proof (cntl_skip k i j cs H). lia. Qed.

(** What is joined at the end. *)
Fixpoint aft (k : nat) (first : bool) c (et : list nat) : nat :=
  match et with
  | [] => 0
  | e :: et =>
      (if first then 0 else cntl k (skipn (match et with [] => e | _ => S e end) c))
      + match et with [] => 0 | _ => match nth_error c e with Some m => aft k false (children m) et | None => 0 end end
  end.
Lemma join_cnt k off et : forall first c t t', rt_join off first c t et = Some t' -> cntl k t' <= cntl k t + aft k first c et.
Proof.
  induction et as [|e et IH]; intros first c t t' E; [injection E as <-; lia|].
  cbn [rt_join] in E. cbn [aft]. set (next := match et with [] => e | _ => S e end) in *.
  set (t1 := if first then t else t ++ map (shift_node off) (skipn next c)) in E.
  assert (Ht1 : cntl k t1 = cntl k t + (if first then 0 else cntl k (skipn next c))) by (unfold t1; destruct first; [lia|rewrite cntl_app, cntl_shift; lia]).
  destruct et as [|e' et]; [injection E as <-; lia|].
  destruct (last_opt t) as [[tk|l ts]|] eqn:El; try discriminate. destruct (nth_error c e) as [m|] eqn:Ee; [|discriminate].
  destruct (rt_join off false (children m) ts (e' :: et)) as [ts'|] eqn:Ej; [|discriminate]. injection E as <-.
  pose proof (last_in _ _ El) as Et. pose proof (IH _ _ _ _ Ej) as HI. rewrite cntl_app, cntl_cons, cnt_ctx.
  assert (Hl : length t = S (length (removelast t))) by (rewrite Et at 1; rewrite app_length; cbn; lia).
  assert (Hx : t1 = removelast t ++ Ctx l ts :: skipn (length t) t1).
  { assert (Hy : exists z, t1 = t ++ z) by (unfold t1; destruct first; [exists []; rewrite app_nil_r; reflexivity|eauto]). destruct Hy as (z & Hz).
    rewrite Hz. rewrite skipn_app, skipn_all, Nat.sub_diag. cbn [app skipn]. rewrite Et at 1. rewrite <- app_assoc. reflexivity. }
  assert (Hf : firstn (length t - 1) t1 = removelast t).
  { rewrite Hx, firstn_app. replace (length t - 1 - length (removelast t)) with 0 by lia. rewrite firstn_O, app_nil_r. apply firstn_all2. lia. }
  rewrite Hf. rewrite Hx, cntl_app, cntl_cons, cnt_ctx in Ht1. destruct l as [id l]. cbn [own] in *. lia.
Qed.

(** What stays at the start. *)
Fixpoint lft (k : nat) c (st : list nat) : nat :=
  match st with
  | [] => 0
  | i :: st => match st with
               | [] => cntl k (firstn (S i) c)
               | _ => cntl k (firstn i c) + match nth_error c i with Some m => own k m + lft k (children m) st | None => 0 end
               end
  end.
Definition tail_cnt k c (st : list nat) (se : option nat) : nat :=
  match se with None => 0 | Some b => cntl k (skipn (Nat.max (match st with [] => 0 | i :: _ => S i end) b) c) end.
Lemma start_cnt k st : forall c t se c', rt_start c t st se = Some c' -> cntl k c' <= cntl k t + lft k c st + tail_cnt k c st se.
Proof.
  induction st as [|i st IH]; intros c t se c' E.
  - cbn [rt_start] in E. injection E as <-. cbn [lft]. unfold tail_cnt, set_slice. rewrite !cntl_app. change (cntl k (firstn 0 c)) with 0. destruct se as [b|]; [lia|]. change (cntl k []) with 0. lia.
  - destruct st as [|i' st].
    + cbn [rt_start] in E. match type of E with Some ?u = _ => assert (E2 : c' = u) by congruence end. clear E. subst c'. cbn [lft]. unfold tail_cnt, set_slice. rewrite !cntl_app.
      destruct se as [b|]; [lia|]. change (cntl k []) with 0. lia.
    + set (st' := i' :: st) in *. assert (Eq : rt_start c t (i :: st') se = match t, nth_error c i with
         | Ctx _ t0 :: ts, Some (Ctx l ci) => match rt_start ci t0 st' None with None => None
             | Some ci => Some (set_slice (firstn i c ++ Ctx l ci :: skipn (S i) c) (S i) se ts) end
         | _, _ => None end) by reflexivity. rewrite Eq in E. clear Eq.
      destruct t as [|[tk|lt t0] ts]; try discriminate. destruct (nth_error c i) as [[tk|[id l] ci]|] eqn:Ei; try discriminate.
      destruct (rt_start ci t0 st' None) as [ci'|] eqn:Es; [|discriminate].
      match type of E with Some ?u = _ => assert (E2 : c' = u) by congruence end. clear E. subst c'.
      assert (Hi : i < length c) by (apply nth_error_Some; congruence).
      assert (Hf : firstn (S i) (firstn i c ++ Ctx (id, l) ci' :: skipn (S i) c) = firstn i c ++ [Ctx (id, l) ci']).
      { rewrite firstn_app, firstn_firstn. replace (Nat.min (S i) i) with i by lia. rewrite firstn_length. replace (S i - Nat.min i (length c)) with 1 by lia. reflexivity. }
      pose proof (IH _ _ _ _ Es) as HI. cbn [tail_cnt] in HI. unfold set_slice. rewrite !cntl_app, Hf, cntl_app, cntl_cons, cnt_ctx.
      assert (El : lft k c (i :: st') = cntl k (firstn i c) + (own k (Ctx (id, l) ci) + lft k ci st')) by (cbn [lft]; unfold st'; rewrite Ei; reflexivity). rewrite El.
      rewrite cntl_cons, cnt_ctx. cbn [own] in *.
      assert (Ht : cntl k (match se with None => [] | Some b => skipn (Nat.max (S i) b) (firstn i c ++ Ctx (id, l) ci' :: skipn (S i) c) end) = tail_cnt k c (i :: st') se).
      { unfold tail_cnt. destruct se as [b|]; [|reflexivity]. f_equal. rewrite skipn_app. rewrite skipn_all2 by (rewrite firstn_length; lia). rewrite firstn_length. cbn [app].
        replace (Nat.max (S i) b - Nat.min i (length c)) with (S (Nat.max (S i) b - S i)) by lia. rewrite skipn_cons, skipn_skipn. f_equal. lia. }
      rewrite Ht. change (cntl k []) with 0. lia.
Qed.

Lemma lft_le k st : forall c, lft k c st <= cntl k (firstn (match st with [] => 0 | i :: _ => S i end) c).
Proof.
  induction st as [|i st IH]; intros c; [cbn; lia|]. destruct st as [|i' st]; [cbn [lft]; lia|]. set (st' := i' :: st) in *.
  assert (El : lft k c (i :: st') = cntl k (firstn i c) + match nth_error c i with Some m => own k m + lft k (children m) st' | None => 0 end) by reflexivity. rewrite El.
  destruct (nth_error c i) as [m|] eqn:Ei; [|pose proof (cntl_first k i (S i) c); lia]. destruct (cntl_nth k c i m Ei) as [_ H]. rewrite H, (cnt_children k m).
  specialize (IH (children m)). pose proof (cntl_split k (S i') (children m)). lia.
Qed.
Lemma aft_le k et : forall c, aft k false c et <= cntl k (skipn (match et with [] => 0 | e :: _ => e end) c).
Proof.
  induction et as [|e et IH]; intros c; [cbn; lia|]. destruct et as [|e' et]; [cbn [aft]; lia|]. set (et' := e' :: et) in *.
  assert (El : aft k false c (e :: et') = cntl k (skipn (S e) c) + match nth_error c e with Some m => aft k false (children m) et' | None => 0 end) by reflexivity. rewrite El.
  destruct (nth_error c e) as [m|] eqn:Ee; [|pose proof (cntl_skip k e (S e) c); lia]. destruct (cntl_nth k c e m Ee) as [H _]. rewrite H, (cnt_children k m).
  specialize (IH (children m)). pose proof (cntl_split k e' (children m)). lia.
Qed.
Lemma fork_le k q i j r1 r2 : i < j -> forall c, lft k c (q ++ i :: r1) + aft k false c (q ++ j :: r2) <= cntl k c.
Proof.
  intros Hij. induction q as [|s q IH]; intros c.
  - cbn [app]. pose proof (lft_le k (i :: r1) c) as H1. pose proof (aft_le k (j :: r2) c) as H2. cbv beta iota in H1, H2. pose proof (cntl_skip k (S i) j c ltac:(lia)).
    pose proof (cntl_split k (S i) c). lia.
  - cbn [app]. set (st' := q ++ i :: r1) in *. set (et' := q ++ j :: r2) in *.
    assert (El : lft k c (s :: st') = cntl k (firstn s c) + match nth_error c s with Some m => own k m + lft k (children m) st' | None => 0 end) by (unfold st'; destruct q; reflexivity).
    assert (Ea : aft k false c (s :: et') = cntl k (skipn (S s) c) + match nth_error c s with Some m => aft k false (children m) et' | None => 0 end) by (unfold et'; destruct q; reflexivity).
    rewrite El, Ea. destruct (nth_error c s) as [m|] eqn:Es.
    + destruct (cntl_nth k c s m Es) as [H _]. pose proof (cntl_split k s c). specialize (IH (children m)). rewrite (cnt_children k m) in H.
      clear El Ea. lia.
    + pose proof (cntl_split k s c). pose proof (cntl_skip k s (S s) c). lia.
Qed.

(** The trails of two tokens, or an empty one. *)
Definition forked (st et : list nat) : Prop :=
  st = [] \/ et = [] \/ exists q i j r1 r2, st = q ++ i :: r1 /\ et = q ++ j :: r2 /\ i < j.
Lemma aft_first k c e et : aft k true c (e :: et) + cntl k (skipn (match et with [] => e | _ => S e end) c) = aft k false c (e :: et).
Proof. destruct et as [|e' et]; cbn [aft]; lia. Qed.
Lemma parts_le k c st et : forked st et -> lft k c st + aft k true c et + tail_cnt k c st (slice_end et) <= cntl k c.
Proof.
  intros Hf. destruct et as [|e et].
  - cbn [aft slice_end tail_cnt]. pose proof (lft_le k st c). pose proof (cntl_split k (match st with [] => 0 | i :: _ => S i end) c). lia.
  - assert (Hse : slice_end (e :: et) = Some (match et with [] => e | _ => S e end)) by (destruct et; reflexivity). rewrite Hse. cbn [tail_cnt].
    pose proof (aft_first k c e et) as Ha. set (b := match et with [] => e | _ => S e end) in *.
    assert (Hle : lft k c st + aft k false c (e :: et) <= cntl k c).
    { destruct Hf as [->|[H|(q & i & j & r1 & r2 & -> & -> & Hij)]]; [|discriminate|exact (fork_le k q i j r1 r2 Hij c)].
      cbn [lft]. pose proof (aft_le k (e :: et) c). pose proof (cntl_split k e c). cbn [app] in *. lia. }
    pose proof (cntl_skip k b (Nat.max (match st with [] => 0 | i :: _ => S i end) b) c ltac:(lia)). lia.
Qed.

Lemma update_cnt k path : forall n l c f, node_at n path = Some (Ctx l c) -> cnt k (update_at n path f) + cntl k c = cnt k n + cntl k (f c).
Proof.
  induction path as [|i p IH]; intros n l c f H; [injection H as ->; cbn [update_at]; rewrite !cnt_ctx; destruct l; cbn [own]; lia|].
  destruct n as [t|l0 cs0]; [destruct i; discriminate|]. cbn [node_at children] in H. destruct (nth_error cs0 i) as [m|] eqn:Ei; [|discriminate]. cbn [update_at]. rewrite Ei.
  pose proof (IH m l c f H) as HI. destruct (cntl_nth k cs0 i m Ei) as [H1 _]. pose proof (cntl_split k i cs0). rewrite !cnt_ctx, !cntl_app. cbn [app]. rewrite cntl_cons.
  destruct l0 as [id l0]. cbn [own]. change (cntl k []) with 0. lia.
Qed.

(** The identities at most once: the same as [distinct]. *)
Lemma cnt_pos k n p l cs : node_at n p = Some (Ctx (k, l) cs) -> 1 <= cnt k n.
Proof.
  revert n. induction p as [|i p IH]; intros n H; [injection H as ->; cbn [cnt]; rewrite Nat.eqb_refl; lia|].
  destruct n as [t|l0 cs0]; [destruct i; discriminate|]. cbn [node_at children] in H. destruct (nth_error cs0 i) as [m|] eqn:Ei; [|discriminate].
  pose proof (IH m H). destruct (cntl_nth k cs0 i m Ei) as [H1 _]. pose proof (cntl_split k i cs0). rewrite cnt_ctx. lia.
Qed.
Lemma pos_cnt k n : 1 <= cnt k n -> exists p l cs, node_at n p = Some (Ctx (k, l) cs).
Proof.
  induction n as [t|[id l] cs IH] using node_ind'; [cbn; lia|]. intros H. destruct (Nat.eq_dec id k) as [->|Hne]; [exists [], l, cs; reflexivity|].
  rewrite cnt_ctx in H. cbn [own] in H. replace (id =? k) with false in H by lia. cbn [Nat.add] in H.
  assert (Hex : exists i m, nth_error cs i = Some m /\ 1 <= cnt k m).
  { clear IH. induction cs as [|c cs IHc]; [cbn in H; lia|]. rewrite cntl_cons in H. destruct (cnt k c) eqn:Ec; [|exists 0, c; split; [reflexivity|lia]].
    destruct (IHc ltac:(lia)) as (i & m & H1 & H2). exists (S i), m. auto. }
  destruct Hex as (i & m & Hi & Hm). rewrite Forall_forall in IH. destruct (IH m (nth_error_In _ _ Hi) Hm) as (p & l' & cs' & H'). exists (i :: p), l', cs'. cbn [node_at children]. rewrite Hi. exact H'.
Qed.
Lemma cntl_two k cs : forall i j m m', i < j -> nth_error cs i = Some m -> nth_error cs j = Some m' -> cnt k m + cnt k m' <= cntl k cs.
Proof.
  intros i j m m' Hij Hi Hj. destruct (cntl_nth k cs i m Hi) as [_ H2]. destruct (cntl_nth k cs j m' Hj) as [H1 _].
  pose proof (cntl_split k j cs). pose proof (cntl_first k (S i) j cs ltac:(lia)). lia.
Qed.
Lemma once_distinct n : (forall k, cnt k n <= 1) -> distinct n.
Proof.
  intros Hc p q id l cs l' cs' Hp Hq. specialize (Hc id). revert p q Hp Hq. induction n as [t|[id0 l0] cs0 IH] using node_ind'; intros p q Hp Hq.
  - destruct p as [|[|?] ?]; discriminate.
  - rewrite cnt_ctx in Hc. cbn [own] in Hc. destruct p as [|i p], q as [|j q]; [reflexivity| | |].
    + injection Hp as -> -> ->. rewrite Nat.eqb_refl in Hc. cbn [node_at children] in Hq. destruct (nth_error cs j) as [m|] eqn:Ej; [|discriminate]. apply cnt_pos in Hq.
      destruct (cntl_nth id cs j m Ej) as [H1 _]. pose proof (cntl_split id j cs). lia.
    + injection Hq as -> -> ->. rewrite Nat.eqb_refl in Hc. cbn [node_at children] in Hp. destruct (nth_error cs' i) as [m|] eqn:Ej; [|discriminate]. apply cnt_pos in Hp.
      destruct (cntl_nth id cs' i m Ej) as [H1 _]. pose proof (cntl_split id i cs'). lia.
    + cbn [node_at children] in Hp, Hq. destruct (nth_error cs0 i) as [m|] eqn:Ei; [|discriminate]. destruct (nth_error cs0 j) as [m'|] eqn:Ej; [|discriminate].
      pose proof (cnt_pos _ _ _ _ _ Hp). pose proof (cnt_pos _ _ _ _ _ Hq).
      destruct (Nat.lt_trichotomy i j) as [Hlt|[<-|Hlt]]; [pose proof (cntl_two id cs0 i j m m' Hlt Ei Ej); lia| |pose proof (cntl_two id cs0 j i m' m Hlt Ej Ei); lia].
      f_equal. rewrite Ei in Ej. injection Ej as <-. rewrite Forall_forall in IH. apply (IH m (nth_error_In _ _ Ei)); [|exact Hp|exact Hq].
      destruct (cntl_nth id cs0 i m Ei) as [H1 _]. pose proof (cntl_split id i cs0). lia.
Qed.
Lemma distinct_once n : distinct n -> forall k, cnt k n <= 1.
Proof.
  intros Hd k. induction n as [t|[id l] cs IH] using node_ind'; [cbn; lia|].
  assert (Hc : forall i m, nth_error cs i = Some m -> cnt k m <= 1).
  { intros i m Hi. rewrite Forall_forall in IH. apply (IH m (nth_error_In _ _ Hi)). intros p q id' l1 cs1 l2 cs2 Hp Hq.
    assert (E : i :: p = i :: q) by (apply (Hd (i :: p) (i :: q) id' l1 cs1 l2 cs2); cbn [node_at children]; rewrite Hi; assumption). injection E as E. exact E. }
  assert (Hu : forall i j m m', nth_error cs i = Some m -> nth_error cs j = Some m' -> 1 <= cnt k m -> 1 <= cnt k m' -> i = j).
  { intros i j m m' Hi Hj H1 H2. destruct (pos_cnt _ _ H1) as (p & l1 & cs1 & Hp). destruct (pos_cnt _ _ H2) as (q & l2 & cs2 & Hq).
    assert (E : i :: p = j :: q) by (apply (Hd (i :: p) (j :: q) k l1 cs1 l2 cs2); cbn [node_at children]; [rewrite Hi|rewrite Hj]; assumption). injection E as -> _. reflexivity. }
  assert (Hr : id = k -> forall i m, nth_error cs i = Some m -> cnt k m = 0).
  { intros -> i m Hi. destruct (cnt k m) eqn:E; [reflexivity|]. destruct (pos_cnt k m ltac:(lia)) as (p & l1 & cs1 & Hp).
    assert (Ex : i :: p = []) by (apply (Hd (i :: p) [] k l1 cs1 l cs); cbn [node_at children]; [rewrite Hi; exact Hp|reflexivity]). discriminate. }
  rewrite cnt_ctx. cbn [own]. assert (Hs : cntl k cs <= 1).
  { clear IH Hr Hd. induction cs as [|c cs IHc]; [cbn; lia|]. rewrite cntl_cons. pose proof (Hc 0 c eq_refl) as H0.
    destruct (cnt k c) as [|n0] eqn:Ec.
    - apply IHc; [intros i m Hi; exact (Hc (S i) m Hi)|intros i j m m' Hi Hj H1 H2; pose proof (Hu (S i) (S j) m m' Hi Hj H1 H2); lia].
    - assert (Hz : cntl k cs = 0); [|lia]. assert (Hz : forall i m, nth_error cs i = Some m -> cnt k m = 0).
      { intros i m Hi. destruct (cnt k m) eqn:E; [reflexivity|]. pose proof (Hu 0 (S i) c m eq_refl Hi ltac:(lia) ltac:(lia)). lia. }
      clear - Hz. induction cs as [|c cs IHc]; [reflexivity|]. rewrite cntl_cons, (Hz 0 c eq_refl), IHc; [reflexivity|]. intros i m Hi. exact (Hz (S i) m Hi). }
  destruct (id =? k) eqn:E; [|lia]. assert (Hz : cntl k cs = 0); [|lia]. specialize (Hr ltac:(lia)). clear - Hr.
  induction cs as [|c cs IHc]; [reflexivity|]. rewrite cntl_cons, (Hr 0 c eq_refl), IHc; [reflexivity|]. intros i m Hi. exact (Hr (S i) m Hi).
Qed.

Lemma common_cnt k st : forall et k0 i path t path' t' i', rt_common k0 i path t st et = (path', t', i') -> cntl k t' <= cntl k t.
Proof.
  induction st as [|s st IH]; intros et k0 i path t path' t' i' E; [cbn in E; injection E as <- <- <-; lia|].
  destruct et as [|e et]; [cbn in E; injection E as <- <- <-; lia|]. cbn [rt_common] in E.
  destruct t as [|[tk|l t0] [|? ?]]; try (injection E as <- <- <-; lia).
  destruct (s =? e); [|injection E as <- <- <-; lia]. pose proof (IH _ _ _ _ _ _ _ _ E). rewrite cntl_cons, cnt_ctx. lia.
Qed.
(** The trails that are left are forked too. *)
Lemma common_forked st : forall et k i path t path' t' i', forked st et -> (st = [] \/ et = [] -> i = k) ->
  rt_common k i path t st et = (path', t', i') -> exists z, path' = path ++ firstn z st /\ i' = k + z /\ z <= length st /\ forked (skipn z st) (skipn z et).
Proof.
  induction st as [|s st IH]; intros et k i path t path' t' i' Hf Hi E.
  - cbn in E. injection E as <- _ <-. exists 0. cbn. rewrite app_nil_r. split; [reflexivity|]. split; [rewrite Hi by auto; lia|]. split; [lia|exact Hf].
  - destruct et as [|e et].
    + cbn in E. injection E as <- _ <-. exists 0. cbn [firstn skipn]. rewrite app_nil_r. split; [reflexivity|]. split; [rewrite Hi by auto; lia|]. split; [lia|exact Hf].
    + cbn [rt_common] in E.
      assert (H0 : forall t1, (path, t1, k) = (path', t', i') -> exists z, path' = path ++ firstn z (s :: st) /\ i' = k + z /\ z <= length (s :: st) /\ forked (skipn z (s :: st)) (skipn z (e :: et))).
      { intros t1 E1. injection E1 as <- _ <-. exists 0. cbn [firstn skipn]. rewrite app_nil_r. split; [reflexivity|]. split; [lia|]. split; [lia|exact Hf]. }
      destruct t as [|[tk|l t0] [|? ?]]; try exact (H0 _ E). destruct (s =? e) eqn:Es; [|exact (H0 _ E)]. clear H0.
      assert (s = e) by lia. subst e.
      destruct Hf as [H|[H|(q & i0 & j0 & r1 & r2 & H1 & H2 & Hij)]]; try discriminate. destruct q as [|s' q]; [injection H1 as -> _; injection H2 as -> _; lia|].
      injection H1 as <- ->. injection H2 as ->.
      assert (Hf' : forked (q ++ i0 :: r1) (q ++ j0 :: r2)) by (right; right; exists q, i0, j0, r1, r2; auto).
      destruct (IH _ _ _ _ _ _ _ _ Hf' ltac:(intros [H|H]; destruct q; discriminate) E) as (z & G1 & G2 & G3 & G4). exists (S z). cbn [firstn skipn length].
      split; [rewrite G1, <- app_assoc; reflexivity|]. split; [lia|]. split; [lia|exact G4].
Qed.

(** The contexts that are invalidated are contexts of the old tree. *)
Lemma start_chain st : forall l0 c t se c', rt_start c t st se = Some c' -> chain_ids (Ctx l0 c') (removelast st) = chain_ids (Ctx l0 c) (removelast st).
Proof.
  induction st as [|i st IH]; intros l0 c t se c' E; [reflexivity|]. destruct st as [|i' st]; [reflexivity|].
  set (st' := i' :: st) in *. assert (Eq : rt_start c t (i :: st') se = match t, nth_error c i with
     | Ctx _ t0 :: ts, Some (Ctx l ci) => match rt_start ci t0 st' None with None => None
         | Some ci => Some (set_slice (firstn i c ++ Ctx l ci :: skipn (S i) c) (S i) se ts) end
     | _, _ => None end) by reflexivity. rewrite Eq in E. clear Eq.
  destruct t as [|[tk|lt t0] ts]; try discriminate. destruct (nth_error c i) as [[tk|[id l] ci]|] eqn:Ei; try discriminate.
  destruct (rt_start ci t0 st' None) as [ci'|] eqn:Es; [|discriminate].
  match type of E with Some ?u = _ => assert (E2 : c' = u) by congruence end. clear E. subst c'.
  assert (Hi : i < length c) by (apply nth_error_Some; congruence).
  assert (Hf : firstn (S i) (firstn i c ++ Ctx (id, l) ci' :: skipn (S i) c) = firstn i c ++ [Ctx (id, l) ci']).
  { rewrite firstn_app, firstn_firstn. replace (Nat.min (S i) i) with i by lia. rewrite firstn_length. replace (S i - Nat.min i (length c)) with 1 by lia. reflexivity. }
  unfold st' at 1 2. cbn [removelast]. fold st'. cbn [chain_ids children]. rewrite Ei. unfold set_slice. rewrite Hf, <- app_assoc.
  rewrite nth_error_app2 by (rewrite firstn_length; lia). rewrite firstn_length. replace (i - Nat.min i (length c)) with 0 by lia. cbn [app nth_error]. f_equal. exact (IH (id, l) ci t0 None ci' Es).
Qed.
Lemma update_chain path : forall n l c f, node_at n path = Some (Ctx l c) -> chain_ids (update_at n path f) path = chain_ids n path.
Proof.
  induction path as [|i p IH]; intros n l c f H; [reflexivity|]. destruct n as [t|l0 cs0]; [destruct i; discriminate|]. cbn [node_at children] in H.
  destruct (nth_error cs0 i) as [m|] eqn:Ei; [|discriminate]. cbn [update_at]. rewrite Ei. cbn [chain_ids children]. rewrite Ei.
  assert (Hi : i < length cs0) by (apply nth_error_Some; congruence).
  rewrite nth_error_app2 by (rewrite firstn_length; lia). rewrite firstn_length. replace (i - Nat.min i (length cs0)) with 0 by lia. cbn [app nth_error].
  destruct m as [t|[id l1] c1]; [destruct p as [|[|j] p]; discriminate|]. pose proof (IH _ _ _ f H) as HI.
  assert (Hu : exists c2, update_at (Ctx (id, l1) c1) p f = Ctx (id, l1) c2).
  { destruct p as [|j p]; cbn [update_at]; [eauto|]. destruct (nth_error c1 j); eauto. }
  destruct Hu as (c2 & Hu). rewrite Hu in *. f_equal. exact HI.
Qed.

End Trees.

Section Update.
Variables L A : Type.
Variable l_eq : L -> L -> bool.
Notation inode := (node (nat * L) A).
Notation M := (prod nat L).

Lemma trails_forked l cs (r : bresult M A) : wf_children cs -> at_tokens (Ctx l cs) r -> exists st et,
  (if r_start r =? 0 then Some [] else trail_of (find_token_left_with_trail cs (r_start r))) = Some st
  /\ (match r_lexicons r with None => trail_of (find_token_with_trail cs (r_end r)) | Some _ => Some [] end) = Some et /\ forked st et.
Proof.
  intros Hwf [Hs He].
  assert (H1 : exists st, (if r_start r =? 0 then Some [] else trail_of (find_token_left_with_trail cs (r_start r))) = Some st
     /\ (st <> [] -> exists t, node_at (Ctx l cs) st = Some (Tok t) /\ r_start r = k_end t)).
  { destruct Hs as [->|(p & t & Hat & ->)].
    - exists []. split; [reflexivity|congruence].
    - exists p. destruct (flat_at M A _ _ _ _ Hat) as (a & b & E). pose proof (proj2 Hwf) as Ho. rewrite E in Ho.
      assert (k_pos t < k_end t) by (apply (in_order_text _ _ _ Ho); apply in_or_app; right; left; reflexivity).
      replace (k_end t =? 0) with false by lia. rewrite (left_trail M A l cs p t Hwf Hat). split; [reflexivity|eauto]. }
  assert (H2 : exists et, (match r_lexicons r with None => trail_of (find_token_with_trail cs (r_end r)) | Some _ => Some [] end) = Some et
     /\ (et <> [] -> exists t, node_at (Ctx l cs) et = Some (Tok t) /\ r_end r = k_pos t /\ r_start r <= r_end r)).
  { destruct (r_lexicons r) as [ls|]; [exists []; split; [reflexivity|congruence]|]. destruct He as [Hl|(p & t & Hat & Hend & Hle)]; [congruence|].
    exists p. rewrite Hend, (right_trail M A l cs p t Hwf Hat). split; [reflexivity|]. intros _. exists t. rewrite <- Hend. auto. }
  destruct H1 as (st & E1 & Hst). destruct H2 as (et & E2 & Het). exists st, et. split; [exact E1|]. split; [exact E2|].
  destruct st as [|s st]; [left; reflexivity|]. destruct et as [|e et]; [right; left; reflexivity|].
  destruct (Hst ltac:(discriminate)) as (t1 & A1 & Hp1). destruct (Het ltac:(discriminate)) as (t2 & A2 & Hp2 & Hle). right. right.
  pose proof (proj2 Hwf) as Ho. rewrite <- (flatten_ctx M A l cs) in Ho. apply (paths_fork M A (Ctx l cs) Ho _ _ t1 t2 A1 A2).
  destruct (flat_at M A _ _ _ _ A1) as (a & b & E). pose proof (proj2 Hwf) as Ho'. rewrite E in Ho'.
  assert (k_pos t1 < k_end t1) by (apply (in_order_text _ _ _ Ho'); apply in_or_app; right; left; reflexivity). lia.
Qed.

Lemma update_tree l cs (r : bresult M A) T' p : wf_children cs -> at_tokens (Ctx l cs) r ->
  replace_itree l_eq (Ctx l cs) r = Some T' -> invalid_path l_eq (Ctx l cs) r = Some p ->
  (exists l' cs', T' = Ctx l' cs')
  /\ (forall k, cnt L A k T' <= cnt L A k (Ctx l cs) + cnt L A k (r_tree r))
  /\ (forall x, In x (subsl L A (children T')) ->
       idin L A x (children (r_tree r)) \/ In x (subsl L A cs) \/ (exists id, idof L A x = Some id /\ In id (chain_ids T' p)))
  /\ chain_ids T' p = chain_ids (Ctx l cs) p.
Proof.
  intros Hwf Hat E Ep. destruct (trails_forked l cs r Hwf Hat) as (st & et & Es & Ee & Hf).
  unfold replace_itree, replace_tree in E. unfold invalid_path in Ep. destruct (r_tree r) as [tk|lt t0]; [discriminate|].
  destruct (l_eq (snd lt) (snd l)); cbn [negb] in E, Ep.
  2:{ injection E as <-. injection Ep as <-. split; [eauto|]. split; [intros k; lia|]. split; [|reflexivity]. intros x Hx. left. exists x. auto. }
  rewrite Es, Ee in E, Ep. destruct (rt_common 0 0 [] t0 st et) as [[path t] i] eqn:Ec. injection Ep as <-.
  destruct (common_forked L A st et 0 0 [] t0 path t i Hf ltac:(auto) Ec) as (z & Hpath & Hi & _ & Hf'). cbn [app Nat.add] in Hpath, Hi. subst z.
  set (st' := skipn i st) in *. set (et' := skipn i et) in *.
  destruct (node_at (Ctx l cs) path) as [[tk|l1 c]|] eqn:En; try discriminate.
  destruct (rt_join (r_offset r) true c t et') as [t1|] eqn:Ej; [|discriminate]. destruct (rt_start c t1 st' (slice_end et')) as [c'|] eqn:Er; [|discriminate].
  set (T0 := update_at (Ctx l cs) path (fun _ => c')).
  assert (HT : unplace T' = unplace T0).
  { destruct (r_offset r =? 0)%Z; [injection E as <-; reflexivity|]. rewrite (ancestors_unplace L A _ _ _ _ _ E). apply update_ext. intros _.
    destruct (slice_end et'); [apply replace_pos_unplace|reflexivity]. }
  destruct (update_from L A path l cs l1 c (fun _ => c') En) as (Hat0 & Hfrom). fold T0 in Hat0, Hfrom.
  assert (HT0 : exists cs0, T0 = Ctx l cs0) by (unfold T0; destruct path as [|j path]; cbn [update_at]; [eauto|destruct (nth_error cs j); eauto]).
  destruct HT0 as (cs0 & HT0). destruct T' as [tk|l' cs']; [rewrite HT0 in HT; discriminate|].
  assert (Hch : forall q, chain_ids (Ctx l' cs') q = chain_ids T0 q) by (intros q; rewrite <- (chain_unplace L A q (Ctx l' cs')), HT; apply chain_unplace).
  split; [eauto|]. split; [|split].
  - intros k. rewrite (cnt_eq L A k _ _ HT). pose proof (update_cnt L A k path (Ctx l cs) l1 c (fun _ => c') En) as Hu. fold T0 in Hu. cbv beta in Hu.
    pose proof (start_cnt L A k _ _ _ _ _ Er). pose proof (join_cnt L A k _ _ _ _ _ _ Ej). pose proof (parts_le L A k c st' et' Hf'). pose proof (common_cnt L A k _ _ _ _ _ _ _ _ _ Ec).
    rewrite (cnt_ctx L A k lt t0). lia.
  - intros x Hx. assert (Hx0 : In x (subsl L A cs0)).
    { pose proof (subs_eq L A _ _ HT) as Hs. rewrite HT0 in Hs. rewrite !subs_ctx in Hs. injection Hs as _ _ Hs. cbn [children] in Hx. rewrite Hs in Hx. exact Hx. }
    rewrite Hch, (chain_app L A T0 path _ (removelast st') Hat0). assert (Hx1 : In x (subsl L A (children T0))) by (rewrite HT0; exact Hx0).
    destruct (Hfrom x Hx1) as [H|[H|(id & H1 & H2)]]; [auto| |].
    + destruct (start_from L A st' l1 c t1 (slice_end et') c' Er x H) as [G|[G|(id & G1 & G2)]].
      * destruct (join_from L A _ _ _ _ _ _ Ej x G) as [(y & Y1 & Y2)|Hc].
        -- left. exists y. split; [exact (common_sub L A _ _ _ _ _ _ _ _ _ Ec y Y1)|exact Y2].
        -- right. left. assert (Hsub : forall p n m, node_at n p = Some m -> forall y, In y (subsl L A (children m)) -> In y (subsl L A (children n))).
           { clear. induction p as [|j p IH]; intros n m Hn y Hy; [injection Hn as ->; exact Hy|]. cbn [node_at] in Hn.
             destruct (nth_error (children n) j) as [m'|] eqn:Ej; [|discriminate]. exact (subsl_nth L A _ _ _ _ Ej (IH _ _ Hn _ Hy)). }
           exact (Hsub path (Ctx l cs) _ En x Hc).
      * right. left. assert (Hsub : forall p n m, node_at n p = Some m -> forall y, In y (subsl L A (children m)) -> In y (subsl L A (children n))).
        { clear. induction p as [|j p IH]; intros n m Hn y Hy; [injection Hn as ->; exact Hy|]. cbn [node_at] in Hn.
          destruct (nth_error (children n) j) as [m'|] eqn:Ej; [|discriminate]. exact (subsl_nth L A _ _ _ _ Ej (IH _ _ Hn _ Hy)). }
        exact (Hsub path (Ctx l cs) _ En x G).
      * right. right. exists id. split; [exact G1|]. apply in_or_app. right. exact G2.
    + right. right. exists id. split; [exact H1|]. apply in_or_app. left. exact H2.
  - rewrite Hch, (chain_app L A T0 path _ (removelast st') Hat0), (chain_app L A (Ctx l cs) path _ (removelast st') En).
    f_equal; [exact (update_chain L A path (Ctx l cs) l1 c _ En)|]. exact (start_chain L A st' l1 c t1 _ c' Er).
Qed.
End Update.

Section Cache.
Variables L A R Lang Name Arg : Type.
Variable lang : L -> Lang.
Variable name : L -> Name.
Variable arg : L -> Arg.
Variable lang_is : Lang -> Lang -> bool.
Hypothesis lang_is_spec : forall a b, lang_is a b = true <-> a = b.
Variable get_transform : Lang -> transform L A R Name Arg.
Variable l_eq : L -> L -> bool.
Notation meth := (method_of lang name get_transform).
Notation itemsof := (items_of lang name arg get_transform).
Notation mean := (meaning lang name arg get_transform).
Notation right := (cache_right lang name arg get_transform).
Notation cachedin := (cached L A R Lang Name Arg lang name get_transform).
Notation closedin := (closed L A R Lang Name Arg lang name get_transform).
Notation inode := (node (nat * L) A).
Notation cache := (cache R).
Notation ttree := (transform_tree L A R Lang Name Arg lang name arg lang_is get_transform).

Lemma erase_unplace (n : inode) : erase (unplace n) = unplace (erase n).
Proof.
  induction n as [t|[id l] cs IH] using node_ind'; [reflexivity|]. cbn [unplace erase]. f_equal. rewrite !map_map.
  induction IH as [|c cs Hc _ IHc]; [reflexivity|]. cbn [map]. rewrite Hc, IHc. reflexivity.
Qed.

(** Nodes that only differ in positions have the same meaning. *)
Lemma blind_items (Hb : position_blind lang name get_transform) (n : node L A) : forall n' add, unplace n = unplace n' ->
  map unplace_item (itemsof add n) = map unplace_item (itemsof add n') /\ mean n = mean n'.
Proof.
  induction n as [t|l cs IH] using node_ind'; intros [t'|l' cs'] add H; try discriminate.
  - cbn [unplace] in H. injection H as H1 H2 H3. split; [|reflexivity]. cbn [items_of map unplace_item]. unfold unplace_tok. rewrite H1, H2, H3. reflexivity.
  - cbn [unplace] in H. injection H as <- H.
    assert (Hi : forall a, map unplace_item (concat (map (itemsof a) cs)) = map unplace_item (concat (map (itemsof a) cs'))).
    { intros a. revert cs' H. induction IH as [|c cs Hc _ IHc]; intros [|c' cs'] H; try discriminate; [reflexivity|]. cbn [map concat] in *. injection H as H1 H2.
      rewrite !map_app, (proj1 (Hc c' a H1)), (IHc cs' H2). reflexivity. }
    cbn [items_of meaning]. destruct (meth l) as [m|] eqn:Em.
    + cbn [option_map]. rewrite (Hb l m (arg l) _ _ Em (Hi (m_untransformed m))). auto.
    + split; [|reflexivity]. destruct add; [|reflexivity]. cbn [map unplace_item unplace]. rewrite H. reflexivity.
Qed.
Lemma blind_mean (Hb : position_blind lang name get_transform) (n n' : inode) : unplace n = unplace n' -> mean (erase n) = mean (erase n').
Proof. intros H. apply (blind_items Hb _ _ false). rewrite <- !erase_unplace, H. reflexivity. Qed.

Lemma invalidate_ok ids : forall (ca ca' : cache), invalidate ca ids = Some ca' -> forall id, ca' id = if existsb (Nat.eqb id) ids then None else ca id.
Proof.
  induction ids as [|i ids IH]; intros ca ca' E id; cbn [invalidate existsb] in *; [injection E as <-; reflexivity|].
  destruct (ca i); [|discriminate]. rewrite (IH _ _ E id). destruct (existsb (Nat.eqb id) ids); destruct (id =? i); reflexivity.
Qed.
Lemma invalidate_some ids : forall (ca : cache), NoDup ids -> (forall id, In id ids -> ca id <> None) -> exists ca', invalidate ca ids = Some ca'.
Proof.
  induction ids as [|i ids IH]; intros ca Hn H; cbn [invalidate]; [eauto|]. destruct (ca i) eqn:E; [|exfalso; apply (H i); [left; reflexivity|exact E]].
  remember (i :: ids) as l0. destruct Hn as [|i0 ids0 Hi Hn]; [discriminate|]. injection Heql0 as -> ->.
  apply IH; [exact Hn|]. intros id Hid. destruct (id =? i) eqn:Ei; [assert (id = i) by lia; subst; contradiction|]. apply H. right. exact Hid.
Qed.
Lemma in_chain (T : inode) p id : In id (chain_ids T p) -> exists q r l cs, p = q ++ r /\ q <> [] /\ node_at T q = Some (Ctx (id, l) cs).
Proof.
  revert T. induction p as [|i p IH]; intros T H; [destruct H|]. cbn [chain_ids] in H. destruct (nth_error (children T) i) as [[t|[id' l] cs]|] eqn:E; [destruct H| |destruct H].
  destruct H as [->|H].
  - exists [i], p, l, cs. split; [reflexivity|]. split; [discriminate|]. cbn [node_at]. rewrite E. reflexivity.
  - destruct (IH _ H) as (q & r & l' & cs' & -> & Hq & Hat). exists (i :: q), r, l', cs'. split; [reflexivity|]. split; [discriminate|]. cbn [node_at]. rewrite E. exact Hat.
Qed.
Lemma chain_in (T : inode) q r id l cs : q <> [] -> node_at T q = Some (Ctx (id, l) cs) -> In id (chain_ids T (q ++ r)).
Proof.
  revert T. induction q as [|i q IH]; intros T Hq Hat; [congruence|]. cbn [app chain_ids node_at] in *. destruct (nth_error (children T) i) as [m|]; [|discriminate].
  destruct q as [|j q]; [injection Hat as ->; left; reflexivity|]. destruct m as [t|[id' l'] cs']; [destruct j; discriminate|]. right. apply IH; [discriminate|exact Hat].
Qed.

Definition good (s : ustate L A R) : Prop :=
  (exists l cs, u_tree s = Ctx l cs) /\ distinct (u_tree s) /\ right (tc_nodes (u_cache s)) (u_tree s) /\ closedin (tc_nodes (u_cache s)) (u_tree s).

Lemma has_cnt k (n : inode) : 1 <= cnt L A k n <-> has_id k n.
Proof. split; [intros H; exact (pos_cnt L A k n H)|]. intros (p & l & cs & H). exact (cnt_pos L A k n p l cs H). Qed.

Lemma update_good (Hb : position_blind lang name get_transform) s r s' : good s -> wf_children (children (u_tree s)) -> at_tokens (u_tree s) r -> fresh s r ->
  u_update l_eq s r = Some s' -> good s'.
Proof.
  intros ((l & cs & Ht) & Hd & Hr & Hc) Hwf Hat [Hd' Hfr] E. unfold u_update in E.
  destruct (replace_itree l_eq (u_tree s) r) as [T'|] eqn:Er; [|discriminate]. destruct (invalid_path l_eq (u_tree s) r) as [p|] eqn:Ep; [|discriminate].
  destruct (invalidate_node (tc_nodes (u_cache s)) T' p) as [ca|] eqn:Ei; [|discriminate]. injection E as <-.
  rewrite Ht in Hwf, Hat, Er, Ep. cbn [children] in Hwf.
  destruct (update_tree L A l_eq l cs r T' p Hwf Hat Er Ep) as ((l' & cs' & HT) & Hcnt & Hfrom & _).
  assert (HdT : distinct T').
  { apply (once_distinct L A). intros k. specialize (Hcnt k). pose proof (distinct_once L A _ Hd k) as C1. pose proof (distinct_once L A _ Hd' k) as C2. rewrite Ht in C1.
    destruct (cnt L A k (r_tree r)) as [|z] eqn:Ez; [lia|]. assert (Hh : has_id k (r_tree r)) by (apply has_cnt; lia). destruct (Hfr k Hh) as [Hno _].
    destruct (cnt L A k (Ctx l cs)) as [|z'] eqn:Ez'; [lia|]. exfalso. apply Hno. rewrite Ht. apply has_cnt. lia. }
  unfold invalidate_node in Ei. pose proof (invalidate_ok _ _ _ Ei) as Hca.
  assert (Hkeep : forall id v, ca id = Some v -> tc_nodes (u_cache s) id = Some v /\ ~ In id (chain_ids T' p)).
  { intros id v Hv. rewrite Hca in Hv. destruct (existsb (Nat.eqb id) (rev (chain_ids T' p))) eqn:Ee; [discriminate|]. split; [exact Hv|]. intros Hin.
    assert (existsb (Nat.eqb id) (rev (chain_ids T' p)) = true); [|congruence]. apply existsb_exists. exists id. split; [apply -> in_rev; exact Hin|apply Nat.eqb_refl]. }
  assert (Hold : forall q id l1 cs1 v, q <> [] -> node_at T' q = Some (Ctx (id, l1) cs1) -> ca id = Some v ->
     exists q' cs2, q' <> [] /\ node_at (Ctx l cs) q' = Some (Ctx (id, l1) cs2) /\ unplace (Ctx (id, l1) cs2) = unplace (Ctx (id, l1) cs1)).
  { intros q id l1 cs1 v Hq Hqt Hv. destruct (Hkeep id v Hv) as [Hv' Hnc]. rewrite HT in Hqt. pose proof (subsl_at L A l' cs' q (id, l1) cs1 Hq Hqt) as Hin.
    assert (Ecs : cs' = children T') by (rewrite HT; reflexivity). rewrite Ecs in Hin. destruct (Hfrom _ Hin) as [(y & Hy & Hyi)|[Ho|(id' & Hi1 & Hi2)]].
    - exfalso. destruct (r_tree r) as [tk|lr tr] eqn:Etr; [destruct Hy|]. destruct (at_subsl L A lr tr y Hy) as (q2 & [i2 l2] & cs2 & _ & Hq2 & <-).
      rewrite idof_unplace in Hyi. cbn in Hyi. injection Hyi as ->. destruct (Hfr id) as [_ Hn]; [exists q2, l2, cs2; exact Hq2|]. congruence.
    - destruct (at_subsl L A l cs _ Ho) as (q2 & [i2 l2] & cs2 & Hq2 & Hat2 & Hun). assert (Hun' := Hun). cbn [unplace] in Hun'. injection Hun' as -> -> _. exists q2, cs2. auto.
    - exfalso. rewrite idof_unplace in Hi1. cbn in Hi1. injection Hi1 as <-. exact (Hnc Hi2). }
  split; [cbn [u_tree]; eauto|]. split; [exact HdT|]. cbn [u_tree u_cache tc_nodes]. split.
  - intros q id l1 cs1 v Hq Hqt Hv. destruct (Hold _ _ _ _ _ Hq Hqt Hv) as (q' & cs2 & Hq' & Hat' & Hun). destruct (Hkeep id v Hv) as [Hv' _].
    rewrite (blind_mean Hb _ _ (eq_sym Hun)). apply (Hr q' id l1 cs2 v Hq'); [rewrite Ht; exact Hat'|exact Hv'].
  - intros q id l1 cs1 Hq Hqt Hne id2 l2 ccs2 Hin Hm. destruct (ca id) as [v|] eqn:Hv; [|congruence].
    destruct (Hold _ _ _ _ _ Hq Hqt Hv) as (q' & cs2 & Hq' & Hat' & Hun). destruct (Hkeep id v Hv) as [Hv' Hnc].
    assert (Hin2 : exists ccs3, In (Ctx (id2, l2) ccs3) cs2).
    { cbn [unplace] in Hun. injection Hun as Hun. apply (in_map unplace) in Hin. rewrite <- Hun in Hin. apply in_map_iff in Hin as ([tk|[i3 l3] ccs3] & H1 & H2); [discriminate|].
      cbn [unplace] in H1. injection H1 as -> -> _. eauto. }
    destruct Hin2 as (ccs3 & Hin2). rewrite <- Ht in Hat'. assert (Hcc : tc_nodes (u_cache s) id2 <> None) by (apply (Hc q' id l1 cs2 Hq' Hat' ltac:(congruence) id2 l2 ccs3 Hin2 Hm)).
    rewrite Hca. destruct (existsb (Nat.eqb id2) (rev (chain_ids T' p))) eqn:Ee; [|exact Hcc].
    exfalso. apply existsb_exists in Ee as (x & Hx & Hxe). assert (x = id2) by lia. subst x. apply in_rev in Hx.
    destruct (in_chain T' p id2 Hx) as (q1 & r1 & l3 & cs3 & Ep' & Hq1 & Hat1). apply In_nth_error in Hin as (j & Hj).
    assert (Hat2 : node_at T' (q ++ [j]) = Some (Ctx (id2, l2) ccs2)) by (rewrite (node_at_last _ _ _ _ _ _ Hqt); exact Hj).
    pose proof (HdT _ _ _ _ _ _ _ Hat1 Hat2) as Eq1. apply Hnc. rewrite Ep', Eq1, <- app_assoc. exact (chain_in T' q _ id l1 cs1 Hq Hqt).
Qed.

Lemma transform_good s intr done s' : good s ->
  u_transform L A R Lang Name Arg lang name arg lang_is get_transform s intr done = Some s' -> good s' /\ u_tree s' = u_tree s.
Proof.
  intros ((l & cs & Ht) & Hd & Hr & Hc) E. unfold u_transform, t_process in E. destruct l as [id l].
  destruct (tree_ok L A R Lang Name Arg lang name arg lang_is lang_is_spec get_transform (u_tree s) Hd (tc_nodes (u_cache s)) intr id l cs Ht (conj Hr Hc)) as (o & ca' & E1 & [H1 H2] & _).
  rewrite E1 in E. destruct o as [v|]; cbn [option_map] in E; injection E as <-; (split; [|reflexivity]); (split; [cbn [u_tree]; eauto|split; [exact Hd|split; assumption]]).
Qed.

Lemma history_good (Hb : position_blind lang name get_transform) s : history lang name arg lang_is get_transform l_eq s -> good s.
Proof.
  intros H. induction H as [l cs Hd|s r s' _ IH Hwf Hat Hfr E|s intr done s' _ IH E].
  - split; [cbn [u_tree]; eauto|]. split; [exact Hd|]. split; [intros ? ? ? ? ? ? ? Hv; discriminate|]. intros ? ? ? ? ? ? Hv. exfalso. apply Hv. reflexivity.
  - exact (update_good Hb s r s' IH Hwf Hat Hfr E).
  - exact (proj1 (transform_good s intr done s' IH E)).
Qed.

(** A run that is not interrupted. *)
Lemma history_run (Hb : position_blind lang name get_transform) s : history lang name arg lang_is get_transform l_eq s ->
  exists ca, ttree (tc_nodes (u_cache s)) (u_tree s) None = Some (Value (mean (erase (u_tree s))), ca).
Proof.
  intros H. destruct (history_good Hb s H) as (([id l] & cs & Ht) & Hd & Hr & Hc).
  destruct (tree_ok L A R Lang Name Arg lang name arg lang_is lang_is_spec get_transform (u_tree s) Hd (tc_nodes (u_cache s)) None id l cs Ht (conj Hr Hc)) as (o & ca' & E1 & _ & _ & _ & E2).
  exists ca'. destruct o as [v|]; [|congruence]. destruct E2 as [-> _]. exact E1.
Qed.
(** After a run that is not interrupted the results of contexts are there if all contexts around them have a method. *)
Lemma run_cached s s1 done (Hb : position_blind lang name get_transform) : history lang name arg lang_is get_transform l_eq s ->
  u_transform L A R Lang Name Arg lang name arg lang_is get_transform s None done = Some s1 ->
  u_tree s1 = u_tree s /\ forall p, (forall q r id l cs, p = q ++ r -> node_at (u_tree s) q = Some (Ctx (id, l) cs) -> meth l <> None) ->
    forall q r id l cs, p = q ++ r -> q <> [] -> node_at (u_tree s) q = Some (Ctx (id, l) cs) -> tc_nodes (u_cache s1) id <> None.
Proof.
  intros H E. destruct (history_good Hb s H) as (([id0 l0] & cs0 & Ht) & Hd & Hr & Hc).
  unfold u_transform, t_process in E.
  destruct (tree_ok L A R Lang Name Arg lang name arg lang_is lang_is_spec get_transform (u_tree s) Hd (tc_nodes (u_cache s)) None id0 l0 cs0 Ht (conj Hr Hc)) as (o & ca' & E1 & [H1 H2] & _ & _ & H3).
  rewrite E1 in E. destruct o as [v|]; [|congruence]. destruct H3 as [_ H3]. cbn [option_map] in E. injection E as <-. split; [reflexivity|]. cbn [u_cache tc_nodes].
  intros p Hp q. induction q as [|j q IH] using rev_ind; intros r id l cs Ep Hq Hat; [congruence|].
  pose proof (Hp _ _ _ _ _ Ep Hat) as Hm. rewrite node_at_app in Hat.
  destruct (node_at (u_tree s) q) as [[tk|[id' l'] cs']|] eqn:Eq; [destruct j; discriminate| |discriminate].
  cbn [node_at children] in Hat. destruct (nth_error cs' j) as [m|] eqn:Ej; [|discriminate]. injection Hat as ->. apply nth_error_In in Ej.
  rewrite <- app_assoc in Ep. pose proof (Hp _ _ _ _ _ Ep Eq) as Hm'. destruct q as [|k q].
  - cbn [node_at] in Eq. rewrite Ht in Eq. injection Eq as -> -> ->. exact (H3 Hm' id l cs Ej Hm).
  - exact (H2 (k :: q) id' l' cs' ltac:(discriminate) Eq (IH _ _ _ _ Ep ltac:(discriminate) eq_refl) id l cs Ej Hm).
Qed.

Lemma chain_nodup (T : inode) p : distinct T -> NoDup (chain_ids T p).
Proof.
  revert T. induction p as [|i p IH]; intros T Hd; [constructor|]. cbn [chain_ids]. destruct (nth_error (children T) i) as [[t|[id l] cs]|] eqn:E; [constructor| |constructor].
  assert (Hd' : distinct (Ctx (id, l) cs)).
  { intros q1 q2 id' l1 cs1 l2 cs2 H1 H2. assert (X : i :: q1 = i :: q2) by (apply (Hd (i :: q1) (i :: q2) id' l1 cs1 l2 cs2); cbn [node_at]; rewrite E; assumption). injection X as X. exact X. }
  constructor; [|exact (IH _ Hd')]. intros Hin. destruct (in_chain _ _ _ Hin) as (q & r & l' & cs' & _ & Hq & Hat).
  assert (X : q = []) by (apply (Hd' q [] id l' cs' l cs Hat); reflexivity). exact (Hq X).
Qed.

Lemma update_runs (Hb : position_blind lang name get_transform) s s1 done r T' p : history lang name arg lang_is get_transform l_eq s ->
  u_transform L A R Lang Name Arg lang name arg lang_is get_transform s None done = Some s1 ->
  wf_children (children (u_tree s)) -> at_tokens (u_tree s) r ->
  replace_itree l_eq (u_tree s) r = Some T' -> invalid_path l_eq (u_tree s) r = Some p ->
  (forall q r id l cs, p = q ++ r -> node_at (u_tree s) q = Some (Ctx (id, l) cs) -> meth l <> None) ->
  exists s2, u_update l_eq s1 r = Some s2 /\ u_tree s2 = T'.
Proof.
  intros H E Hwf Hat Er Ep Hm. destruct (run_cached s s1 done Hb H E) as (Ht & Hc). specialize (Hc p Hm).
  destruct (history_good Hb s H) as ((l0 & cs0 & Ht0) & Hd & _). unfold u_update. rewrite Ht, Er, Ep. unfold invalidate_node.
  assert (Hch : chain_ids T' p = chain_ids (u_tree s) p).
  { rewrite Ht0 in Hwf, Hat, Er, Ep |- *. cbn [children] in Hwf. apply (update_tree L A l_eq l0 cs0 r T' p Hwf Hat Er Ep). }
  rewrite Hch. destruct (invalidate_some (rev (chain_ids (u_tree s) p)) (tc_nodes (u_cache s1))) as (ca & ->); [apply NoDup_rev, chain_nodup; exact Hd| |].
  - intros id Hin. apply in_rev in Hin. destruct (in_chain _ _ _ Hin) as (q & r' & l & cs & Eq & Hq & Hqt). exact (Hc q r' id l cs Eq Hq Hqt).
  - eexists. split; reflexivity.
Qed.
End Cache.
