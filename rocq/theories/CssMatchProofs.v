(** Proofs about lists of selectors and operators. *)
From Verif Require Import Base CssModel CssSpec CssProofs.

Lemma alternating_last : forall l, alternating l -> exists s rest, rev l = Sel s :: rest.
Proof.
  intros l A. destruct A as [s | l o s A].
  - exists s, []. reflexivity.
  - exists s, (Op o :: rev l). rewrite rev_app_distr. reflexivity.
Qed.
Lemma ops_of_snoc : forall l o s, ops_of (l ++ [Op o; Sel s]) = ops_of l ++ [o].
Proof. intros l o s. unfold ops_of. rewrite flat_map_app. reflexivity. Qed.
Lemma sels_of_snoc : forall l o s, sels_of (l ++ [Op o; Sel s]) = sels_of l ++ [s].
Proof. intros l o s. unfold sels_of. rewrite flat_map_app. reflexivity. Qed.
Lemma says_true : forall s, says_something s -> sel_true s = true.
Proof.
  intros s [H _]. unfold sel_true.
  destruct (s_class s); [| reflexivity]. destruct (s_element s); [| reflexivity].
  destruct (s_id s); [| reflexivity]. destruct (s_attr s); [| reflexivity].
  destruct (s_pclass s); [| reflexivity]. destruct (s_pelement s); [| reflexivity].
  exfalso. intuition.
Qed.
Lemma combinator_true : forall o, combinator o -> item_true (Op o) = true.
Proof. intros o [<- | [<- | [<- | [<- | []]]]]; reflexivity. Qed.

Section Match.
Variable space : nat -> bool.
Variable lower : str -> str.
Variable root : elem.
Hypothesis D : dict_tree root.

Lemma first_match_find : forall s l,
  first_match space lower root (Sel s) l = Some (find (fun q => match_selector space lower root q s) l).
Proof.
  intros s l. induction l as [| q l IH]; [reflexivity |].
  cbn [first_match match_item find]. destruct (match_selector space lower root q s); [reflexivity | exact IH].
Qed.

Lemma candidates_iff : forall o p q, combinator o -> In q (candidates (Op o) p) <-> comb o q p.
Proof.
  intros o p q Ho. unfold comb. destruct Ho as [<- | [<- | [<- | [<- | []]]]]; unfold candidates.
  - change (str_eqb op_child op_child) with true. cbv iota. pose proof (get_parent_iff p q) as G.
    destruct (get_parent p) as [r |]; cbn [In].
    + split.
      * intros [-> | []]. left. split; [reflexivity | apply G; reflexivity].
      * intros [[_ H] | [[E _] | [[E _] | [E _]]]]; try discriminate. apply G in H. left. congruence.
    + split; [intros [] |]. intros [[_ H] | [[E _] | [[E _] | [E _]]]]; try discriminate. apply G in H. discriminate.
  - change (str_eqb op_desc op_child) with false. change (str_eqb op_desc op_desc) with true. cbv iota.
    rewrite ancestors_iff. split; [intros H; right; left; auto |].
    intros [[E _] | [[_ H] | [[E _] | [E _]]]]; try discriminate. exact H.
  - change (str_eqb op_next op_child) with false. change (str_eqb op_next op_desc) with false.
    change (str_eqb op_next op_next) with true. cbv iota.
    rewrite previous_one_iff. split; [intros H; right; right; left; auto |].
    intros [[E _] | [[E _] | [[_ H] | [E _]]]]; try discriminate. exact H.
  - change (str_eqb op_subs op_child) with false. change (str_eqb op_subs op_desc) with false.
    change (str_eqb op_subs op_next) with false. cbv iota.
    rewrite previous_iff. split; [intros H; right; right; right; auto |].
    intros [[E _] | [[E _] | [[E _] | [_ H]]]]; try discriminate. exact H.
Qed.

Lemma match_selectors_one : forall p s,
  match_selectors space lower root p [Sel s] = Some (sel_true s && match_selector space lower root p s).
Proof.
  intros p s. unfold match_selectors. cbn [rev app item_true match_item match_loop].
  destruct (sel_true s); [| reflexivity]. cbn [negb]. destruct (match_selector space lower root p s); reflexivity.
Qed.
(** One step to the left. *)
Lemma match_selectors_snoc : forall l o s p, alternating l -> item_true (Op o) = true ->
  (forall x, In x (sels_of l) -> sel_true x = true) -> sel_true s = true ->
  exists s', (exists l', l = l' ++ [Sel s']) /\
  match_selectors space lower root p (l ++ [Op o; Sel s]) =
    if match_selector space lower root p s then
      match find (fun q => match_selector space lower root q s') (candidates (Op o) p) with
      | Some q => match_selectors space lower root q l
      | None => Some false
      end
    else Some false.
Proof.
  intros l o s p A Ho Hl Hs. destruct (alternating_last l A) as (s' & rest & E). exists s'.
  assert (l = rev rest ++ [Sel s']) as El.
  { rewrite <- (rev_involutive l), E. reflexivity. }
  split; [exists (rev rest); exact El |].
  unfold match_selectors at 1. rewrite rev_app_distr, E. cbn [rev app item_true]. rewrite Hs. cbn [negb match_item].
  destruct (match_selector space lower root p s); [| reflexivity].
  assert (sel_true s' = true) as Hs'.
  { apply Hl. rewrite El. unfold sels_of. rewrite flat_map_app. apply in_or_app. right. left. reflexivity. }
  cbn [match_loop]. rewrite Ho. cbn [item_true]. rewrite Hs'. cbn [andb]. rewrite first_match_find.
  destruct (find (fun q => match_selector space lower root q s') (candidates (Op o) p)) as [q |] eqn:F; [| reflexivity].
  apply find_some in F as [_ F]. unfold match_selectors. rewrite E. cbn [item_true match_item].
  rewrite Hs', F. reflexivity.
Qed.

(** What is found is what is there: with every selector saying something, the answer "yes" is right. *)
Lemma matches_sound : forall l, alternating l -> forall p,
  (forall o, In o (ops_of l) -> combinator o) -> (forall s, In s (sels_of l) -> says_something s) ->
  match_selectors space lower root p l = Some true -> matches space lower root l p.
Proof.
  intros l A. induction A as [s | l o s A IH]; intros p Ho Hs H.
  - rewrite match_selectors_one in H. injection H as H. apply andb_true_iff in H as [_ H].
    constructor. apply match_selector_iff in H; auto. apply Hs. left. reflexivity.
  - rewrite ops_of_snoc in Ho. rewrite sels_of_snoc in Hs.
    assert (combinator o) as Co by (apply Ho, in_or_app; right; left; reflexivity).
    assert (says_something s) as Ss by (apply Hs, in_or_app; right; left; reflexivity).
    assert (forall x, In x (sels_of l) -> says_something x) as Sl by (intros x Hx; apply Hs, in_or_app; left; exact Hx).
    destruct (match_selectors_snoc l o s p A (combinator_true o Co) (fun x Hx => says_true x (Sl x Hx)) (says_true s Ss))
      as (s' & _ & E).
    rewrite E in H. destruct (match_selector space lower root p s) eqn:M; [| discriminate].
    destruct (find _ _) as [q |] eqn:F; [| discriminate].
    apply find_some in F as [F _]. apply candidates_iff in F; [| exact Co].
    apply (m_comb space lower root l o s q p); [| exact F |].
    + apply IH; auto. intros x Hx. apply Ho, in_or_app. left. exact Hx.
    + apply match_selector_iff in M; auto. apply Ss.
Qed.
Lemma never_raises : forall l, alternating l -> forall p,
  (forall o, In o (ops_of l) -> combinator o) -> (forall s, In s (sels_of l) -> says_something s) ->
  exists b, match_selectors space lower root p l = Some b.
Proof.
  intros l A. induction A as [s | l o s A IH]; intros p Ho Hs.
  - rewrite match_selectors_one. eexists. reflexivity.
  - rewrite ops_of_snoc in Ho. rewrite sels_of_snoc in Hs.
    assert (combinator o) as Co by (apply Ho, in_or_app; right; left; reflexivity).
    assert (says_something s) as Ss by (apply Hs, in_or_app; right; left; reflexivity).
    assert (forall x, In x (sels_of l) -> says_something x) as Sl by (intros x Hx; apply Hs, in_or_app; left; exact Hx).
    destruct (match_selectors_snoc l o s p A (combinator_true o Co) (fun x Hx => says_true x (Sl x Hx)) (says_true s Ss))
      as (s' & _ & E).
    rewrite E. destruct (match_selector space lower root p s); [| exists false; reflexivity].
    destruct (find _ _) as [q |]; [| exists false; reflexivity].
    apply IH; auto. intros x Hx. apply Ho, in_or_app. left. exact Hx.
Qed.

(** ** The nearest one is as good as any *)
Lemma find_ancestor : forall f p q, ancestor_of q p -> f q = true ->
  exists q', find f (ancestors p) = Some q' /\ f q' = true /\ (q' = q \/ ancestor_of q q').
Proof.
  intros f p q. induction p as [| i p IH] using rev_ind; intros H Hf.
  - apply ancestors_iff in H. destruct H.
  - rewrite ancestors_snoc. cbn [find]. apply ancestors_iff in H. rewrite ancestors_snoc in H.
    destruct (f p) eqn:E.
    + exists p. split; [reflexivity |]. split; [exact E |]. destruct H as [-> | H]; [left; reflexivity | right].
      apply ancestors_iff. exact H.
    + destruct H as [<- | H]; [congruence |]. apply IH; [apply ancestors_iff; exact H | exact Hf].
Qed.
Lemma find_sibling : forall f p q, sibling_before q p -> f q = true ->
  exists q', find f (previous_siblings p) = Some q' /\ f q' = true /\ (q' = q \/ sibling_before q q').
Proof.
  intros f p q (d & Hd & r & i & -> & ->) Hf. rewrite previous_snoc.
  assert (exists n, n = i + d) as [n En] by (eexists; reflexivity). rewrite <- En.
  assert (i < n) as L by lia. clear Hd En d.
  induction n as [| n IH]; [lia |].
  rewrite seq_S, rev_app_distr. cbn [rev app map find]. destruct (f (r ++ [0 + n])) eqn:E.
  - exists (r ++ [n]). split; [reflexivity |]. split; [exact E |].
    destruct (Nat.eq_dec n i) as [-> | N]; [left; reflexivity | right].
    exists (n - i). split; [lia |]. exists r, i. split; [reflexivity |]. do 2 f_equal. lia.
  - destruct (Nat.eq_dec n i) as [-> | N]; [cbn [plus] in E; congruence |]. apply IH. lia.
Qed.

Lemma ancestor_trans : forall a b c, ancestor_of a b -> ancestor_of b c -> ancestor_of a c.
Proof.
  intros a b c (r1 & N1 & ->) (r2 & N2 & ->). exists (r1 ++ r2).
  split; [destruct r1; [congruence | discriminate] | symmetry; apply app_assoc].
Qed.
Lemma sibling_trans : forall a b c, sibling_before a b -> sibling_before b c -> sibling_before a c.
Proof.
  intros a b c (d1 & H1 & r1 & i1 & -> & ->) (d2 & H2 & r2 & i2 & E & ->).
  apply app_inj_tail in E as [<- <-]. exists (d1 + d2). split; [lia |]. exists r1, i1. split; [reflexivity |].
  do 2 f_equal. lia.
Qed.
Lemma sibling_child : forall a b c, sibling_before a b -> child_of a c -> child_of b c.
Proof.
  intros a b c (d1 & H1 & r1 & i1 & -> & ->) (j & E). apply app_inj_tail in E as [-> ->]. eexists. reflexivity.
Qed.
Lemma sibling_ancestor : forall a b c, sibling_before a b -> ancestor_of c a -> ancestor_of c b.
Proof.
  intros a b c (d1 & H1 & r1 & i1 & -> & ->) (r & N & E). destruct r as [| x r _] using rev_ind; [congruence |].
  rewrite app_assoc in E. apply app_inj_tail in E as [-> ->]. exists (r ++ [x + d1]). split; [destruct r; discriminate |].
  apply eq_sym, app_assoc.
Qed.

(** Moving a match to a nearer element. *)
Lemma last_compound : forall l s p, matches space lower root (l ++ [Sel s]) p -> compound_holds space lower root p s.
Proof.
  intros l s p M. inversion M as [s1 p1 C E1 E2 | l1 o1 s1 q1 p1 M1 C1 H1 E1 E2]; subst.
  - assert ([] ++ [Sel s1] = l ++ [Sel s]) as E by exact E1. apply app_inj_tail in E as [_ E]. congruence.
  - change [Op o1; Sel s1] with ([Op o1] ++ [Sel s1]) in E1. rewrite app_assoc in E1.
    apply app_inj_tail in E1 as [_ E]. congruence.
Qed.
Lemma matches_shift : forall l s q q', alternating (l ++ [Sel s]) -> matches space lower root (l ++ [Sel s]) q ->
  compound_holds space lower root q' s ->
  (exists o, (forall a o1, ops_of (l ++ [Sel s]) = a ++ [o1] -> greedy_pair o1 o) /\
    ((o = op_desc /\ ancestor_of q q') \/ (o = op_subs /\ sibling_before q q'))) ->
  matches space lower root (l ++ [Sel s]) q'.
Proof.
  intros l s q q' A M C (o & G & H).
  inversion M as [s1 p1 C1 E1 E2 | l1 o1 s1 q1 p1 M1 C1 H1 E1 E2]; subst.
  - assert ([] ++ [Sel s1] = l ++ [Sel s]) as E by exact E1. apply app_inj_tail in E as [<- E]. injection E as ->.
    constructor. exact C.
  - change [Op o1; Sel s1] with ([Op o1] ++ [Sel s1]) in E1. rewrite app_assoc in E1.
    apply app_inj_tail in E1 as [<- E]. injection E as ->.
    rewrite <- app_assoc in *. cbn [app] in *. rewrite ops_of_snoc in G. specialize (G _ _ eq_refl).
    apply (m_comb space lower root l1 o1 s q1 q'); [exact M1 | | exact C].
    destruct G as [G1 G2]. destruct H as [[-> H] | [-> H]].
    + assert (o1 = op_desc) as -> by (apply G1; reflexivity).
      destruct C1 as [[E _] | [[_ C1] | [[E _] | [E _]]]]; try discriminate.
      right. left. split; [reflexivity |]. eapply ancestor_trans; eassumption.
    + assert (o1 <> op_next) as N by (apply G2; reflexivity).
      destruct C1 as [[-> C1] | [[-> C1] | [[E _] | [-> C1]]]]; [| | congruence |].
      * left. split; [reflexivity |]. eapply sibling_child; eassumption.
      * right. left. split; [reflexivity |]. eapply sibling_ancestor; eassumption.
      * right. right. right. split; [reflexivity |]. eapply sibling_trans; eassumption.
Qed.

(** With the condition on neighbouring operators, a match is found. *)
Lemma matches_complete : forall l, alternating l -> forall p,
  (forall o, In o (ops_of l) -> combinator o) -> (forall s, In s (sels_of l) -> says_something s) ->
  greedy_enough l -> matches space lower root l p -> match_selectors space lower root p l = Some true.
Proof.
  intros l A. induction A as [s | l o s A IH]; intros p Ho Hs G M.
  - rewrite match_selectors_one. assert (says_something s) as Ss by (apply Hs; left; reflexivity).
    rewrite (says_true s Ss). cbn [andb]. f_equal. apply match_selector_iff; [exact D | apply Ss |].
    apply (last_compound [] s p). exact M.
  - rewrite ops_of_snoc in Ho. rewrite sels_of_snoc in Hs.
    assert (combinator o) as Co by (apply Ho, in_or_app; right; left; reflexivity).
    assert (says_something s) as Ss by (apply Hs, in_or_app; right; left; reflexivity).
    assert (forall x, In x (sels_of l) -> says_something x) as Sl by (intros x Hx; apply Hs, in_or_app; left; exact Hx).
    assert (forall x, In x (ops_of l) -> combinator x) as Ol by (intros x Hx; apply Ho, in_or_app; left; exact Hx).
    destruct (match_selectors_snoc l o s p A (combinator_true o Co) (fun x Hx => says_true x (Sl x Hx)) (says_true s Ss))
      as (s' & (l' & El) & E).
    rewrite E. clear E.
    assert (exists q, matches space lower root l q /\ comb o q p /\ compound_holds space lower root p s) as (q & Mq & Cq & Hp).
    { inversion M as [s1 p1 C E1 E2 | l1 o1 s1 q1 p1 M1 C1 H1 E1 E2]; subst.
      - exfalso. apply (f_equal (@length item)) in E1. rewrite !app_length in E1. cbn [length] in E1. lia.
      - assert (l1 = l' ++ [Sel s'] /\ [Op o1; Sel s1] = [Op o; Sel s]) as [-> E].
        { change [Op o1; Sel s1] with ([Op o1] ++ [Sel s1]) in *. change [Op o; Sel s] with ([Op o] ++ [Sel s]) in *.
          rewrite app_assoc in E1. rewrite (app_assoc _ [Op o]) in E1. apply app_inj_tail in E1 as [E1 E2].
          apply app_inj_tail in E1 as [E1 E3]. split; [exact E1 |]. injection E2 as ->. injection E3 as ->. reflexivity. }
        injection E as -> ->. exists q1. auto. }
    assert (match_selector space lower root p s = true) as -> by (apply match_selector_iff; auto; apply Ss).
    assert (greedy_enough l) as Gl.
    { intros a o1 o2 b E. apply (G a o1 o2 (b ++ [o])). rewrite ops_of_snoc, E, <- app_assoc. reflexivity. }
    assert (says_something s') as Ss'.
    { apply Sl. rewrite El. unfold sels_of. rewrite flat_map_app. apply in_or_app. right. left. reflexivity. }
    assert (compound_holds space lower root q s') as Hq by (apply (last_compound l'); rewrite <- El; exact Mq).
    assert (match_selector space lower root q s' = true) as Fq by (apply match_selector_iff; auto; apply Ss').
    assert (exists q', find (fun q => match_selector space lower root q s') (candidates (Op o) p) = Some q' /\
              matches space lower root l q') as (q' & -> & Mq'); [| apply IH; auto].
    assert (forall a o1, ops_of l = a ++ [o1] -> greedy_pair o1 o) as Gp.
    { intros a o1 E. apply (G a o1 o []). rewrite ops_of_snoc, E, <- app_assoc. reflexivity. }
    destruct Cq as [[-> H] | [[-> H] | [[-> H] | [-> H]]]]; unfold candidates.
    + change (str_eqb op_child op_child) with true. cbv iota. apply get_parent_iff in H. rewrite H.
      cbn [find]. rewrite Fq. exists q. auto.
    + change (str_eqb op_desc op_child) with false. change (str_eqb op_desc op_desc) with true. cbv iota.
      destruct (find_ancestor (fun q => match_selector space lower root q s') p q H Fq) as (q' & F & Fq' & R).
      exists q'. split; [exact F |]. destruct R as [-> | R]; [exact Mq |]. rewrite El in *.
      apply (matches_shift l' s' q q' A Mq); [apply match_selector_iff in Fq'; auto; apply Ss' |].
      exists op_desc. split; [exact Gp | left; auto].
    + change (str_eqb op_next op_child) with false. change (str_eqb op_next op_desc) with false.
      change (str_eqb op_next op_next) with true. cbv iota.
      destruct H as (r & i & -> & ->). rewrite previous_first, rev_app_distr. cbn [rev app].
      rewrite Nat.add_1_r, rev_involutive. cbn [find]. rewrite Fq. exists (r ++ [i]). auto.
    + change (str_eqb op_subs op_child) with false. change (str_eqb op_subs op_desc) with false.
      change (str_eqb op_subs op_next) with false. cbv iota.
      destruct (find_sibling (fun q => match_selector space lower root q s') p q H Fq) as (q' & F & Fq' & R).
      exists q'. split; [exact F |]. destruct R as [-> | R]; [exact Mq |]. rewrite El in *.
      apply (matches_shift l' s' q q' A Mq); [apply match_selector_iff in Fq'; auto; apply Ss' |].
      exists op_subs. split; [exact Gp | right; auto].
Qed.
End Match.
