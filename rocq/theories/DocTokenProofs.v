(** Proofs about the tokens at a position and in a range of a document. *)
From Verif Require Import Base BaseFacts TargetModel LexerModel LexerSpec TreeModel TreeSpec TreeProofs TreeWalkProofs TreeRangeProofs BlockModel BlockSpec BlockProofs DocTokenModel Prop_Tree.
From Coq Require Import ZArith ZifyBool.

Lemma list_eq_nil {X} (l : list X) : l = [] \/ l <> [].
Proof. destruct l; [now left | right; discriminate]. Qed.

Lemma sep_in sep t : py_find sep t 0 <> None <-> exists x y, t = x ++ sep ++ y.
Proof.
  unfold py_find. split.
  - intros H. destruct (find (found_at sep t) (seq 0 (S (length t) - 0))) as [i |] eqn:E; [| congruence]. apply find_some in E as [_ E]. unfold found_at in E. apply andb_true_iff in E as [E1 E2]. apply str_eqb_spec in E2. apply Nat.leb_le in E1.
    exists (firstn i t), (skipn (i + length sep) t). rewrite <- (firstn_skipn i t) at 1. f_equal. rewrite <- E2 at 1. unfold slice. rewrite <- (firstn_skipn (i + length sep - i) (skipn i t)) at 1. f_equal. rewrite skipn_skipn. f_equal. lia.
  - intros (x & y & ->) H. pose proof (find_none _ _ H (length x)) as G. assert (Hf : found_at sep (x ++ sep ++ y) (length x) = true).
    { unfold found_at. apply andb_true_iff. split; [apply Nat.leb_le; rewrite !app_length; lia |]. apply str_eqb_spec. unfold slice. rewrite Nat.add_comm, Nat.add_sub, skipn_app, skipn_all, Nat.sub_diag. cbn. now rewrite firstn_app, firstn_all, Nat.sub_diag, app_nil_r. }
    rewrite Hf in G. assert (E : true = false) by (apply G; apply in_seq; rewrite !app_length; lia). discriminate.
Qed.
Section Proofs.
Variables L A : Type.
Notation node := (node L A).
Notation tok := (tok A).
Variable l : L.
Variable cs : list node.
Hypothesis Hwf : wf_children cs.
Notation covering pos := (fun t : tok => pos <? k_end t).

Lemma find_trail pos : (find_token_with_trail cs pos = Some None /\ find (covering pos) (flat cs) = None)
  \/ exists t trail a b, find_token_with_trail cs pos = Some (Some (t, trail)) /\ find (covering pos) (flat cs) = Some t
       /\ flat cs = a ++ t :: b /\ Forall (fun u => k_end u <= pos) a /\ pos < k_end t /\ previous_token (Ctx l cs) (nat_trail trail) = Some (last_opt a).
Proof.
  destruct (C08_find_token L A l cs pos Hwf) as [H _]. unfold find_token in H. destruct (find_token_with_trail cs pos) as [[[t trail] |] |] eqn:E; cbn in H; [| left; split; [reflexivity |]; injection H as H; symmetry; exact H | discriminate].
  right. injection H as H. symmetry in H. destruct (proj1 (C08_trails_lead_to_the_token L A l cs pos t trail Hwf) E) as (_ & _ & Hat).
  destruct (find_split _ _ _ H) as (a & b & Eab & Hp & Ha). exists t, trail, a, b. split; [reflexivity |]. split; [exact H |]. split; [exact Eab |].
  split; [eapply Forall_impl; [| exact Ha]; cbv beta; intros u Hu; apply Nat.ltb_ge in Hu; exact Hu |]. split; [apply Nat.ltb_lt in Hp; exact Hp |].
  destruct (C11_forward_backward L A (Ctx l cs) (map Z.to_nat trail) (Tok t) Hwf Hat) as (f & bk & _ & _ & Efl & _ & Hprev). unfold nat_trail. rewrite Hprev. f_equal.
  rewrite flatten_ctx in Efl. cbn [TreeSpec.flatten app] in Efl. destruct (split_unique _ _ _ _ _ _ _ (proj2 Hwf) Eab Efl) as [-> _]. destruct bk as [| x bk]; [reflexivity |]. cbn [rev hd_error]. unfold last_opt. now rewrite rev_app_distr.
Qed.
Lemma find_last_opt (a : list tok) u : last_opt a = Some u -> exists a', a = a' ++ [u].
Proof. unfold last_opt. intros H. destruct (rev a) as [| x r] eqn:E; [discriminate |]. cbn in H. injection H as ->. exists (rev r). rewrite <- (rev_involutive a), E. reflexivity. Qed.
Lemma doc_token_ok text sep pos :
  match find (covering pos) (flat cs) with
  | None => doc_token text sep l cs pos = Some None
  | Some t =>
      (k_pos t <= pos -> doc_token text sep l cs pos = Some (Some t))
      /\ (pos < k_pos t ->
          (forall u, In u (flat cs) -> k_end u = pos -> doc_token text sep l cs pos = Some (Some u))
          /\ ((forall u, In u (flat cs) -> k_end u <> pos) ->
               doc_token text sep l cs pos = Some (match py_find sep (slice text pos (k_pos t)) 0 with None => Some t | Some _ => None end)))
  end.
Proof.
  unfold doc_token. destruct (find_trail pos) as [[-> ->] | (t & trail & a & b & -> & -> & Eab & Ha & Ht & Hprev)]; [reflexivity |]. pose proof (proj2 Hwf) as HO. rewrite Eab in HO.
  split; [intros H; assert (E : (k_pos t <=? pos) = true) by lia; now rewrite E |]. intros H. assert (E : (k_pos t <=? pos) = false) by lia. rewrite E, Hprev. cbv zeta. split.
  - intros u Hu Eu. assert (Hua : In u a).
    { rewrite Eab in Hu. apply in_app_or in Hu as [Hu | [<- | Hu]]; [exact Hu | unfold k_end in *; lia |]. pose proof (in_order_after _ _ _ _ _ HO Hu) as G. unfold k_end in *. lia. }
    destruct (last_opt a) as [v |] eqn:El; [| destruct a using rev_ind; [destruct Hua | unfold last_opt in El; rewrite rev_app_distr in El; discriminate]].
    destruct (find_last_opt a v El) as [a' ->]. assert (Hv : v = u).
    { apply in_app_or in Hua as [Hua | [<- | []]]; [| reflexivity]. exfalso. rewrite <- app_assoc in HO. cbn [app] in HO. pose proof (in_order_before _ _ _ _ _ HO Hua) as G.
      assert (Hvt : k_text v <> []) by (destruct HO as [_ HO]; rewrite Forall_forall in HO; apply HO; apply in_or_app; right; now left).
      apply Forall_app in Ha as [_ Ha]. inversion Ha as [| ? ? Hve _]; subst. unfold k_end in *. destruct (k_text v); [congruence |]. cbn in Hve. lia. }
    subst v. now rewrite (proj2 (Nat.eqb_eq _ _) Eu).
  - intros Hno. assert (Hl : forall v, last_opt a = Some v -> (k_end v =? pos) = false).
    { intros v El. apply Nat.eqb_neq, Hno. destruct (find_last_opt a v El) as [a' ->]. rewrite Eab. apply in_or_app. left. apply in_or_app. right. now left. }
    destruct (last_opt a) as [v |]; [rewrite (Hl v eq_refl) |]; destruct (py_find sep (slice text pos (k_pos t)) 0); reflexivity.
Qed.
(** Ranges without tokens in them. *)
Lemma tokens_after pos end_ : match end_ with None => True | Some e => pos < e end -> (exists t, In t (flat cs) /\ overlaps A pos end_ t = true) ->
  range_of_tokens l cs pos end_ = Some (filter (overlaps A pos end_) (flat cs)).
Proof. intros H1 H2. unfold range_of_tokens. destruct (range_ok L A l cs pos end_ Hwf H1 H2) as (r & -> & H). exact H. Qed.
Lemma filter_nothing (p : tok -> bool) ts : (forall t, In t ts -> p t = false) -> filter p ts = [].
Proof. induction ts as [| t ts IH]; intros H; [reflexivity |]. cbn. rewrite (H t (or_introl eq_refl)). apply IH. intros u Hu. apply H. now right. Qed.
Lemma find_nobody (p : tok -> bool) ts : (forall t, In t ts -> p t = false) -> find p ts = None.
Proof. induction ts as [| t ts IH]; intros H; [reflexivity |]. cbn. rewrite (H t (or_introl eq_refl)). apply IH. intros u Hu. apply H. now right. Qed.
Lemma tree_end : cs <> [] -> exists u, In u (flat cs) /\ n_end (Ctx l cs) = k_end u /\ forall t, In t (flat cs) -> k_end t <= k_end u.
Proof.
  intros Hne. assert (Hf : full (Ctx l cs)) by (constructor; [exact Hne | exact (proj1 Hwf)]). destruct (n_end_last L A _ Hf) as (u & ts & E & He). rewrite flatten_ctx in E. exists u.
  split; [rewrite E; apply in_or_app; right; now left |]. split; [exact He |]. intros t Ht. pose proof (proj2 Hwf) as HO. rewrite E in Ht, HO. apply in_app_or in Ht as [Ht | [<- | []]]; [| lia].
  pose proof (in_order_before _ _ _ _ _ HO Ht) as G. unfold k_end in *. lia.
Qed.
(** No range, if it is empty, or if no token reaches beyond its start. *)
Lemma tokens_none pos end_ : (match end_ with Some e => e <= pos | None => False end \/ forall t, In t (flat cs) -> k_end t <= pos) -> range_of_tokens l cs pos end_ = Some [].
Proof.
  intros H. destruct (list_eq_nil cs) as [-> | Hne]; [reflexivity |]. destruct (tree_end Hne) as (u & Hu & Eu & Hmax). assert (Hut : 0 < k_end u).
  { destruct Hwf as [_ [_ G]]. rewrite Forall_forall in G. specialize (G u Hu). unfold k_end. destruct (k_text u); [congruence | cbn; lia]. }
  assert (G : (forall t, In t (flat cs) -> k_end t <= pos) -> find_token_with_trail cs pos = Some None /\ pos <> 0).
  { intros Hall. split; [| specialize (Hall u Hu); lia]. destruct (find_trail pos) as [[E _] | (t & tr & a & b & _ & _ & Eab & _ & Ht & _)]; [exact E |]. exfalso.
    assert (Hin : In t (flat cs)) by (rewrite Eab; apply in_or_app; right; now left). specialize (Hall t Hin). lia. }
  assert (Hl : forall e, find_token_left_with_trail cs e <> None).
  { intros e E. destruct (C08_find_token L A l cs e Hwf) as (_ & H2 & _). unfold find_token_left in H2. rewrite E in H2. discriminate. }
  unfold range_of_tokens, range_from_tree. cbn [children]. destruct cs as [| c0 cs0] eqn:Ecs; [congruence |]. rewrite <- Ecs in *. cbv zeta.
  destruct end_ as [e |].
  - rewrite Eu. destruct (e <? k_end u) eqn:E1.
    + destruct (e <=? pos) eqn:E2; [reflexivity |]. destruct H as [H | H]; [lia |]. destruct (find_token_left_with_trail cs e) as [[[t tr] |] |] eqn:E3; [| reflexivity | now destruct (Hl e)].
      destruct (G H) as [G1 G2]. apply Nat.eqb_neq in G2. rewrite G2, G1. reflexivity.
    + assert (Hall : forall t, In t (flat cs) -> k_end t <= pos) by (destruct H as [H | H]; [intros t Ht; specialize (Hmax t Ht); lia | exact H]).
      destruct (G Hall) as [G1 G2]. apply Nat.eqb_neq in G2. rewrite G2, G1. reflexivity.
  - destruct H as [[] | H]. destruct (G H) as [G1 G2]. apply Nat.eqb_neq in G2. rewrite G2, G1. reflexivity.
Qed.
End Proofs.
