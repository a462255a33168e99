(** Proofs about deleting a node and about siblings. *)
From Verif Require Import Base BaseFacts TargetModel LexerModel LexerSpec TreeModel TreeSpec
  TreeProofs TreeWalkProofs TreeRangeProofs BuildProofs.
From Coq Require Import ZArith ZifyBool.

Section Proofs.
Variables L A : Type.
Notation node := (node L A).
Implicit Types (n c root : node) (cs : list node).

Lemma nth_parts cs i c : nth_error cs i = Some c -> cs = firstn i cs ++ c :: skipn (S i) cs.
Proof. intros H. apply (nth_split _ _ _ _ _ H). Qed.

(** Replacing the children of one context inside a tree changes its word only there. *)
Lemma update_at_word root p l cs f : node_at root p = Some (Ctx l cs) ->
  exists u v, word root = u ++ words cs ++ v /\ word (update_at root p f) = u ++ words (f cs) ++ v.
Proof.
  revert root; induction p as [|i p IH]; intros root H.
  - injection H as ->. simpl update_at. exists [Enter l], [Exit]. rewrite !word_ctx. split; reflexivity.
  - simpl in H. destruct root as [t|l' ds]; [destruct i; discriminate|]. simpl children in H.
    destruct (nth_error ds i) as [c|] eqn:E; [|discriminate].
    destruct (IH c H) as (u & v & E1 & E2). simpl update_at. rewrite E.
    exists (Enter l' :: words (firstn i ds) ++ u), (v ++ words (skipn (S i) ds) ++ [Exit]).
    split.
    + rewrite word_ctx, (nth_parts _ _ _ E) at 1. rewrite words_app, words_cons, E1.
      simpl. rewrite <- !app_assoc. reflexivity.
    + rewrite word_ctx, words_app. simpl app. rewrite words_cons, E2. simpl. rewrite <- !app_assoc. reflexivity.
Qed.

Lemma wf_at root p l cs : wf_children (children root) -> node_at root p = Some (Ctx l cs) -> wf_children cs.
Proof.
  revert root; induction p as [|i p IH]; intros root Hwf H.
  - injection H as ->. exact Hwf.
  - simpl in H. destruct (nth_error (children root) i) as [c|] eqn:E; [|discriminate].
    apply (IH c); [|exact H]. exact (wf_node_child _ _ _ _ _ Hwf E).
Qed.

Lemma delete_one root p i l cs n : wf_children (children root) ->
  node_at root p = Some (Ctx l cs) -> nth_error cs i = Some n -> 2 <= length cs ->
  exists root', n_delete root (p ++ [i]) = Some root' /\
    exists u v, word root = u ++ word n ++ v /\ word root' = u ++ v.
Proof.
  intros Hwf Hp Hi Hlen.
  assert (Hilt : i < length cs) by (apply nth_error_Some; congruence).
  unfold n_delete, ancestors. rewrite app_length. simpl length. rewrite Nat.add_1_r.
  cbn [ancestors_from delete_loop]. unfold ancestor_with_index.
  assert (Ef : firstn (length p) (p ++ [i]) = p)
    by (rewrite firstn_app, Nat.sub_diag, firstn_all; simpl; apply app_nil_r).
  rewrite Ef, Hp.
  rewrite nth_error_app2, Nat.sub_diag by lia. cbn [nth_error].
  rewrite parent_index_ok by (try assumption; eapply wf_at; eassumption).
  assert (Hrl : length (remove_nth i cs) = length cs - 1).
  { unfold remove_nth. rewrite app_length, firstn_length, skipn_length. lia. }
  destruct (length (remove_nth i cs) =? 0) eqn:E; [lia|].
  eexists. split; [reflexivity|].
  destruct (update_at_word root p l cs (remove_nth i) Hp) as (u & v & E1 & E2).
  exists (u ++ words (firstn i cs)), (words (skipn (S i) cs) ++ v). split.
  - rewrite E1, (nth_parts _ _ _ Hi) at 1. rewrite words_app, words_cons, <- !app_assoc. reflexivity.
  - rewrite E2. unfold remove_nth. rewrite words_app, <- !app_assoc. reflexivity.
Qed.

Lemma siblings_ok cs i : wf_children cs -> i < length cs ->
  left_sibling cs i = Some (match i with 0 => None | S j => nth_error cs j end)
  /\ right_sibling cs i = Some (nth_error cs (i + 1))
  /\ left_siblings cs i = Some (rev (firstn i cs))
  /\ right_siblings cs i = Some (skipn (i + 1) cs).
Proof.
  intros Hwf Hi. unfold left_sibling, right_sibling, left_siblings, right_siblings.
  rewrite !parent_index_ok by assumption. split; [|split; [|split]].
  - destruct i as [|j]; [reflexivity|]. cbn [Nat.eqb].
    replace (Z.of_nat (S j) - 1)%Z with (Z.of_nat j) by lia. rewrite py_nth_nat.
    destruct (nth_error cs j) as [c|] eqn:E; [reflexivity|]. apply nth_error_None in E. lia.
  - destruct (i =? length cs - 1) eqn:E.
    + f_equal. symmetry. apply nth_error_None. lia.
    + destruct (nth_error cs (i + 1)) as [c|] eqn:E2; [reflexivity|]. apply nth_error_None in E2. lia.
  - destruct i as [|j]; [reflexivity|]. reflexivity.
  - destruct (i =? length cs - 1) eqn:E; [|reflexivity].
    rewrite skipn_all2 by lia. reflexivity.
Qed.
End Proofs.
