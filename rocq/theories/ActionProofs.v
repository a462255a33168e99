From Verif Require Import Base BaseFacts TargetModel LexerModel LexerSpec LexerProofs LexiconModel LexiconSpec LexiconProofs.

Section Proofs.
Variables L B : Type.
Variable sublex : L -> str -> list (lexeme B).

Lemma pieces_shift text p n : forall (xs : list (lexeme B)) lo,
  p + n <= length text ->
  pieces (slice text p (p + n)) lo n xs -> pieces text (p + lo) (p + n) (map (shift_lexeme p) xs).
Proof.
  induction xs as [|x xs IH]; intros lo Hn; simpl; [lia|].
  intros (P1 & P2 & P3 & P4 & P5 & P6). unfold x_end in *; simpl.
  assert (E : p + x_pos x + length (x_text x) = p + (x_pos x + length (x_text x))) by lia.
  repeat split; try lia; auto.
  - rewrite P3 at 1. rewrite slice_slice by lia. rewrite E. reflexivity.
  - rewrite E. apply IH; assumption.
Qed.

Fixpoint leaf_pieces (a : action L B) {struct a} : forall text pos j m,
  leaf_action sublex a -> pos <= j -> j <= length text ->
  pieces text pos j (act_lexemes sublex text a pos (slice text pos j) m).
Proof.
  intros text pos j m Hl Hj Hjl. pose proof (slice_length text pos j) as Hlen.
  destruct a as [b| |l|l|f]; simpl in *.
  - destruct (slice text pos j) as [|c cs] eqn:E; [simpl; lia|].
    cbn [pieces x_text x_pos]. unfold x_end; cbn [x_pos x_text].
    replace (pos + length (c :: cs)) with j by lia.
    repeat split; try lia; [discriminate|symmetry; exact E].
  - exact Hj.
  - specialize (Hl (slice text pos j)).
    pose proof (pieces_shift text pos (j - pos) (sublex l (slice text pos j)) 0) as P.
    replace (pos + (j - pos)) with j in P by lia. rewrite Nat.add_0_r in P.
    apply P; [lia|]. replace (j - pos) with (length (slice text pos j)) by lia. exact Hl.
  - destruct Hl.
  - specialize (Hl (slice text pos j)).
    destruct (f (slice text pos j)) as [|a [|a' l]]; [exact Hj| |destruct Hl].
    rewrite app_nil_r. apply leaf_pieces; assumption.
Qed.

Lemma groups_pieces text m l : Forall (leaf_action sublex) l -> m_end m <= length text ->
  groups_ok (m_start m) (m_end m) (m_groups m) ->
  pieces text (m_start m) (m_end m)
   (act_lexemes sublex text (AGroups l) (m_start m) (slice text (m_start m) (m_end m)) (Some m)).
Proof.
  intros HF Hlen. cbn [act_lexemes]. generalize (m_groups m) as gs.
  set (lo := m_start m) at 1 2. generalize lo. clear lo.
  induction l as [|a l IH]; intros lo gs Hg.
  - apply (pieces_weaken B text [] (m_end m)); [|simpl; lia].
    clear -Hg. revert lo Hg. induction gs as [|[[i j]|] gs IH]; intros lo Hg; simpl in Hg; [exact Hg| |].
    + destruct Hg as (H1 & H2 & H3 & H4). lia.
    + apply IH, Hg.
  - inversion HF as [|? ? Ha HF']; subst. destruct gs as [|[[i j]|] gs]; simpl in Hg.
    + simpl. exact Hg.
    + destruct Hg as (H1 & H2 & H3 & H4).
      eapply (pieces_app B text _ _ _ j); [lia| |apply IH; assumption].
      apply (pieces_weaken B text _ i); [lia|]. apply leaf_pieces; auto. lia.
    + apply (IH HF' lo gs Hg).
Qed.

Lemma wf_actions_sat c text : match_ok (c_match c) text -> wf_lexicon sublex c text ->
  actions_sat sublex pieces c text /\ rules_ok c text.
Proof.
  intros Hm (W1 & W2 & W3 & W4). split; [split; [|split]|].
  - intros adv p m a Hp E Ha Hlt.
    destruct (Hm _ _ _ Hp E) as (M1 & M2 & M3 & _). destruct (W1 _ _ _ Hp E) as (W5 & W6).
    unfold rule_action in Ha. destruct (nth_error (c_rules c) (m_rule m)) as [r|] eqn:En; [|discriminate].
    assert (Hwf : wf_action sublex a).
    { specialize (W2 r m (nth_error_In _ _ En)). destruct r; injection Ha as <-; exact W2. }
    clear Ha W2. destruct a as [b| |l|l|f].
    1,2,3,5: apply leaf_pieces; [exact Hwf|lia|lia].
    apply groups_pieces; [exact Hwf|lia|exact W6].
  - intros i j a Hi Hj Ha. apply leaf_pieces; [eapply W3; exact Ha|lia|lia].
  - intros needle a t i Hr Hn Hne Hi E. rewrite Hr in W4. rewrite E at 2.
    apply leaf_pieces; [apply W4; congruence|lia|lia].
  - intros adv p m Hp E. apply (W1 _ _ _ Hp E).
Qed.

End Proofs.
