(** Proofs about reading and writing documents. *)
From Verif Require Import Base UtilModel DocioModel.

Lemma universal_lf s : ~ In 13 s -> universal s = s.
Proof.
  induction s as [| c s IH]; intros H; [reflexivity |]. cbn [universal]. destruct (c =? 13) eqn:Ec.
  - apply Nat.eqb_eq in Ec. subst c. exfalso. apply H. now left.
  - f_equal. apply IH. intros X. apply H. now right.
Qed.
Lemma universal_replace by_ s : In by_ [[10]; [13]; [13; 10]] -> ~ In 13 s -> universal (replace_lf by_ s) = s.
Proof.
  intros Hb. induction s as [| c s IH]; intros H; [reflexivity |]. unfold replace_lf in *. cbn [flat_map].
  assert (Hs : ~ In 13 s) by (intros X; apply H; now right). specialize (IH Hs).
  destruct (c =? 10) eqn:Ec.
  - apply Nat.eqb_eq in Ec. subst c. destruct Hb as [<- | [<- | [<- | []]]]; cbn [app].
    + cbn [universal Nat.eqb]. now rewrite IH.
    + cbn [universal]. cbn [Nat.eqb]. f_equal. remember (flat_map (fun c => if c =? 10 then [13] else [c]) s) as r eqn:Er.
      destruct r as [| d r]; [exact IH |].
      destruct (d =? 10) eqn:Ed; [| exact IH]. exfalso. apply Nat.eqb_eq in Ed. subst d. clear -Er.
      destruct s as [| e s]; [discriminate |]. cbn [flat_map] in Er. destruct (e =? 10) eqn:Ee; cbn [app] in Er; [discriminate |].
      injection Er as <- _. discriminate.
    + cbn [universal Nat.eqb]. now rewrite IH.
  - cbn [app universal]. replace (c =? 13) with false; [now rewrite IH |]. symmetry. apply Nat.eqb_neq. intros ->. apply H. now left.
Qed.
