From Verif Require Import Base BaseFacts TargetModel TargetSpec.
From Coq Require Import ZArith.

Section Proofs.
Variable L : Type.
Implicit Types (f : factory L) (st : list L).

(** The meaning of a factory state. *)
Definition f_sem f st : list L := drop_last (f_pop f) st ++ f_push f.

Lemma f_sem_init st : f_sem f_init st = st.
Proof. unfold f_sem, f_init; simpl. rewrite drop_last_0, app_nil_r. reflexivity. Qed.

Lemma f_sem_pops f n st : f_sem (f_pops f n) st = drop_last n (f_sem f st).
Proof.
  unfold f_pops, f_sem. destruct (Nat.eqb_spec n 0) as [->|Hn].
  - rewrite drop_last_0. reflexivity.
  - destruct (Nat.leb_spec n (length (f_push f))) as [H|H]; simpl.
    + rewrite drop_last_app by assumption. reflexivity.
    + rewrite app_nil_r, drop_last_app_more by lia.
      rewrite drop_last_drop_last. reflexivity.
Qed.

Lemma f_sem_pushes f ls st : f_sem (f_pushes f ls) st = f_sem f st ++ ls.
Proof. unfold f_pushes, f_sem; simpl. rewrite app_assoc. reflexivity. Qed.

Lemma f_add_pops f t : f_add f (Some t) = f_pushes (f_pops f (t_pop t)) (t_push t).
Proof.
  unfold f_add, f_pushes, f_pops.
  destruct (t_pop t =? 0); [reflexivity|].
  destruct (t_pop t <=? length (f_push f)); reflexivity.
Qed.

Lemma f_sem_add f t st : f_sem (f_add f t) st = follow (f_sem f st) t.
Proof.
  destruct t as [t|]; [|reflexivity].
  rewrite f_add_pops, f_sem_pushes, f_sem_pops. reflexivity.
Qed.

Lemma f_get_follow f st : follow st (fst (f_get f)) = f_sem f st.
Proof.
  unfold f_get. destruct f as [p q]; simpl.
  destruct p as [|p]; destruct q as [|x q]; simpl; try reflexivity.
  unfold f_sem; simpl. rewrite drop_last_0, app_nil_r. reflexivity.
Qed.

Lemma f_get_snd f : snd (f_get f) = f_init.
Proof.
  unfold f_get. destruct f as [[|p] [|x q]]; reflexivity.
Qed.

Lemma f_get_none f : fst (f_get f) = None <-> f = f_init.
Proof.
  unfold f_get, f_init. destruct f as [[|p] [|x q]]; simpl; split; congruence.
Qed.

Lemma f_sem_fold ts : forall f st,
  f_sem (fold_left f_add ts f) st = fold_left follow ts (f_sem f st).
Proof.
  induction ts as [|t ts IH]; intros f st; simpl; [reflexivity|].
  rewrite IH, f_sem_add. reflexivity.
Qed.

Lemma merge_follow ts st :
  follow st (fst (f_get (fold_left f_add ts f_init))) = fold_left follow ts st.
Proof. rewrite f_get_follow, f_sem_fold, f_sem_init. reflexivity. Qed.

Lemma merge_none_identity ts :
  fst (f_get (fold_left f_add ts f_init)) = None ->
  forall st, fold_left follow ts st = st.
Proof. intros H st. rewrite <- merge_follow, H. reflexivity. Qed.

Lemma make_step_sem l f r st : f_sem (make_step l f r) st = follow_item l (f_sem f st) r.
Proof.
  destruct r as [z|x]; simpl.
  - destruct (z <? 0)%Z eqn:E; [apply f_sem_pops|].
    destruct (Z.eqb_spec z 0) as [->|]; simpl.
    + rewrite app_nil_r. reflexivity.
    + apply f_sem_pushes.
  - apply f_sem_pushes.
Qed.

Lemma make_fold l rule : forall f st,
  f_sem (fold_left (make_step l) rule f) st = fold_left (follow_item l) rule (f_sem f st).
Proof.
  induction rule as [|r rule IH]; intros f st; simpl; [reflexivity|].
  rewrite IH, make_step_sem. reflexivity.
Qed.

Lemma make_follow l rule st : follow st (t_make l rule) = fold_left (follow_item l) rule st.
Proof.
  destruct rule as [|r rule]; [reflexivity|].
  unfold t_make. rewrite f_get_follow, make_fold, f_sem_init. reflexivity.
Qed.

(** A reported target never pops and pushes nothing. *)
Lemma f_get_nontrivial f t : fst (f_get f) = Some t -> t_pop t <> 0 \/ t_push t <> [].
Proof.
  unfold f_get. destruct f as [[|p] [|x q]]; simpl; intros [= <-]; simpl;
    (right; discriminate) || (left; discriminate).
Qed.

(** If following the targets in sequence changes no stack, then nothing is reported
    provided no target lexicons remain to be entered again: the converse of
    [merge_none_identity]: a merged target that is None is the identity and a merged
    target that is the identity on some deeper stack pops exactly what it pushes. *)
Lemma follow_identity_shape t st :
  t_pop t <= length st -> follow st (Some t) = st ->
  t_push t = skipn (length st - t_pop t) st.
Proof.
  simpl; intros Hl H. unfold drop_last in H.
  rewrite <- (firstn_skipn (length st - t_pop t) st) in H at 3.
  apply app_inv_head in H. exact H.
Qed.
End Proofs.
