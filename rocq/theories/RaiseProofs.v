(** Comparing with DocumentModel.v, where no observer raises an exception. *)
From Coq Require Import ZArith.
From Verif Require Import Base MutableModel DocumentModel RaiseModel.

Definition state_of (r : dres) : dstate := fst (fst r).

Section Proofs.
Variable raises : devent -> bool.

Lemma emit_all evs : forallb (fun e => negb (raises e)) evs = true -> emit raises evs = (evs, false).
Proof.
  induction evs as [|e evs IH]; intro H; [reflexivity|]. cbn [forallb] in H. apply andb_true_iff in H. destruct H as [H1 H2].
  cbn [emit]. destruct (raises e); [discriminate H1|]. now rewrite (IH H2).
Qed.

Section Calm.
Hypothesis calm : forall b, raises (EModified b) = false /\ raises (EUndoAvailable b) = false /\ raises (ERedoAvailable b) = false.

Lemma calm_modified m b s : emit raises (snd (set_modified m b s)) = (snd (set_modified m b s), false).
Proof. apply emit_all. destruct m; cbn; try reflexivity. destruct (negb _); [|reflexivity]. cbn. now rewrite (proj1 (calm b)). Qed.
Lemma calm_check a b : emit raises (check_undo_state a b) = (check_undo_state a b, false).
Proof.
  apply emit_all. unfold check_undo_state. destruct (Bool.eqb (can_undo a) _), (Bool.eqb (can_redo a) _); cbn;
  rewrite ?(proj1 (proj2 (calm _))), ?(proj2 (proj2 (calm _))); reflexivity.
Qed.
Lemma calm_update m cs s : f_update_text raises m cs s = (fst (d_update_text m cs s), snd (d_update_text m cs s), false).
Proof.
  unfold f_update_text, d_update_text. set (s2 := DState _ _ _ _ _ _). pose proof (calm_modified m true s2) as E.
  destruct (set_modified m true s2) as [s3 evs]. cbn [snd] in E. rewrite E. cbv zeta. rewrite calm_check. reflexivity.
Qed.
Lemma calm_apply m s : state_of (f_apply raises m s) = state_of (d_apply m s).
Proof.
  unfold f_apply, d_apply. destruct (m_pend (d_m s)) as [|x d]; [reflexivity|]. destruct (get_changes (x :: d)) as [cs|]; [|reflexivity].
  rewrite calm_update. destruct (d_update_text m cs s) as [s' evs]. cbn [fst snd]. destruct (emit raises _) as [e exc]. reflexivity.
Qed.
Lemma calm_setitem m s k t : state_of (f_setitem raises m s k t) = state_of (d_setitem m s k t).
Proof.
  unfold f_setitem, d_setitem. destruct (parse_key _ k) as [[i j]|]; [|reflexivity]. destruct (effective _ _); [|reflexivity]. cbv zeta.
  destruct (_ =? 0); [|reflexivity]. apply calm_apply.
Qed.
Lemma calm_exit m exc s : state_of (f_exit raises m exc s) = state_of (d_exit m exc s).
Proof. unfold f_exit, d_exit. destruct exc; [reflexivity|]. destruct (1 <? _); [reflexivity|]. apply calm_apply. Qed.

(** What is emitted is the same, and the exception comes at the end. *)
Lemma calm_apply_events m s : snd (fst (f_apply raises m s)) = snd (fst (d_apply m s)) /\ snd (f_apply raises m s) = snd (d_apply m s) || existsb raises (snd (fst (d_apply m s))).
Proof.
  unfold f_apply, d_apply. destruct (m_pend (d_m s)) as [|x d]; [now split|]. destruct (get_changes (x :: d)) as [cs|]; [|now split].
  rewrite calm_update. assert (Q : existsb raises (snd (d_update_text m cs s)) = false).
  { unfold d_update_text. set (s2 := DState _ _ _ _ _ _). destruct (set_modified m true s2) as [s3 evs] eqn:E. cbn [snd]. rewrite existsb_app. apply orb_false_iff. split.
    - destruct m; cbn in E; injection E as _ <-; try reflexivity. destruct (negb _); [|reflexivity]. cbn. now rewrite (proj1 (calm true)).
    - unfold check_undo_state. destruct (Bool.eqb (can_undo s) _), (Bool.eqb (can_redo s) _); cbn; rewrite ?(proj1 (proj2 (calm _))), ?(proj2 (proj2 (calm _))); reflexivity. }
  destruct (d_update_text m cs s) as [s' evs]. cbn [fst snd] in *. rewrite existsb_app, Q. destruct (summary cs) as [[[p r] a]|]; cbn [emit existsb].
  - destruct (raises (ETextChange p r a)); now split.
  - now split.
Qed.
Lemma calm_setitem_events m s k t : snd (fst (f_setitem raises m s k t)) = snd (fst (d_setitem m s k t)) /\
  snd (f_setitem raises m s k t) = snd (d_setitem m s k t) || existsb raises (snd (fst (d_setitem m s k t))).
Proof.
  unfold f_setitem, d_setitem. destruct (parse_key _ k) as [[i j]|]; [|now split]. destruct (effective _ _); [|now split]. cbv zeta.
  destruct (_ =? 0); [|now split]. apply calm_apply_events.
Qed.
Lemma calm_exit_events m exc s : snd (fst (f_exit raises m exc s)) = snd (fst (d_exit m exc s)) /\
  snd (f_exit raises m exc s) = snd (d_exit m exc s) || existsb raises (snd (fst (d_exit m exc s))).
Proof. unfold f_exit, d_exit. destruct exc; [now split|]. destruct (1 <? _); [now split|]. apply calm_apply_events. Qed.

(** Inside an edit context nothing is emitted. *)
Lemma set_inside m s k t : m_ctx (d_m s) <> 0 -> f_setitem raises m s k t = d_setitem m s k t /\ m_ctx (d_m (state_of (d_setitem m s k t))) <> 0.
Proof.
  intro N. unfold f_setitem, d_setitem. destruct (parse_key _ k) as [[i j]|]; [|now split]. destruct (effective _ _); [|now split]. cbv zeta.
  cbn [with_m d_m m_ctx]. destruct (Nat.eqb_spec (m_ctx (d_m s)) 0); [contradiction|]. now split.
Qed.
Lemma sets_inside m cs : forall s, m_ctx (d_m s) <> 0 -> f_sets raises m cs s = d_sets m cs s.
Proof.
  induction cs as [|c cs IH]; intros s N; [reflexivity|]. cbn [f_sets d_sets].
  destruct (set_inside m s (KSlice (Some (Z.of_nat (g_start c))) (Some (Z.of_nat (g_end c)))) (g_text c) N) as [E N']. rewrite E.
  destruct (d_setitem m s _ _) as [[s' e1] exc]. unfold state_of in N'. cbn [fst] in N'. destruct exc; [reflexivity|]. now rewrite (IH s' N').
Qed.
Lemma replay_m m e s : d_m (state_of (f_replay raises m e s)) = d_m (state_of (d_replay m e s)).
Proof.
  unfold f_replay, d_replay. rewrite sets_inside by (cbn; discriminate). destruct (d_sets m (fst e) _) as [[s1 e1] exc].
  pose proof (calm_exit m exc s1) as E. unfold state_of in E. destruct (f_exit raises m exc s1) as [[s2 e2] exc2], (d_exit m exc s1) as [[s2' e2'] exc2'].
  cbn [fst] in E. subst s2'.
  assert (K : forall b x, d_m (fst (set_modified Normal b x)) = d_m x) by (intros b x; reflexivity).
  destruct (exc || exc2), (exc || exc2').
  - reflexivity.
  - specialize (K (snd e) s2). destruct (set_modified Normal (snd e) s2) as [x evs]. cbn [fst] in K. unfold state_of. cbn [fst]. now rewrite K.
  - specialize (K (snd e) s2). destruct (set_modified Normal (snd e) s2) as [x evs]. cbn [fst] in K. destruct (emit raises evs). unfold state_of. cbn [fst]. now rewrite K.
  - destruct (set_modified Normal (snd e) s2) as [x evs]. destruct (emit raises evs). reflexivity.
Qed.
Lemma undo_m s : d_m (state_of (f_undo_op raises s)) = d_m (state_of (d_undo_op s)).
Proof. unfold f_undo_op, d_undo_op. destruct (0 <? _); [reflexivity|]. destruct (d_undo s) as [|e st]; [reflexivity|]. apply replay_m. Qed.

Lemma edits_calm ops : forall s, fold_left (f_edit raises) ops s = state_of (d_run s (map DEdit ops)).
Proof.
  induction ops as [|o ops IH]; intro s; [reflexivity|]. cbn [fold_left map d_run]. rewrite IH.
  assert (E : f_edit raises s o = state_of (d_op s (DEdit o))).
  { destruct o as [|exc|k t|t]; cbn [f_edit d_op]; [reflexivity|apply calm_exit|apply calm_setitem|]. destruct (_ =? 0); [apply calm_setitem|reflexivity]. }
  rewrite E. destruct (d_op s (DEdit o)) as [[s1 e1] x1]. unfold state_of. cbn [fst]. destruct (d_run s1 (map DEdit ops)) as [[s2 e2] x2]. reflexivity.
Qed.
End Calm.

(** If an observer of modification_changed raises. *)
Lemma modified_raises s cs : d_mod s = false -> raises (EModified true) = true ->
  exists s' evs, f_update_text raises Normal cs s = (s', evs, true) /\ d_m s' = d_m s /\ d_rev s' = S (d_rev s) /\
    (d_enabled s = true -> d_undo s' = (reverse_changes (m_text (d_m s)) cs, false) :: d_undo s).
Proof.
  intros M R. unfold f_update_text, store_undo, set_modified. destruct (d_enabled s) eqn:En; cbn [d_m d_mod d_undo d_redo d_enabled d_rev]; rewrite M; cbn [Bool.eqb negb emit]; rewrite R;
  destruct (emit raises (check_undo_state _ _)) as [e2 x2]; eexists; eexists; (split; [reflexivity|]); (split; [reflexivity|]); (split; [reflexivity|]); intro K;
  [reflexivity|discriminate K].
Qed.
End Proofs.

Lemma quiet_emit evs : emit (fun _ => false) evs = (evs, false).
Proof. apply emit_all. induction evs; [reflexivity|assumption]. Qed.
Lemma quiet_apply m s : f_apply (fun _ => false) m s = d_apply m s.
Proof.
  unfold f_apply, d_apply. destruct (m_pend (d_m s)) as [|x d]; [reflexivity|]. destruct (get_changes (x :: d)) as [cs|]; [|reflexivity].
  rewrite calm_update by (intro b; repeat split). destruct (d_update_text m cs s) as [s' evs]. cbn [fst snd]. now rewrite quiet_emit.
Qed.
Lemma quiet_setitem m s k t : f_setitem (fun _ => false) m s k t = d_setitem m s k t.
Proof.
  unfold f_setitem, d_setitem. destruct (parse_key _ k) as [[i j]|]; [|reflexivity]. destruct (effective _ _); [|reflexivity]. cbv zeta.
  destruct (_ =? 0); [|reflexivity]. apply quiet_apply.
Qed.
Lemma quiet_undo s : f_undo_op (fun _ => false) s = d_undo_op s.
Proof.
  unfold f_undo_op, d_undo_op. destruct (0 <? _); [reflexivity|]. destruct (d_undo s) as [|e st]; [reflexivity|].
  unfold f_replay, d_replay. rewrite sets_inside by (cbn; discriminate). destruct (d_sets _ (fst e) _) as [[s1 e1] exc].
  assert (E : f_exit (fun _ => false) InUndo exc s1 = d_exit InUndo exc s1).
  { unfold f_exit, d_exit. destruct exc; [reflexivity|]. destruct (1 <? _); [reflexivity|]. apply quiet_apply. }
  rewrite E. destruct (d_exit InUndo exc s1) as [[s2 e2] exc2]. destruct (exc || exc2); [reflexivity|].
  destruct (set_modified Normal (snd e) s2) as [x evs]. now rewrite quiet_emit.
Qed.
