(** Comparing with the same edits done one after the other. *)
From Coq Require Import ZArith.
From Verif Require Import Base MutableModel DocumentModel ReactModel ReactSpec.

Section Proofs.
Variable react : str -> devent -> option (key * str).

Lemma no_change m cs s : text_change (snd (d_update_text m cs s)) = None.
Proof.
  unfold d_update_text. set (s2 := DState _ _ _ _ _ _). destruct (set_modified m true s2) as [s3 evs] eqn:E. cbn [snd].
  assert (K : forall e, In e (evs ++ check_undo_state s (DState (MState (update_text (m_text (d_m s3)) cs) (m_ctx (d_m s3)) (m_pend (d_m s3)))
    (d_mod s3) (d_undo s3) (d_redo s3) (d_enabled s3) (d_rev s3))) -> match e with ETextChange _ _ _ => true | _ => false end = false).
  { intros e I. apply in_app_or in I. destruct I as [I | I].
    - destruct m; cbn in E; injection E as _ <-; try contradiction. destruct (negb _); [|contradiction]. destruct I as [<- | []]. reflexivity.
    - unfold check_undo_state in I. apply in_app_or in I. destruct I as [I | I]; destruct (Bool.eqb _ _); try contradiction; destruct I as [<- | []]; reflexivity. }
  unfold text_change. match goal with |- find ?f ?l = None => destruct (find f l) as [e|] eqn:F; [|reflexivity] end.
  apply find_some in F. destruct F as [F1 F2]. specialize (K e F1). congruence.
Qed.
Lemma find_app {A} (f : A -> bool) a b : find f (a ++ b) = match find f a with Some x => Some x | None => find f b end.
Proof. induction a as [|x a IH]; [reflexivity|]. cbn. destruct (f x); [reflexivity|exact IH]. Qed.

Lemma run_one s k t : fst (fst (d_run s [DEdit (Set_ k t)])) = fst (fst (d_setitem Normal s k t)).
Proof. cbn [d_run d_op]. destruct (d_setitem Normal s k t) as [[a b] c]. reflexivity. Qed.

Lemma apply_react s s1 evs x : d_apply Normal s = (s1, evs, x) -> r_apply react Normal s = (fst (fst (d_run s1 (reaction react s1 evs))), x).
Proof.
  unfold d_apply, r_apply. destruct (m_pend (d_m s)) as [|y d].
  - intro E. injection E as <- <- <-. reflexivity.
  - destruct (get_changes (y :: d)) as [cs|]; [|intro E; injection E as <- <- <-; reflexivity].
    pose proof (no_change Normal cs s) as N. destruct (d_update_text Normal cs s) as [s' ev0]. cbn [snd] in N. intro E. injection E as <- <- <-. f_equal.
    unfold reaction, text_change. rewrite find_app. unfold text_change in N. rewrite N. destruct (summary cs) as [[[p r] a]|]; [|reflexivity]. cbn [find].
    unfold observer. destruct (react _ _) as [[k t]|]; [|reflexivity]. now rewrite run_one.
Qed.
Lemma setitem_react s k t s1 evs x : d_setitem Normal s k t = (s1, evs, x) -> r_setitem react Normal s k t = (fst (fst (d_run s1 (reaction react s1 evs))), x).
Proof.
  unfold d_setitem, r_setitem. destruct (parse_key _ k) as [[i j]|]; [|intro E; injection E as <- <- <-; reflexivity].
  destruct (effective _ _); [|intro E; injection E as <- <- <-; reflexivity]. cbv zeta. destruct (_ =? 0); [apply apply_react|].
  intro E; injection E as <- <- <-; reflexivity.
Qed.
Lemma exit_react s exc s1 evs x : d_exit Normal exc s = (s1, evs, x) -> r_exit react Normal exc s = (fst (fst (d_run s1 (reaction react s1 evs))), x).
Proof.
  unfold d_exit, r_exit. destruct exc; [intro E; injection E as <- <- <-; reflexivity|]. destruct (1 <? _); [intro E; injection E as <- <- <-; reflexivity|]. apply apply_react.
Qed.

(** No reaction: as without an observer. *)
Lemma apply_quiet m s : (forall t e, react t e = None) -> r_apply react m s = (fst (fst (d_apply m s)), snd (d_apply m s)).
Proof.
  intro Q. unfold r_apply, d_apply. destruct (m_pend (d_m s)) as [|y d]; [reflexivity|]. destruct (get_changes (y :: d)) as [cs|]; [|reflexivity].
  destruct (d_update_text m cs s) as [s' ev]. cbn [fst snd]. f_equal. destruct (summary cs) as [[[p r] a]|]; [|reflexivity]. unfold observer. now rewrite Q.
Qed.
Lemma replay_quiet m e s : (forall t e, react t e = None) -> r_replay react m e s = fst (fst (d_replay m e s)).
Proof.
  intro Q. unfold r_replay, d_replay. destruct (d_sets m (fst e) _) as [[s1 e1] exc].
  assert (E : r_exit react m exc s1 = (fst (fst (d_exit m exc s1)), snd (d_exit m exc s1))).
  { unfold r_exit, d_exit. destruct exc; [reflexivity|]. destruct (1 <? _); [reflexivity|]. now apply apply_quiet. }
  rewrite E. destruct (d_exit m exc s1) as [[s2 e2] exc2]. cbn [fst snd]. destruct (exc || exc2); [reflexivity|].
  destruct (set_modified Normal (snd e) s2) as [a b]. reflexivity.
Qed.
End Proofs.
