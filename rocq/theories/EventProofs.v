(** Proofs about the events of a document. *)
From Verif Require Import Base BaseFacts MutableModel MutableSpec MutableProofs DocumentModel DocumentSpec DocumentProofs HistoryProofs.
From Coq Require Import ZArith ZifyBool.

Lemma modified_events_app a b : modified_events (a ++ b) = modified_events a ++ modified_events b.
Proof. apply flat_map_app. Qed.
Lemma undo_events_app a b : undo_events (a ++ b) = undo_events a ++ undo_events b.
Proof. apply flat_map_app. Qed.
Lemma redo_events_app a b : redo_events (a ++ b) = redo_events a ++ redo_events b.
Proof. apply flat_map_app. Qed.

(** What a boolean was, what it is, and what was said about it. *)
Definition told (before now : bool) : list bool := if Bool.eqb before now then [] else [now].

Lemma told_same b : told b b = [].
Proof. destruct b; reflexivity. Qed.

Lemma check_events a b : modified_events (check_undo_state a b) = []
  /\ undo_events (check_undo_state a b) = told (can_undo a) (can_undo b)
  /\ redo_events (check_undo_state a b) = told (can_redo a) (can_redo b)
  /\ text_changes (check_undo_state a b) = [].
Proof. unfold check_undo_state, told. destruct (Bool.eqb _ _), (Bool.eqb _ _); repeat split. Qed.

(** The events [evs] tell exactly what changed between two states. *)
Definition faithful (s s' : dstate) (evs : list devent) : Prop :=
  modified_events evs = told (d_mod s) (d_mod s')
  /\ undo_events evs = told (can_undo s) (can_undo s')
  /\ redo_events evs = told (can_redo s) (can_redo s')
  /\ d_rev s' = d_rev s + length (text_changes evs).

Lemma faithful_quiet s m : faithful s (with_m s m) [].
Proof. unfold faithful, with_m, can_undo, can_redo. cbn. rewrite !told_same. repeat split. lia. Qed.

Lemma faithful_refl s : faithful s s [].
Proof. unfold faithful. rewrite !told_same. cbn. repeat split. lia. Qed.

Lemma set_modified_faithful b s : faithful s (fst (set_modified Normal b s)) (snd (set_modified Normal b s)).
Proof.
  unfold faithful, set_modified, can_undo, can_redo, all_modified. cbn [fst snd d_mod d_undo d_redo d_rev].
  unfold told. destruct b, (d_mod s); cbn; rewrite ?map_length, ?Bool.eqb_reflx; repeat split; lia.
Qed.

Lemma get_changes_nonempty d cs : d <> [] -> get_changes d = Some cs -> exists p r a, summary cs = Some (p, r, a).
Proof.
  intros Hd H. unfold get_changes in H. destruct (sort_dict d) as [|(s, c) r] eqn:E.
  { exfalso. apply Hd. destruct d as [|x d]; [reflexivity|].
    assert (In x (sort_dict (x :: d))) by (apply sort_dict_In; left; reflexivity). rewrite E in H0. destruct H0. }
  apply get_changes_from_some in H. subst cs. cbn [map]. unfold summary.
  destruct (last_opt _) eqn:El; [eauto|]. apply last_opt_none in El. discriminate.
Qed.

Lemma update_events m cs s : let '(s', evs) := d_update_text m cs s in
  modified_events evs = told (d_mod s) (d_mod s') /\ undo_events evs = told (can_undo s) (can_undo s')
  /\ redo_events evs = told (can_redo s) (can_redo s') /\ d_rev s' = S (d_rev s) /\ text_changes evs = [].
Proof.
  pose proof (text_changes_update m cs s) as Ht.
  unfold d_update_text in *. destruct (set_modified m true _) as [s3 evs] eqn:E.
  set (s4 := DState _ (d_mod s3) (d_undo s3) (d_redo s3) (d_enabled s3) (d_rev s3)) in *. cbn [snd] in Ht.
  destruct (check_events s s4) as (C1 & C2 & C3 & C4).
  rewrite modified_events_app, undo_events_app, redo_events_app, C1, C2, C3, app_nil_r.
  assert (Hm : modified_events evs = told (d_mod s) (d_mod s3) /\ undo_events evs = [] /\ redo_events evs = [] /\ d_rev s3 = S (d_rev s)).
  { unfold set_modified, store_undo in E. destruct s as [sm smod su sr sen srev]. cbn [d_m d_mod d_undo d_redo d_enabled d_rev] in *.
    destruct m, sen; injection E as <- <-; cbn [d_m d_mod d_undo d_redo d_enabled d_rev]; unfold told; destruct smod; repeat split. }
  destruct Hm as (M1 & M2 & M3 & M4). rewrite M1, M2, M3. repeat split; auto.
Qed.

Lemma apply_faithful m s : faithful s (fst (fst (d_apply m s))) (snd (fst (d_apply m s))).
Proof.
  unfold d_apply. destruct (m_pend (d_m s)) as [|x d] eqn:Ep.
  { cbn [fst snd]. apply faithful_refl. }
  destruct (get_changes (x :: d)) as [cs|] eqn:E.
  - destruct (get_changes_nonempty (x :: d) cs ltac:(discriminate) E) as (p & r & a & ->).
    pose proof (update_events m cs s) as H. destruct (d_update_text m cs s) as [s1 evs]. destruct H as (H1 & H2 & H3 & H4 & H5).
    cbn [fst snd]. unfold faithful, with_m. cbn [d_mod d_rev].
    rewrite modified_events_app, undo_events_app, redo_events_app, text_changes_app, H1, H2, H3, H4, H5, !app_nil_r.
    unfold can_undo, can_redo. cbn. repeat split. lia.
  - cbn [fst snd]. apply faithful_refl.
Qed.

Lemma faithful_with_m s m s' evs : faithful (with_m s m) s' evs -> faithful s s' evs.
Proof. exact (fun H => H). Qed.

Lemma setitem_faithful m s k t : faithful s (fst (fst (d_setitem m s k t))) (snd (fst (d_setitem m s k t))).
Proof.
  unfold d_setitem. destruct (parse_key _ k) as [(i, j)|].
  - destruct (effective _ _).
    + cbv zeta. destruct (_ =? 0).
      * eapply faithful_with_m. apply apply_faithful.
      * cbn [fst snd]. apply faithful_quiet.
    + cbn [fst snd]. apply faithful_refl.
  - cbn [fst snd]. apply faithful_refl.
Qed.

Lemma exit_faithful m exc s : faithful s (fst (fst (d_exit m exc s))) (snd (fst (d_exit m exc s))).
Proof.
  unfold d_exit. destruct exc; [apply faithful_quiet|]. destruct (1 <? _); [apply faithful_quiet|].
  eapply faithful_with_m. apply apply_faithful.
Qed.

Lemma sets_quiet m : forall cs s, 1 <= m_ctx (d_m s) -> exists m' exc, d_sets m cs s = (with_m s m', [], exc) /\ m_ctx m' = m_ctx (d_m s).
Proof.
  induction cs as [|c cs IH]; intros s H.
  - exists (d_m s), false. cbn [d_sets]. rewrite (with_m_same s _ eq_refl). auto.
  - cbn [d_sets].
    assert (Hs : exists m' exc, d_setitem m s (KSlice (Some (Z.of_nat (g_start c))) (Some (Z.of_nat (g_end c)))) (g_text c)
                 = (with_m s m', [], exc) /\ m_ctx m' = m_ctx (d_m s)).
    { unfold d_setitem. cbn [parse_key]. destruct (effective _ _).
      - cbn [with_m d_m m_ctx]. replace (m_ctx (d_m s) =? 0) with false by lia. do 2 eexists. split; reflexivity.
      - exists (d_m s), false. rewrite (with_m_same s _ eq_refl). auto. }
    destruct Hs as (m1 & exc & E & Hm1). rewrite E. destruct exc.
    + do 2 eexists. split; [reflexivity|exact Hm1].
    + destruct (IH (with_m s m1)) as (m2 & exc2 & E2 & Hm2); [cbn [with_m d_m]; lia|]. rewrite E2.
      exists m2, exc2. split; [reflexivity|]. cbn [with_m d_m] in Hm2. lia.
Qed.

(** Combining two steps. *)
Lemma told_trans (a b : bool) : told a b = [] -> a = b.
Proof. unfold told. destruct a, b; cbn; congruence. Qed.

(** During undo and redo, [modified] is only set at the end. *)
Lemma apply_mod m s : m <> Normal -> d_mod (fst (fst (d_apply m s))) = d_mod s.
Proof.
  intros Hm. unfold d_apply. destruct (m_pend (d_m s)); [reflexivity|]. destruct (get_changes _); [|reflexivity].
  unfold d_update_text, store_undo. destruct m; [congruence| |]; cbn [set_modified]; destruct (d_enabled s); reflexivity.
Qed.

Lemma replay_faithful m e s : m <> Normal -> m_ctx (d_m s) = 0 ->
  faithful s (fst (fst (d_replay m e s))) (snd (fst (d_replay m e s))).
Proof.
  intros Hm Hc. unfold d_replay.
  destruct (sets_quiet m (fst e) (with_m s (m_enter (d_m s)))) as (m' & exc & E & Hm').
  { cbn [with_m d_m m_enter m_ctx]. lia. }
  rewrite E. cbn [with_m d_m m_enter m_ctx] in Hm'. rewrite Hc in Hm'.
  set (s1 := with_m (with_m s (m_enter (d_m s))) m') in *.
  assert (F1 : faithful s (fst (fst (d_exit m exc s1))) (snd (fst (d_exit m exc s1)))).
  { apply (faithful_with_m s (m_enter (d_m s))). eapply (faithful_with_m _ m'). apply exit_faithful. }
  assert (F2 : d_mod (fst (fst (d_exit m exc s1))) = d_mod s).
  { unfold d_exit. destruct exc; [reflexivity|]. unfold s1. cbn [with_m d_m]. rewrite Hm'. cbn [Nat.ltb Nat.leb].
    rewrite apply_mod by exact Hm. reflexivity. }
  destruct (d_exit m exc s1) as [[s2 e2] exc2]. cbn [fst snd app] in *. destruct (exc || exc2); [exact F1|].
  pose proof (set_modified_faithful (snd e) s2) as F3. destruct (set_modified Normal (snd e) s2) as [s3 e3] eqn:E3. cbn [fst snd] in *.
  destruct F1 as (A1 & A2 & A3 & A4), F3 as (B1 & B2 & B3 & B4). unfold faithful.
  rewrite modified_events_app, undo_events_app, redo_events_app, text_changes_app, app_length.
  rewrite A1, A2, A3, B1, B2, B3, F2, told_same.
  assert (U : can_undo s3 = can_undo s2 /\ can_redo s3 = can_redo s2).
  { cbn [set_modified] in E3. injection E3 as <- _. unfold can_undo, can_redo, all_modified. cbn [d_undo d_redo].
    destruct (snd e); rewrite ?map_length; split; reflexivity. }
  destruct U as [U1 U2]. rewrite U1, U2, !told_same, !app_nil_r. repeat split. lia.
Qed.

Lemma op_faithful s o :
  let s' := after s [o] in let evs := events s [o] in
  modified_events evs = told (d_mod s) (d_mod s')
  /\ (o <> DUndo -> undo_events evs = told (can_undo s) (can_undo s'))
  /\ (o <> DRedo -> redo_events evs = told (can_redo s) (can_redo s'))
  /\ d_rev s' = d_rev s + length (text_changes evs).
Proof.
  assert (HF : forall s1 evs x, d_op s o = (s1, evs, x) -> faithful s s1 evs ->
     let s' := after s [o] in let evs := events s [o] in
     modified_events evs = told (d_mod s) (d_mod s')
     /\ (o <> DUndo -> undo_events evs = told (can_undo s) (can_undo s'))
     /\ (o <> DRedo -> redo_events evs = told (can_redo s) (can_redo s'))
     /\ d_rev s' = d_rev s + length (text_changes evs)).
  { intros s1 evs x E F. unfold after, events. cbn [d_run]. rewrite E. cbn [fst snd]. rewrite app_nil_r.
    destruct F as (F1 & F2 & F3 & F4). auto. }
  assert (HQ : faithful s s []) by apply faithful_refl.
  destruct o as [o| | |b| |b].
  - destruct (d_op s (DEdit o)) as [[s1 evs] x] eqn:E. apply (HF _ _ _ eq_refl).
    replace s1 with (fst (fst (d_op s (DEdit o)))) by (rewrite E; reflexivity).
    replace evs with (snd (fst (d_op s (DEdit o)))) by (rewrite E; reflexivity). destruct o; cbn [d_op].
    + apply faithful_quiet.
    + apply exit_faithful.
    + apply setitem_faithful.
    + destruct (_ =? 0); [apply setitem_faithful|exact HQ].
  - destruct (0 <? m_ctx (d_m s)) eqn:Ec.
    { apply (HF s [] true); [cbn [d_op]; unfold d_undo_op; rewrite Ec; reflexivity|exact HQ]. }
    destruct (d_undo s) as [|e st] eqn:Eu.
    { apply (HF s [] false); [cbn [d_op]; unfold d_undo_op; rewrite Ec, Eu; reflexivity|exact HQ]. }
    unfold after, events. cbn [d_run d_op]. unfold d_undo_op. rewrite Ec, Eu.
    set (s0 := DState (d_m s) (d_mod s) st (d_redo s) (d_enabled s) (d_rev s)).
    pose proof (replay_faithful InUndo e s0 ltac:(discriminate)) as F.
    destruct (d_replay InUndo e s0) as [[s1 evs] x]. cbn [fst snd] in *. rewrite app_nil_r.
    destruct F as (F1 & F2 & F3 & F4); [cbn [s0 d_m]; lia|].
    split; [exact F1|]. split; [congruence|]. split; [intros _; exact F3|exact F4].
  - destruct (0 <? m_ctx (d_m s)) eqn:Ec.
    { apply (HF s [] true); [cbn [d_op]; unfold d_redo_op; rewrite Ec; reflexivity|exact HQ]. }
    destruct (d_redo s) as [|e st] eqn:Eu.
    { apply (HF s [] false); [cbn [d_op]; unfold d_redo_op; rewrite Ec, Eu; reflexivity|exact HQ]. }
    unfold after, events. cbn [d_run d_op]. unfold d_redo_op. rewrite Ec, Eu.
    set (s0 := DState (d_m s) (d_mod s) (d_undo s) st (d_enabled s) (d_rev s)).
    pose proof (replay_faithful InRedo e s0 ltac:(discriminate)) as F.
    destruct (d_replay InRedo e s0) as [[s1 evs] x]. cbn [fst snd] in *. rewrite app_nil_r.
    destruct F as (F1 & F2 & F3 & F4); [cbn [s0 d_m]; lia|].
    split; [exact F1|]. split; [intros _; exact F2|]. split; [congruence|exact F4].
  - pose proof (set_modified_faithful b s) as F. destruct (set_modified Normal b s) as [s1 evs] eqn:E.
    apply (HF s1 evs false); [cbn [d_op]; rewrite E; reflexivity|exact F].
  - eapply HF; [cbn [d_op]; unfold d_clear; reflexivity|].
    set (s' := DState (d_m s) (d_mod s) [] [] (d_enabled s) (d_rev s)).
    destruct (check_events s s') as (C1 & C2 & C3 & C4).
    unfold faithful. rewrite C1, C2, C3, C4. cbn [s' d_mod d_rev]. rewrite told_same. repeat split. cbn. lia.
  - eapply HF; [cbn [d_op]; reflexivity|]. unfold faithful, can_undo, can_redo. cbn. rewrite !told_same. repeat split. lia.
Qed.

(** [undo] never says that there is nothing more to undo. *)
Lemma undo_silent s : undo_events (events s [DUndo]) = [] /\ redo_events (events s [DRedo]) = [].
Proof.
  split.
  - unfold events. cbn [d_run d_op]. unfold d_undo_op. destruct (0 <? m_ctx (d_m s)) eqn:Ec; [reflexivity|].
    destruct (d_undo s) as [|e st] eqn:Eu; [reflexivity|].
    set (s0 := DState (d_m s) (d_mod s) st (d_redo s) (d_enabled s) (d_rev s)).
    pose proof (replay_faithful InUndo e s0 ltac:(discriminate)) as F.
    assert (U : can_undo (fst (fst (d_replay InUndo e s0))) = can_undo s0).
    { unfold d_replay. destruct (sets_quiet InUndo (fst e) (with_m s0 (m_enter (d_m s0)))) as (m' & exc & E & Hm').
      { cbn [with_m d_m m_enter m_ctx]. lia. }
      rewrite E. set (s1 := with_m (with_m s0 (m_enter (d_m s0))) m') in *.
      assert (U1 : length (d_undo (fst (fst (d_exit InUndo exc s1)))) = length st).
      { unfold d_exit. destruct exc; [reflexivity|]. destruct (1 <? _); [reflexivity|]. unfold d_apply.
        destruct (m_pend _); [reflexivity|]. destruct (get_changes _); [|reflexivity].
        unfold d_update_text, store_undo. cbn [set_modified]. destruct (d_enabled _); reflexivity. }
      destruct (d_exit InUndo exc s1) as [[s2 e2] exc2]. cbn [fst] in U1. destruct (exc || exc2); cbn [set_modified fst]; unfold can_undo; cbn [d_undo].
      - rewrite U1. reflexivity.
      - unfold all_modified. destruct (snd e); rewrite ?map_length; exact (f_equal (fun n => negb (n =? 0)) U1). }
    destruct (d_replay InUndo e s0) as [[s1 evs] x]. cbn [fst snd] in *. rewrite app_nil_r.
    destruct F as (F1 & F2 & F3 & F4); [cbn [s0 d_m]; lia|]. rewrite F2, U. apply told_same.
  - unfold events. cbn [d_run d_op]. unfold d_redo_op. destruct (0 <? m_ctx (d_m s)) eqn:Ec; [reflexivity|].
    destruct (d_redo s) as [|e st] eqn:Eu; [reflexivity|].
    set (s0 := DState (d_m s) (d_mod s) (d_undo s) st (d_enabled s) (d_rev s)).
    pose proof (replay_faithful InRedo e s0 ltac:(discriminate)) as F.
    assert (U : can_redo (fst (fst (d_replay InRedo e s0))) = can_redo s0).
    { unfold d_replay. destruct (sets_quiet InRedo (fst e) (with_m s0 (m_enter (d_m s0)))) as (m' & exc & E & Hm').
      { cbn [with_m d_m m_enter m_ctx]. lia. }
      rewrite E. set (s1 := with_m (with_m s0 (m_enter (d_m s0))) m') in *.
      assert (U1 : length (d_redo (fst (fst (d_exit InRedo exc s1)))) = length st).
      { unfold d_exit. destruct exc; [reflexivity|]. destruct (1 <? _); [reflexivity|]. unfold d_apply.
        destruct (m_pend _); [reflexivity|]. destruct (get_changes _); [|reflexivity].
        unfold d_update_text, store_undo. cbn [set_modified]. destruct (d_enabled _); reflexivity. }
      destruct (d_exit InRedo exc s1) as [[s2 e2] exc2]. cbn [fst] in U1. destruct (exc || exc2); cbn [set_modified fst]; unfold can_redo; cbn [d_redo].
      - rewrite U1. reflexivity.
      - unfold all_modified. destruct (snd e); rewrite ?map_length; exact (f_equal (fun n => negb (n =? 0)) U1). }
    destruct (d_replay InRedo e s0) as [[s1 evs] x]. cbn [fst snd] in *. rewrite app_nil_r.
    destruct F as (F1 & F2 & F3 & F4); [cbn [s0 d_m]; lia|]. rewrite F3, U. apply told_same.
Qed.
