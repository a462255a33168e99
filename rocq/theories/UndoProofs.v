(** Proofs: undo directly after an edit, from any state. *)
From Verif Require Import Base BaseFacts MutableModel MutableSpec MutableProofs DocumentModel DocumentSpec DocumentProofs HistoryProofs.
From Coq Require Import ZArith ZifyBool.

Implicit Types text : str.

(** The state directly after an edit: undo leads back, there is nothing to redo. *)
Definition just_edited (s : dstate) (old new : str) : Prop :=
  d_m s = MState new 0 [] /\ d_redo s = [] /\ d_enabled s = true
  /\ exists e st, d_undo s = e :: st /\ leads new (fst e) old.

Lemma apply_any s text d es : d_enabled s = true ->
  pending text d es -> (forall a b, In a es -> In b es -> ~ cuts a b) -> es <> [] ->
  exists s' evs, d_apply Normal (with_m s (MState text 0 d)) = (s', evs, false) /\ just_edited s' text (edited text es).
Proof.
  intros He Hp Hc Hes.
  destruct (d_apply_ok Normal (with_m s (MState text 0 d)) text 0 d es eq_refl Hp Hc Hes) as (cs & p & r & a & L & _ & E).
  rewrite E. unfold d_update_text, with_m, store_undo. cbn [d_m d_mod d_undo d_redo d_enabled d_rev m_text]. rewrite He.
  cbn [set_modified d_m d_mod d_undo d_redo d_enabled d_rev m_text]. do 2 eexists. split; [reflexivity|].
  split; [reflexivity|]. split; [reflexivity|]. split; [reflexivity|].
  cbn [d_undo]. do 2 eexists. split; [reflexivity|]. cbn [fst]. apply reverse_leads. exact L.
Qed.

Lemma setitem_any s text k t : d_m s = MState text 0 [] -> d_enabled s = true ->
  let es := filter (does_something text) (edit_of text (Set_ k t)) in es <> [] ->
  just_edited (fst (fst (d_setitem Normal s k t))) text (edited text es).
Proof.
  intros Hm He es Hes. unfold es in *. unfold d_setitem. rewrite Hm. cbn [m_text m_ctx m_pend edit_of] in *. rewrite key_piece_parse in *.
  destruct (parse_key (length text) k) as [(i, j)|] eqn:Ek; [|cbn [filter] in Hes; congruence].
  pose proof (parse_key_ok text k i j t Ek) as Hin. rewrite (effective_does _ _ Hin). cbn [filter] in *.
  destruct (does_something text (Change i j t)); [|congruence]. cbn [with_m d_m m_ctx Nat.eqb].
  destruct (apply_any s text (dict_add i j t []) [Change i j t] He) as (s' & evs & E & H).
  - apply (pending_add text [] [] i j t (pending_nil text) Hin).
  - apply no_cut_one.
  - discriminate.
  - unfold with_m in E |- *. cbn [dict_add] in E |- *. rewrite E. exact H.
Qed.

Lemma edit_any s text u : d_m s = MState text 0 [] -> d_enabled s = true -> u_fits text u -> u_edits text u <> [] ->
  just_edited (after s (u_ops u)) text (edited text (u_edits text u)).
Proof.
  intros Hm He Hf Hes. unfold after. destruct u as [ops|k t|t| | |b| ]; try (exfalso; apply Hes; reflexivity).
  - destruct Hf as [Hi Hc]. change (u_edits text (UBatch ops)) with (batch text ops) in *.
    destruct (d_batch s text ops Hm Hi Hc) as (d & exc & Hp & E). cbn [u_ops]. rewrite E.
    destruct (apply_any s text d _ He Hp Hc Hes) as (s' & evs & E' & H). rewrite E'. exact H.
  - pose proof (setitem_any s text k t Hm He Hes) as H. cbn [u_ops d_run d_op].
    destruct (d_setitem Normal s k t) as [[s' evs] x]. exact H.
  - assert (Ek : edit_of text (Set_ (KSlice None None) t) = [Change 0 (length text) t]).
    { cbn [edit_of]. rewrite key_piece_parse. cbn [parse_key]. destruct (0 <? length text) eqn:El; [reflexivity|f_equal; f_equal; lia]. }
    pose proof (setitem_any s text (KSlice None None) t Hm He) as H. rewrite Ek in H. specialize (H Hes).
    cbn [u_ops d_run d_op]. rewrite Hm. cbn [m_ctx Nat.eqb].
    destruct (d_setitem Normal s (KSlice None None) t) as [[s' evs] x]. exact H.
Qed.

(** Undo, and then redo. *)
Lemma undo_any s old new : just_edited s old new ->
  raised s [DUndo] = false /\ d_m (after s [DUndo]) = MState old 0 []
  /\ raised s [DUndo; DRedo] = false /\ d_m (after s [DUndo; DRedo]) = MState new 0 [].
Proof.
  intros (H1 & H2 & H3 & e & st & H4 & H5). destruct s as [sm smod su sr sen srev].
  cbn [d_m d_mod d_undo d_redo d_enabled d_rev] in *. subst sm su sr sen.
  unfold raised, after. cbn [d_run d_op]. unfold d_undo_op. cbn [d_m m_ctx d_undo d_mod d_redo d_enabled d_rev].
  replace (0 <? 0) with false by reflexivity.
  destruct (d_replay_ok InUndo e (DState (MState new 0 []) smod st [] true srev) new old eq_refl H5)
    as [(_ & E0 & E)|(cs & p & r & a & L & Hs & _ & E)]; rewrite E; clear E; cbn [set_modified].
  - subst old. cbn [fst snd orb]. split; [reflexivity|]. split; [reflexivity|].
    cbn [d_op]. unfold d_redo_op. cbn [d_m m_ctx d_redo]. replace (0 <? 0) with false by reflexivity.
    destruct (snd e); cbn; auto.
  - unfold d_update_text, with_m, store_undo. cbn [d_m d_mod d_undo d_redo d_enabled d_rev m_text m_ctx m_pend m_enter set_modified fst snd orb].
    split; [reflexivity|]. split; [reflexivity|]. unfold d_redo_op. cbn [d_m m_ctx d_redo].
    replace (0 <? 0) with false by reflexivity.
    assert (HR : forall s2 e0, d_m s2 = MState old 0 [] -> fst e0 = reverse_changes new cs ->
      exists s3 e3, d_replay InRedo e0 s2 = (s3, e3, false) /\ d_m s3 = MState new 0 []).
    { intros s2 e0 M2 En. assert (L2 : leads old (fst e0) new) by (rewrite En; apply reverse_leads; exact L).
      destruct (d_replay_ok InRedo e0 s2 old new M2 L2)
        as [(_ & E0 & E)|(cs' & p' & r' & a' & L' & _ & _ & E)]; rewrite E; clear E; cbn [set_modified].
      - subst new. do 2 eexists. split; [reflexivity|]. exact M2.
      - destruct (d_update_text _ _ _) as [s3 e3]. do 2 eexists. split; reflexivity. }
    destruct (snd e); cbn [all_modified map];
      match goal with |- context [d_replay InRedo ?e0 ?s2] =>
        destruct (HR s2 e0 eq_refl eq_refl) as (s3 & e3 & R1 & R2); rewrite R1 end;
      cbn [fst snd orb]; auto.
Qed.
