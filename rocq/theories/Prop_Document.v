(** C17, C22-C25, C61-C63: undo, redo, the modified flag and the events of a document. *)
From Verif Require Import Base BaseFacts MutableModel MutableSpec MutableProofs DocumentModel DocumentSpec DocumentProofs
  HistoryProofs EventProofs UndoProofs Prop_Edit.
From Coq Require Import ZArith ZifyBool.

Ltac no_cuts :=
  intros a b Ha Hb [Hab1 Hab2]; vm_compute in Ha, Hb;
  repeat match goal with H : _ \/ _ |- _ => destruct H as [<-|H] | H : False |- _ => destruct H end;
  cbn [g_start g_end] in *; lia.

(** C22. In any state in which no edit is pending: after an edit (a batch, a single edit, or setting
    the text) that has an effect, undo restores the text from before and a redo after that the
    edited text; neither raises. *)
Theorem C22_undo_restores_the_text :
  forall (s : dstate) (text : str) (u : uop),
    d_m s = MState text 0 [] -> d_enabled s = true -> u_fits text u -> u_edits text u <> [] ->
    text_of (after s (u_ops u)) = edited text (u_edits text u)
    /\ text_of (after s (u_ops u ++ [DUndo])) = text
    /\ text_of (after s (u_ops u ++ [DUndo; DRedo])) = edited text (u_edits text u)
    /\ raised (after s (u_ops u)) [DUndo; DRedo] = false.
Proof.
  intros s text u Hm He Hf Hes. pose proof (edit_any s text u Hm He Hf Hes) as J.
  destruct (undo_any _ _ _ J) as (_ & U2 & U3 & U4). rewrite !after_app. unfold text_of. rewrite U2, U4.
  destruct J as (J1 & _). rewrite J1. auto.
Qed.
Print Assumptions C22_undo_restores_the_text.

(** C22, the inverse batch itself: the changes recorded for undo, applied to the new text, give the old. *)
Theorem C22_reversed_changes_lead_back :
  forall (text : str) (ops : list mop), inside 1 ops 1 ->
    let edits := filter (does_something text) (flat_map (edit_of text) ops) in
    (forall a b, In a edits -> In b edits -> ~ cuts a b) -> edits <> [] ->
    forall rest : dstate, d_m rest = MState text 0 [] -> d_enabled rest = true ->
    exists r flag st, d_undo (after rest (map DEdit (Enter :: ops ++ [Exit_ false]))) = (r, flag) :: st
      /\ edited (edited text edits) r = text
      /\ Forall (in_text (edited text edits)) r
      /\ forall a b, In a r -> In b r -> ~ cuts a b.
Proof.
  intros text ops Hi edits Hc Hne s Hm He.
  pose proof (edit_any s text (UBatch ops) Hm He (conj Hi Hc) Hne) as (_ & _ & _ & e & st & E & L).
  exists (fst e), (snd e), st. split; [rewrite <- surjective_pairing; exact E|].
  split; [exact (leads_edited _ _ _ L)|]. split.
  - apply Forall_forall. intros c Hin. exact (leads_in_text _ _ _ _ L Hin).
  - apply (ordered_no_cut _ 0). apply L.
Qed.
Print Assumptions C22_reversed_changes_lead_back.

Example C22_example :
  let s := d_init text_abc in
  u_fits text_abc (UBatch batch_abc) /\ u_edits text_abc (UBatch batch_abc) <> []
  /\ text_of (after s (u_ops (UBatch batch_abc))) = [97; 89; 90; 98; 88]
  /\ text_of (after s (u_ops (UBatch batch_abc) ++ [DUndo])) = text_abc.
Proof.
  split; [|split; [discriminate|split; reflexivity]]. split; [cbn; lia|].
  no_cuts.
Qed.

(** C23 and C24, for all histories. Over any sequence of edits, undos, redos, setting of [modified] and
    clearing, starting with a new document, the document walks a linear history: it has the text of the
    current point, undo (redo) is possible if and only if there is a previous (next) point, and it is
    unmodified if and only if the current point is the one marked. The only liberty taken is that the
    step between two points that have the same text may be forgotten when taken back. *)
Theorem C24_modified_follows_the_history :
  forall (text : str) (us : list uop), u_all u_fits (d_init text) us ->
    let s := after (d_init text) (flat_map u_ops us) in
    exists h, u_walk (h_init text) us h
      /\ text_of s = fst (h_now h)
      /\ d_mod s = negb (snd (h_now h))
      /\ (can_undo s = true <-> h_past h <> [])
      /\ (can_redo s = true <-> h_future h <> [])
      /\ length (filter snd (h_now h :: h_past h ++ h_future h)) <= 1.
Proof.
  intros text us Hf s. destruct (u_steps us _ _ (init_hist text) Hf) as (h & W & K1 & K2 & K3 & K4 & K5 & K6).
  fold s in K1, K2, K3, K4, K5. exists h. split; [exact W|]. unfold text_of. rewrite K1. split; [reflexivity|].
  split; [exact K2|]. apply stack_ok_length in K3, K4. unfold can_undo, can_redo. rewrite K3, K4. 
  split; [destruct (h_past h); cbn; split; congruence|]. split; [destruct (h_future h); cbn; split; congruence|exact K6].
Qed.
Print Assumptions C24_modified_follows_the_history.

(** C23 as stated does not hold: a batch that as a whole changes nothing can be undone but not redone.
    On "ab", delete "a" and insert "a" before it. *)
Definition vain_batch : list mop := [Set_ (KSlice (Some 0) (Some 1))%Z []; Set_ (KSlice (Some 0) (Some 0))%Z [97]].
Theorem C23_linear_history_refuted :
  exists text us, u_all u_fits (d_init text) us
    /\ can_redo (after (d_init text) (flat_map u_ops us)) = false
    /\ h_future (u_hists (h_init text) us) <> [].
Proof.
  exists [97; 98], [UBatch vain_batch; UUndo]. split; [|split; [reflexivity|discriminate]].
  cbn [u_all]. split; [|split; [exact I|exact I]]. split; [cbn; lia|].
  no_cuts.
Qed.
Print Assumptions C23_linear_history_refuted.

(** C23 for histories in which every batch that has an effective edit changes the text. *)
Theorem C23_linear_history_partial :
  forall (text : str) (us : list uop), u_all u_fits (d_init text) us -> u_all u_changes (d_init text) us ->
    let s := after (d_init text) (flat_map u_ops us) in
    let h := u_hists (h_init text) us in
    text_of s = fst (h_now h)
    /\ d_mod s = negb (snd (h_now h))
    /\ (can_undo s = true <-> h_past h <> [])
    /\ (can_redo s = true <-> h_future h <> []).
Proof.
  intros text us Hf Hc s h.
  destruct (u_steps_distinct us _ _ (init_hist text) (conj I I) Hf Hc) as (K1 & K2 & K3 & K4 & K5 & K6).
  fold s h in K1, K2, K3, K4, K5. unfold text_of. rewrite K1. split; [reflexivity|].
  split; [exact K2|]. apply stack_ok_length in K3, K4. unfold can_undo, can_redo. rewrite K3, K4. 
  split; [destruct (h_past h); cbn; split; congruence|destruct (h_future h); cbn; split; congruence].
Qed.
Print Assumptions C23_linear_history_partial.

(** Only for batches of several edits is there something to require: *)
Theorem C23_single_edits_change_the_text :
  forall (text : str) (u : uop), (forall ops, u <> UBatch ops) -> u_fits text u /\ u_changes text u.
Proof. intros text u H. split; [destruct u; try exact I; destruct (H ops eq_refl)|apply single_changes; exact H]. Qed.
Print Assumptions C23_single_edits_change_the_text.

(** A session: edit, edit, save, edit, undo twice, redo, edit. *)
Definition session : list uop :=
  [UEdit (KInt (-1)) [120]; UText [121; 122]; UModified false; UEdit (KSlice (Some 1%Z) None) []; UUndo; UUndo; URedo].
Example C23_example :
  u_all u_fits (d_init text_abc) session /\ u_all u_changes (d_init text_abc) session
  /\ u_hists (h_init text_abc) session
     = Hist [([97; 98; 99; 100; 101; 120], false); (text_abc, false)] ([121; 122], true) [([121], false)].
Proof.
  split; [|split; [|reflexivity]].
  - cbn [u_all session]. repeat split.
  - cbn [u_all session]. repeat (split; [apply single_changes; discriminate|]). exact I.
Qed.
Example C24_example : d_mod (after (d_init text_abc) (flat_map u_ops session)) = false
  /\ d_mod (after (d_init text_abc) (flat_map u_ops (session ++ [UUndo]))) = true.
Proof. split; vm_compute; reflexivity. Qed.

(** C17 for a document: undo, redo and all other actions too notify exactly the replaced range, in any
    state reached from a new document; no notification means that the text did not change. *)
Theorem C17_every_change_is_notified :
  forall (text : str) (us : list uop) (u : uop), u_all u_fits (d_init text) (us ++ [u]) ->
    let s := after (d_init text) (flat_map u_ops us) in
    match text_changes (events s (u_ops u)) with
    | [] => text_of (after s (u_ops u)) = text_of s
    | [(p, r, a)] => splice_of (text_of s) (text_of (after s (u_ops u))) p r a
    | _ => False
    end.
Proof.
  intros text us u Hf s.
  assert (Hs : u_all u_fits (d_init text) us /\ u_fits (text_of s) u).
  { unfold s. clear s. generalize (d_init text) as s0, Hf. clear. induction us as [|x us IH]; intros s0 H.
    - destruct H as [H _]. split; [exact I|exact H].
    - destruct H as [H1 H2]. destruct (IH _ H2) as [H3 H4]. cbn [flat_map]. rewrite after_app. split; [split; assumption|exact H4]. }
  destruct Hs as [H1 H2]. destruct (u_steps us _ _ (init_hist text) H1) as (h & _ & Hh). fold s in Hh.
  assert (Et : text_of s = fst (h_now h)) by (destruct Hh as (K1 & _); unfold text_of; rewrite K1; reflexivity).
  rewrite Et in H2 |- *. destruct (u_step s h u Hh H2) as (h' & _ & (K1 & _) & Ht & _).
  unfold text_of. rewrite K1. exact Ht.
Qed.
Print Assumptions C17_every_change_is_notified.

(** C25. With undo recording switched off for one edit, undo gives a text the document never had. *)
Definition unrecorded_edit : list dop :=
  [DEdit (Set_ (KSlice (Some 0) (Some 0))%Z [120; 120]); DEnable false;
   DEdit (Set_ (KSlice (Some 0) (Some 0))%Z [121; 121; 121]); DEnable true].
Theorem C25_undo_disabled_refuted :
  exists (text : str) (ops : list dop),
    raised (d_init text) (ops ++ [DUndo]) = false
    /\ forall before after_, ops = before ++ after_ ->
         text_of (after (d_init text) before) <> text_of (after (d_init text) (ops ++ [DUndo])).
Proof.
  exists text_abc, unrecorded_edit. split; [vm_compute; reflexivity|].
  assert (H : forall n, n < 5 -> text_of (after (d_init text_abc) (firstn n unrecorded_edit))
                                 <> text_of (after (d_init text_abc) (unrecorded_edit ++ [DUndo]))).
  { assert (E : text_of (after (d_init text_abc) (unrecorded_edit ++ [DUndo])) = [121; 120; 120; 97; 98; 99; 100; 101; 102])
      by (vm_compute; reflexivity).
    rewrite E. intros n Hn. destruct n as [|[|[|[|[|n]]]]]; [| | | | |lia]; vm_compute; discriminate. }
  intros before after_ E.
  assert (Eb : before = firstn (length before) unrecorded_edit).
  { rewrite E, firstn_app, Nat.sub_diag, firstn_all. cbn [firstn]. symmetry. apply app_nil_r. }
  rewrite Eb. apply H. apply (f_equal (@length dop)) in E. rewrite app_length in E. cbn [length unrecorded_edit] in E. lia.
Qed.
Print Assumptions C25_undo_disabled_refuted.

(** C25, what does hold: whatever was done before, in whatever mode, once recording is on and the undo
    history has been cleared (outside an edit context), the document walks a linear history again. *)
Theorem C25_clear_makes_undo_sound_partial :
  forall (text : str) (ops : list dop) (us : list uop),
    let s0 := after (d_init text) (ops ++ [DEnable true; DClear]) in
    m_ctx (d_m s0) = 0 -> m_pend (d_m s0) = [] -> u_all u_fits s0 us ->
    exists h, u_walk (Hist [] (text_of s0, negb (d_mod s0)) []) us h
      /\ text_of (after s0 (flat_map u_ops us)) = fst (h_now h)
      /\ d_mod (after s0 (flat_map u_ops us)) = negb (snd (h_now h)).
Proof.
  intros text ops us s0 Hc Hp Hf.
  assert (Hh : hist_ok s0 (Hist [] (text_of s0, negb (d_mod s0)) [])).
  { unfold hist_ok. cbn [h_now h_past h_future fst snd]. rewrite negb_involutive.
    split; [destruct (d_m s0) as [mt mc mp] eqn:E; cbn [m_ctx m_pend] in *; unfold text_of; rewrite E; subst; reflexivity|].
    split; [reflexivity|]. unfold s0. rewrite after_app. cbn. split; [exact I|]. split; [exact I|]. split; [reflexivity|].
    destruct (negb _); cbn; lia. }
  destruct (u_steps us _ _ Hh Hf) as (h & W & K1 & K2 & _). exists h. split; [exact W|]. unfold text_of. rewrite K1. auto.
Qed.
Print Assumptions C25_clear_makes_undo_sound_partial.

Example C25_example :
  let s0 := after (d_init text_abc) ([DEnable false; DEdit (Set_ (KInt 0) [120])] ++ [DEnable true; DClear]) in
  m_ctx (d_m s0) = 0 /\ m_pend (d_m s0) = [] /\ u_all u_fits s0 session /\ text_of s0 <> text_abc.
Proof. cbn [u_all session]. repeat split. vm_compute. discriminate. Qed.

(** C61. Undoing the last step does not say that undo is no longer available, nor redoing the last step
    that redo is not: no undo ever does. *)
Theorem C61_undo_available_refuted :
  (exists ops, let s := after (d_init text_abc) ops in
     can_undo s = true /\ can_undo (after s [DUndo]) = false /\ undo_events (events s [DUndo]) = [])
  /\ forall s, undo_events (events s [DUndo]) = [] /\ redo_events (events s [DRedo]) = [].
Proof. split; [exists [DEdit (Set_ (KInt 0) [120])]; repeat split|exact undo_silent]. Qed.
Print Assumptions C61_undo_available_refuted.

(** C61 for everything else: in any state, any operation other than undo reports a change of
    [can_undo()], and any operation other than redo reports a change of [can_redo()], and they report
    nothing else. *)
Theorem C61_undo_available_partial :
  forall (s : dstate) (o : dop),
    let s' := after s [o] in
    (o <> DUndo -> undo_events (events s [o]) = if Bool.eqb (can_undo s) (can_undo s') then [] else [can_undo s'])
    /\ (o <> DRedo -> redo_events (events s [o]) = if Bool.eqb (can_redo s) (can_redo s') then [] else [can_redo s']).
Proof. intros s o. destruct (op_faithful s o) as (_ & H2 & H3 & _). split; assumption. Qed.
Print Assumptions C61_undo_available_partial.

(** C62. In any state, any operation reports exactly the change of [modified]. *)
Theorem C62_modified_is_reported :
  forall (s : dstate) (o : dop),
    let s' := after s [o] in
    modified_events (events s [o]) = if Bool.eqb (d_mod s) (d_mod s') then [] else [d_mod s'].
Proof. intros s o. exact (proj1 (op_faithful s o)). Qed.
Print Assumptions C62_modified_is_reported.

(** C63. In any state, the revision number grows by the number of text changes reported. *)
Theorem C63_revision_counts_changes :
  forall (ops : list dop) (s : dstate),
    d_rev (after s ops) = d_rev s + length (text_changes (events s ops)).
Proof.
  induction ops as [|o ops IH]; intros s; [unfold after, events; cbn; lia|].
  pose proof (op_faithful s o) as (_ & _ & _ & H). specialize (IH (after s [o])).
  unfold after, events in *. cbn [d_run] in *. destruct (d_op s o) as [[s1 e1] x1]. cbn [fst snd] in *.
  destruct (d_run s1 ops) as [[s2 e2] x2]. cbn [fst snd] in *.
  rewrite app_nil_r in H. rewrite text_changes_app, app_length. lia.
Qed.
Print Assumptions C63_revision_counts_changes.

Example C61_C63_example :
  let s := after (d_init text_abc) [DEdit (Set_ (KInt 0) [120])] in
  events s [DUndo] = [ERedoAvailable true; ETextChange 0 1 1; EModified false] /\ d_rev (after s [DUndo]) = 2.
Proof. split; vm_compute; reflexivity. Qed.
