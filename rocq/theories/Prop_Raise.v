(** C146: observers of a document that raise exceptions. *)
From Coq Require Import ZArith.
From Verif Require Import Base MutableModel DocumentModel RaiseModel RaiseProofs.

(** Whatever observers of text_change and text_changed raise: after every series of edits the document (text, undo and redo stacks, modified flag, revision, edits that
    are pending) is just as if they did not raise. Missing: observers of the other events, see the refutations. *)
Theorem C146_edits_partial : forall raises : devent -> bool,
  (forall b, raises (EModified b) = false /\ raises (EUndoAvailable b) = false /\ raises (ERedoAvailable b) = false) ->
  forall ops s, fold_left (f_edit raises) ops s = fst (fst (d_run s (map DEdit ops))).
Proof. intros raises C ops s. exact (edits_calm raises C ops s). Qed.
Print Assumptions C146_edits_partial.

(** Then the same is emitted (also to the observer that raises), and the edit raises an exception just if it would do so anyway or if an observer of something that is emitted does. *)
Theorem C146_events_partial : forall raises : devent -> bool,
  (forall b, raises (EModified b) = false /\ raises (EUndoAvailable b) = false /\ raises (ERedoAvailable b) = false) ->
  forall m s, (forall k t s1 evs x, d_setitem m s k t = (s1, evs, x) -> f_setitem raises m s k t = (s1, evs, x || existsb raises evs)) /\
    (forall exc s1 evs x, d_exit m exc s = (s1, evs, x) -> f_exit raises m exc s = (s1, evs, x || existsb raises evs)).
Proof.
  intros raises C m s. split.
  - intros k t s1 evs x E. pose proof (calm_setitem raises C m s k t) as H1. destruct (calm_setitem_events raises C m s k t) as [H2 H3].
    rewrite E in H1, H2, H3. destruct (f_setitem raises m s k t) as [[a b] c]. unfold state_of in H1. cbn [fst snd] in *. now subst.
  - intros exc s1 evs x E. pose proof (calm_exit raises C m exc s) as H1. destruct (calm_exit_events raises C m exc s) as [H2 H3].
    rewrite E in H1, H2, H3. destruct (f_exit raises m exc s) as [[a b] c]. unfold state_of in H1. cbn [fst snd] in *. now subst.
Qed.
Print Assumptions C146_events_partial.

(** Then undo gives the text (and pending edits) that it should give. *)
Theorem C146_undo_partial : forall raises : devent -> bool,
  (forall b, raises (EModified b) = false /\ raises (EUndoAvailable b) = false /\ raises (ERedoAvailable b) = false) ->
  forall s, d_m (fst (fst (f_undo_op raises s))) = d_m (fst (fst (d_undo_op s))).
Proof. intros raises C s. exact (undo_m raises C s). Qed.
Print Assumptions C146_undo_partial.

(** If nothing is raised, edits and undo are those of DocumentModel.v, also what is emitted. *)
Theorem C146_quiet : forall s, (forall m k t, f_setitem (fun _ => false) m s k t = d_setitem m s k t) /\ f_undo_op (fun _ => false) s = d_undo_op s.
Proof. intro s. split; [intros m k t; apply quiet_setitem|apply quiet_undo]. Qed.
Print Assumptions C146_quiet.

(** Finding: whatever the edit is, if the document was not modified and an observer of modification_changed raises, then the text is not changed; but the revision is, and what would undo the edit is put on the
    undo stack. *)
Theorem C146_modified_refuted : forall raises s cs, d_mod s = false -> d_enabled s = true -> raises (EModified true) = true ->
  exists s' evs, f_update_text raises Normal cs s = (s', evs, true) /\ m_text (d_m s') = m_text (d_m s) /\ d_rev s' = S (d_rev s) /\
    length (d_undo s') = S (length (d_undo s)).
Proof.
  intros raises s cs M En R. destruct (modified_raises raises s cs M R) as (s' & evs & E & Em & Er & Eu). exists s', evs. rewrite Em, (Eu En).
  split; [exact E|]. split; [reflexivity|]. split; [exact Er|]. reflexivity.
Qed.
Print Assumptions C146_modified_refuted.

(** So that undo then changes the text: [abc], typing [xy] at the start fails, and undo gives [xyc]. *)
Definition at_ (i : nat) : key := KSlice (Some (Z.of_nat i)) (Some (Z.of_nat i)).
Definition on_modified (e : devent) : bool := match e with EModified true => true | _ => false end.
Definition on_undo (e : devent) : bool := match e with EUndoAvailable _ => true | _ => false end.
Definition on_text (e : devent) : bool := match e with ETextChange _ _ _ => true | _ => false end.
Theorem C146_undo_refuted : exists s, s = f_edit on_modified (d_init [97; 98; 99]) (Set_ (at_ 0) [120; 121]) /\
  m_text (d_m s) = [97; 98; 99] /\ m_text (d_m (fst (fst (f_undo_op on_modified s)))) = [120; 121; 99].
Proof. eexists. split; [reflexivity|]. split; vm_compute; reflexivity. Qed.
Print Assumptions C146_undo_refuted.

(** Finding: if an observer of undo_available raises, the text is changed, but the edit is still pending and is done once more with the next edit: typing [xy] at the start of [abc], and
    then [z] at the end, gives [xyxyabcz]. *)
Theorem C146_twice_refuted :
  m_text (d_m (fold_left (f_edit on_undo) [Set_ (at_ 0) [120; 121]; Set_ (at_ 5) [122]] (d_init [97; 98; 99]))) = [120; 121; 120; 121; 97; 98; 99; 122].
Proof. vm_compute. reflexivity. Qed.
Print Assumptions C146_twice_refuted.

(** Finding: if an observer of text_change raises during undo, the modified flag is not restored: the text is that of the saved document, but it is marked as modified. *)
Theorem C146_flag_refuted : exists s, s = f_edit on_text (d_init [97; 98; 99]) (Set_ (at_ 0) [120; 121]) /\
  m_text (d_m (fst (fst (f_undo_op on_text s)))) = [97; 98; 99] /\ d_mod (fst (fst (f_undo_op on_text s))) = true /\ d_mod (fst (fst (d_undo_op s))) = false.
Proof. eexists. split; [reflexivity|]. repeat split; vm_compute; reflexivity. Qed.
Print Assumptions C146_flag_refuted.

(** An observer of text_change that raises: the edits are done, the one outside and the two inside an edit context. *)
Example C146_example : let ops := [Set_ (at_ 0) [120; 121]; Enter; Set_ (at_ 5) [122]; Set_ (at_ 1) [119]; Exit_ false] in
  (forall b, on_text (EModified b) = false /\ on_text (EUndoAvailable b) = false /\ on_text (ERedoAvailable b) = false) /\
  m_text (d_m (fold_left (f_edit on_text) ops (d_init [97; 98; 99]))) = [120; 119; 121; 97; 98; 99; 122].
Proof. split; [intro b; repeat split|]. vm_compute. reflexivity. Qed.
