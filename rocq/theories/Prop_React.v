(** C147: observers of text_change that edit the document. *)
From Coq Require Import ZArith.
From Verif Require Import Base MutableModel DocumentModel ReactModel ReactSpec ReactProofs.

(** An edit to which an observer reacts with another edit leaves the document (text, undo and redo stacks, modified flag, revision, pending edits) just as the two edits one after the other; also if the first
    are the edits of an edit context. So all that is proved for series of edits (C17-C25) holds for them. Missing: reacting during undo and redo, see the refutations. *)
Theorem C147_edits_partial : forall (react : str -> devent -> option (key * str)) s,
  (forall k t s1 evs x, d_setitem Normal s k t = (s1, evs, x) -> r_setitem react Normal s k t = (fst (fst (d_run s1 (reaction react s1 evs))), x)) /\
  (forall exc s1 evs x, d_exit Normal exc s = (s1, evs, x) -> r_exit react Normal exc s = (fst (fst (d_run s1 (reaction react s1 evs))), x)).
Proof.
  intros react s. split.
  - intros k t s1 evs x. exact (setitem_react react s k t s1 evs x).
  - intros exc s1 evs x. exact (exit_react react s exc s1 evs x).
Qed.
Print Assumptions C147_edits_partial.

(** An observer that does nothing during undo and redo does no harm. *)
Theorem C147_undo_partial : forall react, (forall t e, react t e = None) -> forall s,
  r_undo react s = fst (fst (d_undo_op s)) /\ r_redo react s = fst (fst (d_redo_op s)).
Proof.
  intros react Q s. unfold r_undo, r_redo, d_undo_op, d_redo_op. destruct (0 <? _); [now split|].
  split; [destruct (d_undo s)|destruct (d_redo s)]; try reflexivity; now apply replay_quiet.
Qed.
Print Assumptions C147_undo_partial.

(** An observer that puts an [x] at the end, if there is none. *)
Definition at_end (text : str) : key := KSlice (Some (Z.of_nat (length text))) None.
Definition add_x (text : str) (ev : devent) : option (key * str) := if last text 0 =? 120 then None else Some (at_end text, [120]).
Definition at_ (i : nat) : key := KSlice (Some (Z.of_nat i)) (Some (Z.of_nat i)).
Definition doc1 : dstate := fst (r_setitem add_x Normal (d_init [97; 98]) (at_ 0) [99]).
Example C147_example : m_text (d_m doc1) = [99; 97; 98; 120] /\ length (d_undo doc1) = 2 /\ d_mod doc1 = true /\
  m_text (d_m (r_undo (fun _ _ => None) (r_undo (fun _ _ => None) doc1))) = [97; 98].
Proof. repeat split; vm_compute; reflexivity. Qed.

(** Finding: the edits of an observer during undo do not count: undo can leave a document that is not marked as modified, although its text is not that of the document that was not modified. [ab] becomes
    [abx]; undo removes the x and the observer puts it back.  *)
Theorem C147_modified_refuted : exists react text k t, let s := fst (r_setitem (fun _ _ => None) Normal (d_init text) k t) in
  d_mod (r_undo react s) = false /\ m_text (d_m (r_undo react s)) <> text.
Proof. exists add_x, [97; 98], (at_ 2), [120]. split; [vm_compute; reflexivity|]. vm_compute. discriminate. Qed.
Print Assumptions C147_modified_refuted.

(** Finding: and they are put on the redo stack, as something to be redone: undo cannot get rid of what the observer did, redo does that. *)
Theorem C147_redo_refuted : exists react text k t, let s := fst (r_setitem (fun _ _ => None) Normal (d_init text) k t) in
  length (d_undo (r_undo react s)) = 0 /\ length (d_redo (r_undo react s)) = 2 /\ m_text (d_m (r_redo (fun _ _ => None) (r_undo react s))) = text /\
  m_text (d_m (r_undo react s)) <> text.
Proof. exists add_x, [97; 98], (at_ 0), [99]. repeat split; try (vm_compute; reflexivity). vm_compute. discriminate. Qed.
Print Assumptions C147_redo_refuted.
