(** Model of a Document with an observer of "text_change" that edits the document itself (for example to complete what is typed). The same functions as in DocumentModel.v, but the
    edit of the observer is done when "text_change" is emitted. *)
From Coq Require Import ZArith.
From Verif Require Import Base MutableModel DocumentModel.

Section React.
(** What the observer does: it may replace a piece of the text, which depends on the text and on the change. It does not react to its own edits. *)
Variable react : str -> devent -> option (key * str).

(** The edit of the observer, in the mode (undo or redo) that is on at that moment. *)
Definition observer (m : mode) (s : dstate) (ev : devent) : dstate :=
  match react (m_text (d_m s)) ev with
  | Some (k, t) => fst (fst (d_setitem m s k t))
  | None => s
  end.

(** mutablestring.py:166-177 [_apply_changes]: "text_change" is emitted (document.py:429-437) when the text is changed and the pending changes are cleared. *)
Definition r_apply (m : mode) (s : dstate) : dstate * bool :=
  match m_pend (d_m s) with
  | [] => (s, false)
  | _ => match get_changes (m_pend (d_m s)) with
         | None => (s, true)
         | Some cs =>
             let '(s, _) := d_update_text m cs s in
             let s := with_m s (MState (m_text (d_m s)) (m_ctx (d_m s)) []) in
             (match summary cs with Some (p, r, a) => observer m s (ETextChange p r a) | None => s end, false)
         end
  end.

(** mutablestring.py:120-127 [__setitem__] *)
Definition r_setitem (m : mode) (s : dstate) (k : key) (text : str) : dstate * bool :=
  match parse_key (length (m_text (d_m s))) k with
  | None => (s, true)
  | Some (i, j) =>
      if effective (m_text (d_m s)) (Change i j text) then
        let s := with_m s (MState (m_text (d_m s)) (m_ctx (d_m s)) (dict_add i j text (m_pend (d_m s)))) in
        if m_ctx (d_m s) =? 0 then r_apply m s else (s, false)
      else (s, false)
  end.

(** mutablestring.py:95-105 [__exit__] *)
Definition r_exit (m : mode) (exc : bool) (s : dstate) : dstate * bool :=
  if exc then (with_m s (MState (m_text (d_m s)) 0 []), false)
  else if 1 <? m_ctx (d_m s) then (with_m s (MState (m_text (d_m s)) (m_ctx (d_m s) - 1) (m_pend (d_m s))), false)
  else r_apply m (with_m s (MState (m_text (d_m s)) 0 (m_pend (d_m s)))).

(** document.py:368-381 [_apply_undo_redo]: [with switch, self] ends the edit context (and so emits "text_change") before the switch. While setting the changes
    nothing is emitted, so [d_sets] of DocumentModel.v is used. *)
Definition r_replay (m : mode) (e : entry) (s : dstate) : dstate :=
  let '(s, _, exc) := d_sets m (fst e) (with_m s (m_enter (d_m s))) in
  let '(s, exc2) := r_exit m exc s in
  if exc || exc2 then s else fst (set_modified Normal (snd e) s).
(** document.py:407-413 *)
Definition r_undo (s : dstate) : dstate :=
  if 0 <? m_ctx (d_m s) then s
  else match d_undo s with
       | [] => s
       | e :: st => r_replay InUndo e (DState (d_m s) (d_mod s) st (d_redo s) (d_enabled s) (d_rev s))
       end.
Definition r_redo (s : dstate) : dstate :=
  if 0 <? m_ctx (d_m s) then s
  else match d_redo s with
       | [] => s
       | e :: st => r_replay InRedo e (DState (d_m s) (d_mod s) (d_undo s) st (d_enabled s) (d_rev s))
       end.
End React.
