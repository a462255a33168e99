(** Model of an edit of a Document when observers raise exceptions: [Observable.emit] (util.py:367-395) does not catch them. The same functions as in DocumentModel.v, but what comes after
    an exception is not done. *)
From Coq Require Import ZArith.
From Verif Require Import Base MutableModel DocumentModel.

Section Raise.
(** Whether an observer raises an exception when this is emitted. For [ETextChange]: at "text_change" or at "text_changed". *)
Variable raises : devent -> bool.

(** Emitting one after the other; an exception ends it. *)
Fixpoint emit (evs : list devent) : list devent * bool :=
  match evs with
  | [] => ([], false)
  | e :: evs => if raises e then ([e], true) else let (l, exc) := emit evs in (e :: l, exc)
  end.

(** document.py:339-345 [_update_text], 102-106, 329-337: [modified] is set before the text is changed. The events of [_check_undo_state] (383-400) are emitted in a finally clause, also
    after an exception. *)
Definition f_update_text (m : mode) (cs : list change) (s : dstate) : dres :=
  let s1 := if d_enabled s then store_undo m (reverse_changes (m_text (d_m s)) cs) s else s in
  let s2 := DState (d_m s1) (d_mod s1) (d_undo s1) (d_redo s1) (d_enabled s1) (S (d_rev s1)) in
  let '(s3, evs) := set_modified m true s2 in
  let (e1, exc1) := emit evs in
  let s4 := if exc1 then s3
            else DState (MState (update_text (m_text (d_m s3)) cs) (m_ctx (d_m s3)) (m_pend (d_m s3)))
                        (d_mod s3) (d_undo s3) (d_redo s3) (d_enabled s3) (d_rev s3) in
  let (e2, exc2) := emit (check_undo_state s s4) in
  (s4, e1 ++ e2, exc1 || exc2).

(** mutablestring.py:166-177 [_apply_changes]: the changes are cleared after [_update_text], before [text_changed]. *)
Definition f_apply (m : mode) (s : dstate) : dres :=
  match m_pend (d_m s) with
  | [] => (s, [], false)
  | _ => match get_changes (m_pend (d_m s)) with
         | None => (s, [], true)
         | Some cs =>
             let '(s, evs, exc) := f_update_text m cs s in
             if exc then (s, evs, true)
             else let (e, exc) := emit (match summary cs with Some (p, r, a) => [ETextChange p r a] | None => [] end) in
                  (with_m s (MState (m_text (d_m s)) (m_ctx (d_m s)) []), evs ++ e, exc)
         end
  end.

(** mutablestring.py:120-127 [__setitem__] *)
Definition f_setitem (m : mode) (s : dstate) (k : key) (text : str) : dres :=
  match parse_key (length (m_text (d_m s))) k with
  | None => (s, [], true)
  | Some (i, j) =>
      if effective (m_text (d_m s)) (Change i j text) then
        let s := with_m s (MState (m_text (d_m s)) (m_ctx (d_m s)) (dict_add i j text (m_pend (d_m s)))) in
        if m_ctx (d_m s) =? 0 then f_apply m s else (s, [], false)
      else (s, [], false)
  end.

(** mutablestring.py:95-105 [__exit__] *)
Definition f_exit (m : mode) (exc : bool) (s : dstate) : dres :=
  if exc then (with_m s (MState (m_text (d_m s)) 0 []), [], false)
  else if 1 <? m_ctx (d_m s) then (with_m s (MState (m_text (d_m s)) (m_ctx (d_m s) - 1) (m_pend (d_m s))), [], false)
  else f_apply m (with_m s (MState (m_text (d_m s)) 0 (m_pend (d_m s)))).

(** document.py:378-380 *)
Fixpoint f_sets (m : mode) (cs : list change) (s : dstate) : dres :=
  match cs with
  | [] => (s, [], false)
  | c :: cs =>
      let '(s, e1, exc) := f_setitem m s (KSlice (Some (Z.of_nat (g_start c))) (Some (Z.of_nat (g_end c)))) (g_text c) in
      if exc then (s, e1, true)
      else let '(s, e2, exc) := f_sets m cs s in (s, e1 ++ e2, exc)
  end.

(** document.py:368-381 [_apply_undo_redo] after [stack.pop()]: [modified] is set after the changes. *)
Definition f_replay (m : mode) (e : entry) (s : dstate) : dres :=
  let '(s, e1, exc) := f_sets m (fst e) (with_m s (m_enter (d_m s))) in
  let '(s, e2, exc2) := f_exit m exc s in
  if exc || exc2 then (s, e1 ++ e2, true)
  else let '(s, evs) := set_modified Normal (snd e) s in
       let (e3, exc3) := emit evs in (s, e1 ++ e2 ++ e3, exc3).

(** document.py:407-409 [undo] *)
Definition f_undo_op (s : dstate) : dres :=
  if 0 <? m_ctx (d_m s) then (s, [], true)
  else match d_undo s with
       | [] => (s, [], false)
       | e :: st => f_replay InUndo e (DState (d_m s) (d_mod s) st (d_redo s) (d_enabled s) (d_rev s))
       end.

(** Editing, as in [DocumentModel.d_op]. *)
Definition f_edit (s : dstate) (o : mop) : dstate :=
  match o with
  | Enter => with_m s (m_enter (d_m s))
  | Exit_ exc => fst (fst (f_exit Normal exc s))
  | Set_ k t => fst (fst (f_setitem Normal s k t))
  | SetText t => if m_ctx (d_m s) =? 0 then fst (fst (f_setitem Normal s (KSlice None None) t)) else s
  end.
End Raise.
