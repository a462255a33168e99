(** Model of [Document] in parce/document.py: undo, redo, the modified flag and the events.
    [_update_cursors] is modelled separately in CursorModel. *)
From Verif Require Import Base MutableModel.
From Coq Require Import ZArith.

(** An entry of an undo or redo stack: [[changes, modified]]. *)
Definition entry := (list change * bool)%type.

(** [d_undo], [d_redo]: the top of the stack comes first. *)
Record dstate := DState { d_m : mstate; d_mod : bool; d_undo : list entry; d_redo : list entry;
                          d_enabled : bool; d_rev : nat }.

(** The values of the switches [_in_undo] and [_in_redo]. *)
Inductive mode := Normal | InUndo | InRedo.

(** What is emitted to observers, document.py:288-306. *)
Inductive devent :=
| ETextChange (position removed added : nat)   (* "text_change", followed by "text_changed" *)
| EModified (b : bool) | EUndoAvailable (b : bool) | ERedoAvailable (b : bool).

Definition can_undo (s : dstate) : bool := negb (length (d_undo s) =? 0).
Definition can_redo (s : dstate) : bool := negb (length (d_redo s) =? 0).

(** document.py:402-405 [_set_all_undo_redo_modified] *)
Definition all_modified (l : list entry) : list entry := map (fun e => (fst e, true)) l.

(** document.py:329-337, the setter of [modified]. *)
Definition set_modified (m : mode) (b : bool) (s : dstate) : dstate * list devent :=
  match m with
  | Normal =>
      let changed := negb (Bool.eqb b (d_mod s)) in
      (DState (d_m s) b (if b then d_undo s else all_modified (d_undo s))
              (if b then d_redo s else all_modified (d_redo s)) (d_enabled s) (d_rev s),
       if changed then [EModified b] else [])
  | _ => (s, [])
  end.

(** document.py:347-356 [_reverse_changes]; [head] may be negative between two changes. *)
Fixpoint reverse_from (text : str) (head : Z) (cs : list change) : list change :=
  match cs with
  | [] => []
  | c :: cs =>
      let head := (head + Z.of_nat (g_start c))%Z in
      Change (Z.to_nat head) (Z.to_nat head + length (g_text c)) (slice text (g_start c) (g_end c))
      :: reverse_from text (head + (Z.of_nat (length (g_text c)) - Z.of_nat (g_end c)))%Z cs
  end.
Definition reverse_changes (text : str) (cs : list change) : list change := reverse_from text 0 cs.

(** document.py:358-366 [_store_undo] *)
Definition store_undo (m : mode) (cs : list change) (s : dstate) : dstate :=
  let e := (cs, d_mod s) in
  match m with
  | InUndo => DState (d_m s) (d_mod s) (d_undo s) (e :: d_redo s) (d_enabled s) (d_rev s)
  | InRedo => DState (d_m s) (d_mod s) (e :: d_undo s) (d_redo s) (d_enabled s) (d_rev s)
  | Normal => DState (d_m s) (d_mod s) (e :: d_undo s) [] (d_enabled s) (d_rev s)
  end.

(** document.py:383-400 [_check_undo_state]: the events emitted after the block. *)
Definition check_undo_state (before after : dstate) : list devent :=
  (if Bool.eqb (can_undo before) (can_undo after) then [] else [EUndoAvailable (can_undo after)])
  ++ (if Bool.eqb (can_redo before) (can_redo after) then [] else [ERedoAvailable (can_redo after)]).

(** document.py:339-345 and 102-106 [_update_text]; the revision number is document.py:105. *)
Definition d_update_text (m : mode) (cs : list change) (s : dstate) : dstate * list devent :=
  let s1 := if d_enabled s then store_undo m (reverse_changes (m_text (d_m s)) cs) s else s in
  let s2 := DState (d_m s1) (d_mod s1) (d_undo s1) (d_redo s1) (d_enabled s1) (S (d_rev s1)) in
  let '(s3, evs) := set_modified m true s2 in
  let s4 := DState (MState (update_text (m_text (d_m s3)) cs) (m_ctx (d_m s3)) (m_pend (d_m s3)))
                   (d_mod s3) (d_undo s3) (d_redo s3) (d_enabled s3) (d_rev s3) in
  (s4, evs ++ check_undo_state s s4).

(** Change the [mstate] part. *)
Definition with_m (s : dstate) (m : mstate) : dstate :=
  DState m (d_mod s) (d_undo s) (d_redo s) (d_enabled s) (d_rev s).

(** A result: the state, the events, and whether an exception was raised. *)
Definition dres := (dstate * list devent * bool)%type.

(** mutablestring.py:166-177 [_apply_changes], with the [_update_text] and [text_changed] of
    Document, document.py:429-437. *)
Definition d_apply (m : mode) (s : dstate) : dres :=
  match m_pend (d_m s) with
  | [] => (s, [], false)
  | _ => match get_changes (m_pend (d_m s)) with
         | None => (s, [], true)
         | Some cs =>
             let '(s, evs) := d_update_text m cs s in
             (with_m s (MState (m_text (d_m s)) (m_ctx (d_m s)) []),
              evs ++ match summary cs with Some (p, r, a) => [ETextChange p r a] | None => [] end, false)
         end
  end.

(** mutablestring.py:120-127 [__setitem__] *)
Definition d_setitem (m : mode) (s : dstate) (k : key) (text : str) : dres :=
  match parse_key (length (m_text (d_m s))) k with
  | None => (s, [], true)
  | Some (i, j) =>
      if effective (m_text (d_m s)) (Change i j text) then
        let s := with_m s (MState (m_text (d_m s)) (m_ctx (d_m s)) (dict_add i j text (m_pend (d_m s)))) in
        if m_ctx (d_m s) =? 0 then d_apply m s else (s, [], false)
      else (s, [], false)
  end.

(** mutablestring.py:95-105 [__exit__] *)
Definition d_exit (m : mode) (exc : bool) (s : dstate) : dres :=
  if exc then (with_m s (MState (m_text (d_m s)) 0 []), [], false)
  else if 1 <? m_ctx (d_m s) then (with_m s (MState (m_text (d_m s)) (m_ctx (d_m s) - 1) (m_pend (d_m s))), [], false)
  else d_apply m (with_m s (MState (m_text (d_m s)) 0 (m_pend (d_m s)))).

(** document.py:378-380 [with switch, self: for start, end, text in changes: self[start:end] = text] *)
Fixpoint d_sets (m : mode) (cs : list change) (s : dstate) : dres :=
  match cs with
  | [] => (s, [], false)
  | c :: cs =>
      let '(s, e1, exc) := d_setitem m s (KSlice (Some (Z.of_nat (g_start c))) (Some (Z.of_nat (g_end c)))) (g_text c) in
      if exc then (s, e1, true)
      else let '(s, e2, exc) := d_sets m cs s in (s, e1 ++ e2, exc)
  end.

(** document.py:368-381 [_apply_undo_redo] after [stack.pop()]: if the changes raise, so does this. *)
Definition d_replay (m : mode) (e : entry) (s : dstate) : dres :=
  let '(s, e1, exc) := d_sets m (fst e) (with_m s (m_enter (d_m s))) in
  let '(s, e2, exc2) := d_exit m exc s in
  if exc || exc2 then (s, e1 ++ e2, true)
  else let '(s, e3) := set_modified Normal (snd e) s in (s, e1 ++ e2 ++ e3, false).

(** document.py:407-409 [undo], 411-413 [redo] *)
Definition d_undo_op (s : dstate) : dres :=
  if 0 <? m_ctx (d_m s) then (s, [], true)
  else match d_undo s with
       | [] => (s, [], false)
       | e :: st => d_replay InUndo e (DState (d_m s) (d_mod s) st (d_redo s) (d_enabled s) (d_rev s))
       end.
Definition d_redo_op (s : dstate) : dres :=
  if 0 <? m_ctx (d_m s) then (s, [], true)
  else match d_redo s with
       | [] => (s, [], false)
       | e :: st => d_replay InRedo e (DState (d_m s) (d_mod s) (d_undo s) st (d_enabled s) (d_rev s))
       end.

(** document.py:415-419 [clear_undo_redo] *)
Definition d_clear (s : dstate) : dres :=
  let s' := DState (d_m s) (d_mod s) [] [] (d_enabled s) (d_rev s) in (s', check_undo_state s s', false).

Inductive dop := DEdit (o : mop) | DUndo | DRedo | DModified (b : bool) | DClear | DEnable (b : bool).

Definition d_op (s : dstate) (o : dop) : dres :=
  match o with
  | DEdit Enter => (with_m s (m_enter (d_m s)), [], false)
  | DEdit (Exit_ exc) => d_exit Normal exc s
  | DEdit (Set_ k t) => d_setitem Normal s k t
  | DEdit (SetText t) => if m_ctx (d_m s) =? 0 then d_setitem Normal s (KSlice None None) t else (s, [], true)
  | DUndo => d_undo_op s
  | DRedo => d_redo_op s
  | DModified b => let '(s, evs) := set_modified Normal b s in (s, evs, false)
  | DClear => d_clear s
  | DEnable b => (DState (d_m s) (d_mod s) (d_undo s) (d_redo s) b (d_rev s), [], false)
  end.

Fixpoint d_run (s : dstate) (ops : list dop) : dres :=
  match ops with
  | [] => (s, [], false)
  | o :: ops => let '(s, e1, x1) := d_op s o in
                let '(s, e2, x2) := d_run s ops in (s, e1 ++ e2, x1 || x2)
  end.

(** document.py:316-322 [__init__] *)
Definition d_init (text : str) : dstate := DState (MState text 0 []) false [] [] true 0.
