(** What undo, redo and the modified flag of a document should do: a linear history of texts. *)
From Verif Require Import Base MutableModel MutableSpec DocumentModel.

(** A history: the texts before the current one (the latest first), the current one, and those after
    it (the next first); with each text whether it is the one that was marked unmodified. *)
Record hist := Hist { h_past : list (str * bool); h_now : str * bool; h_future : list (str * bool) }.

Definition h_edit (new : str) (h : hist) : hist := Hist (h_now h :: h_past h) (new, false) [].
Definition h_undo (h : hist) : hist :=
  match h_past h with [] => h | p :: ps => Hist ps p (h_now h :: h_future h) end.
Definition h_redo (h : hist) : hist :=
  match h_future h with [] => h | f :: fs => Hist (h_now h :: h_past h) f fs end.
Definition unmarked (l : list (str * bool)) : list (str * bool) := map (fun p => (fst p, false)) l.
Definition h_mark (h : hist) : hist := Hist (unmarked (h_past h)) (fst (h_now h), true) (unmarked (h_future h)).
Definition h_unmark (h : hist) : hist := Hist (h_past h) (fst (h_now h), false) (h_future h).
Definition h_clear (h : hist) : hist := Hist [] (h_now h) [].

(** What a user does: a batch of edits in an edit context, a single edit [d[k] = t], setting the whole
    text, undo, redo, setting [modified], clearing the undo history. *)
Inductive uop :=
| UBatch (ops : list mop) | UEdit (k : key) (t : str) | UText (t : str)
| UUndo | URedo | UModified (b : bool) | UClear.

(** The operations on the document it consists of. *)
Definition u_ops (u : uop) : list dop :=
  match u with
  | UBatch ops => map DEdit (Enter :: ops ++ [Exit_ false])
  | UEdit k t => [DEdit (Set_ k t)]
  | UText t => [DEdit (SetText t)]
  | UUndo => [DUndo]
  | URedo => [DRedo]
  | UModified b => [DModified b]
  | UClear => [DClear]
  end.

(** The edits made by it that change something. *)
Definition u_edits (text : str) (u : uop) : list change :=
  filter (does_something text)
    match u with
    | UBatch ops => flat_map (edit_of text) ops
    | UEdit k t => edit_of text (Set_ k t)
    | UText t => [Change 0 (length text) t]
    | _ => []
    end.

(** The history afterwards. *)
Definition u_hist (h : hist) (u : uop) : hist :=
  match u with
  | UUndo => h_undo h
  | URedo => h_redo h
  | UModified true => h_unmark h
  | UModified false => h_mark h
  | UClear => h_clear h
  | _ => match u_edits (fst (h_now h)) u with
         | [] => h
         | es => h_edit (edited (fst (h_now h)) es) h
         end
  end.

(** The same, but moving between two points of the history that have the same text may forget the
    point that is left. *)
Definition u_next (h : hist) (u : uop) (h' : hist) : Prop :=
  h' = u_hist h u \/
  match u with
  | UUndo => exists p ps, h_past h = p :: ps /\ fst p = fst (h_now h) /\ h' = Hist ps p (h_future h)
  | URedo => exists p ps, h_future h = p :: ps /\ fst p = fst (h_now h) /\ h' = Hist (h_past h) p ps
  | _ => False
  end.

Inductive u_walk : hist -> list uop -> hist -> Prop :=
| walk_nil h : u_walk h [] h
| walk_cons h u h' us h'' : u_next h u h' -> u_walk h' us h'' -> u_walk h (u :: us) h''.

Definition u_hists (h : hist) (us : list uop) : hist := fold_left u_hist us h.

(** The state of the document after a list of operations, the events, and whether one raised. *)
Definition after (s : dstate) (ops : list dop) : dstate := fst (fst (d_run s ops)).
Definition events (s : dstate) (ops : list dop) : list devent := snd (fst (d_run s ops)).
Definition raised (s : dstate) (ops : list dop) : bool := snd (d_run s ops).
Definition text_of (s : dstate) : str := m_text (d_m s).

(** A batch opens and closes its edit contexts and is not rejected for overlap. *)
Definition u_fits (text : str) (u : uop) : Prop :=
  match u with
  | UBatch ops => inside 1 ops 1
                  /\ (forall a b, In a (u_edits text u) -> In b (u_edits text u) -> ~ cuts a b)
  | _ => True
  end.
(** If it has an edit that changes something, then it changes something as a whole. *)
Definition u_changes (text : str) (u : uop) : Prop :=
  u_edits text u <> [] -> edited text (u_edits text u) <> text.

(** Every action fits the text the document has at that time. *)
Fixpoint u_all (P : str -> uop -> Prop) (s : dstate) (us : list uop) : Prop :=
  match us with [] => True | u :: us => P (text_of s) u /\ u_all P (after s (u_ops u)) us end.

Definition h_init (text : str) : hist := Hist [] (text, true) [].

Definition text_changes (evs : list devent) : list (nat * nat * nat) :=
  flat_map (fun e => match e with ETextChange p r a => [(p, r, a)] | _ => [] end) evs.
Definition modified_events (evs : list devent) : list bool :=
  flat_map (fun e => match e with EModified b => [b] | _ => [] end) evs.
Definition undo_events (evs : list devent) : list bool :=
  flat_map (fun e => match e with EUndoAvailable b => [b] | _ => [] end) evs.
Definition redo_events (evs : list devent) : list bool :=
  flat_map (fun e => match e with ERedoAvailable b => [b] | _ => [] end) evs.
