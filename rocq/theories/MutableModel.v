(** Model of parce/mutablestring.py: a string that is edited in batches. *)
From Verif Require Import Base.
From Coq Require Import ZArith.

(** One pending edit of the original text: [(start, end, text)]. *)
Record change := Change { g_start : nat; g_end : nat; g_text : str }.

(** [_text], [_edit_context] and [_changes]: a dictionary from start positions to lists of
    [(end, text)], in insertion order. *)
Definition dict := list (nat * list (nat * str)).
Record mstate := MState { m_text : str; m_ctx : nat; m_pend : dict }.

(** A key: [d[i]] or [d[i:j]] (a step is ignored by the code and not modelled). A Cursor or Block
    as key becomes a slice, document.py:76-80. *)
Inductive key := KInt (i : Z) | KSlice (i j : option Z).

(** One bound of [slice(i, j).indices(total)]. *)
Definition bound (total : nat) (i : Z) : nat :=
  if (i <? 0)%Z then Z.to_nat (i + Z.of_nat total) else Nat.min total (Z.to_nat i).

(** mutablestring.py:142-156 [_parse_key]; None is an IndexError. *)
Definition parse_key (total : nat) (k : key) : option (nat * nat) :=
  match k with
  | KSlice i j =>
      let start := match i with None => 0 | Some i => bound total i end in
      let end_ := match j with None => total | Some j => bound total j end in
      Some (start, if end_ <? start then start else end_)
  | KInt i =>
      let i := if (i <? 0)%Z then (i + Z.of_nat total)%Z else i in
      if ((0 <=? i) && (i <? Z.of_nat total))%Z then Some (Z.to_nat i, Z.to_nat i + 1) else None
  end.

(** mutablestring.py:133-140 [__getitem__]. *)
Definition getitem (text : str) (k : key) : option str :=
  match parse_key (length text) k with
  | None => None
  | Some (i, j) => Some (if i =? j then [] else if (i =? 0) && (j =? length text) then text else slice text i j)
  end.

(** [self._changes[start].append((end, text))] *)
Fixpoint dict_add (start end_ : nat) (text : str) (d : dict) : dict :=
  match d with
  | [] => [(start, [(end_, text)])]
  | (s, l) :: d => if s =? start then (s, l ++ [(end_, text)]) :: d
                   else (s, l) :: dict_add start end_ text d
  end.

(** [sorted(self._changes)], with the lists. *)
Fixpoint insert_key (x : nat * list (nat * str)) (d : dict) : dict :=
  match d with
  | [] => [x]
  | y :: d => if fst x <=? fst y then x :: y :: d else y :: insert_key x d
  end.
Fixpoint sort_dict (d : dict) : dict :=
  match d with [] => [] | x :: d => insert_key x (sort_dict d) end.

(** mutablestring.py:187-194, the loop of [_get_changes]; None is the RuntimeError. *)
Fixpoint get_changes_from (end_ : nat) (d : dict) : option (list change) :=
  match d with
  | [] => Some []
  | (start, c) :: d =>
      if start <? end_ then None
      else let e := list_max (map fst c) in
           match get_changes_from e d with
           | None => None
           | Some r => Some (Change start e (concat (map snd c)) :: r)
           end
  end.
Definition get_changes (d : dict) : option (list change) :=
  match sort_dict d with
  | [] => Some []           (* not called then *)
  | (s, c) :: r => get_changes_from s ((s, c) :: r)
  end.

(** mutablestring.py:229-238 [generate_text]. *)
Fixpoint generate_text (text : str) (tail : nat) (cs : list change) : str :=
  match cs with
  | [] => from text tail
  | c :: cs => (if tail <? g_start c then slice text tail (g_start c) else [])
               ++ g_text c ++ generate_text text (g_end c) cs
  end.
Definition update_text (text : str) (cs : list change) : str := generate_text text 0 cs.

(** mutablestring.py:169-173: the numbers for [text_changed].  [added] may become negative for a
    moment in Python; the sum is never negative as [start >= old] from the second change on, and
    [start = old] for the first. *)
Fixpoint added_from (old : nat) (cs : list change) : nat :=
  match cs with
  | [] => 0
  | c :: cs => g_start c - old + length (g_text c) + added_from (g_end c) cs
  end.
(** [(head, end - head, added)] *)
Definition summary (cs : list change) : option (nat * nat * nat) :=
  match cs, last_opt cs with
  | c :: _, Some z => Some (g_start c, g_end z - g_start c, added_from (g_start c) cs)
  | _, _ => None
  end.

(** What an operation does besides changing the state: nothing, one call of [text_changed], or an
    exception ([RuntimeError] or [IndexError]). *)
Inductive outcome := Quiet | TextChanged (position removed added : nat) | Raised.

(** mutablestring.py:166-177 [_apply_changes]. *)
Definition m_apply (s : mstate) : mstate * outcome :=
  match m_pend s with
  | [] => (s, Quiet)
  | _ => match get_changes (m_pend s) with
         | None => (s, Raised)
         | Some cs => (MState (update_text (m_text s) cs) (m_ctx s) [],
                       match summary cs with Some (p, r, a) => TextChanged p r a | None => Raised end)
         end
  end.

(** mutablestring.py:123-126: whether an edit would change the text. *)
Definition effective (text : str) (c : change) : bool :=
  (negb (length (g_text c) =? 0) || negb (g_start c =? g_end c))
  && (negb (g_end c - g_start c =? length (g_text c))
      || negb (str_eqb (slice text (g_start c) (g_end c)) (g_text c))).

(** mutablestring.py:120-127 [__setitem__]. *)
Definition m_setitem (s : mstate) (k : key) (text : str) : mstate * outcome :=
  match parse_key (length (m_text s)) k with
  | None => (s, Raised)
  | Some (i, j) =>
      if effective (m_text s) (Change i j text) then
        let s := MState (m_text s) (m_ctx s) (dict_add i j text (m_pend s)) in
        if m_ctx s =? 0 then m_apply s else (s, Quiet)
      else (s, Quiet)
  end.

(** mutablestring.py:90-93 [__enter__] *)
Definition m_enter (s : mstate) : mstate := MState (m_text s) (S (m_ctx s)) (m_pend s).

(** mutablestring.py:95-105 [__exit__]; [exc]: an exception occurred. *)
Definition m_exit (exc : bool) (s : mstate) : mstate * outcome :=
  if exc then (MState (m_text s) 0 [], Quiet)
  else if 1 <? m_ctx s then (MState (m_text s) (m_ctx s - 1) (m_pend s), Quiet)
  else m_apply (MState (m_text s) 0 (m_pend s)).

(** The operations a user has. [del d[k]] is [d[k] = ""], [insert(pos, t)] is [d[pos:pos] = t],
    [append(t)] and [+=] insert at the length, mutablestring.py:107-131, 204-210. *)
Inductive mop := Enter | Exit_ (exc : bool) | Set_ (k : key) (text : str) | SetText (text : str).

Definition m_op (s : mstate) (o : mop) : mstate * outcome :=
  match o with
  | Enter => (m_enter s, Quiet)
  | Exit_ exc => m_exit exc s
  | Set_ k t => m_setitem s k t
  | SetText t =>   (* mutablestring.py:72-76 *)
      if m_ctx s =? 0 then m_setitem s (KSlice None None) t else (s, Raised)
  end.

Fixpoint m_run (s : mstate) (ops : list mop) : mstate * list outcome :=
  match ops with
  | [] => (s, [])
  | o :: ops => let '(s, r) := m_op s o in let '(s, rs) := m_run s ops in (s, r :: rs)
  end.
