(** What a batch of edits of a text should do, stated without sorting or merging. *)
From Verif Require Import Base MutableModel.
From Coq Require Import ZArith.

(** Position [p] of the text is replaced by one of the edits. *)
Definition covered (edits : list change) (p : nat) : bool :=
  existsb (fun e => (g_start e <=? p) && (p <? g_end e)) edits.

(** What is found at position [p] after the edits: the texts of the edits that start there, in the
    order they were made, and then the original character if it is not replaced. *)
Definition at_position (text : str) (edits : list change) (p : nat) : str :=
  concat (map g_text (filter (fun e => g_start e =? p) edits))
  ++ (if covered edits p then [] else slice text p (S p)).

(** The edited text. *)
Definition edited (text : str) (edits : list change) : str :=
  concat (map (at_position text edits) (seq 0 (S (length text)))).

(** An edit inside the text. *)
Definition in_text (text : str) (e : change) : Prop := g_start e <= g_end e /\ g_end e <= length text.

(** An edit that replaces a piece of text by the same text (or nothing by nothing). *)
Definition changes_nothing (text : str) (e : change) : Prop := slice text (g_start e) (g_end e) = g_text e.

(** One edit starts inside the piece another one replaces. *)
Definition cuts (a b : change) : Prop := g_start a < g_start b < g_end a.
(** Two edits replace pieces of text that have a character in common. *)
Definition overlap (a b : change) : Prop :=
  exists p, (g_start a <= p < g_end a) /\ (g_start b <= p < g_end b).

(** [a]-[b] replaced, with text of length [added] for it: the rest is unchanged. *)
Definition splice_of (old new : str) (position removed added : nat) : Prop :=
  position + removed <= length old /\
  exists mid, length mid = added
    /\ new = firstn position old ++ mid ++ skipn (position + removed) old.

(** A slice key as Python reads it: [d[i:j]] with negative numbers counted from the end. *)
Definition key_span (total : nat) (i j : Z) : nat * nat :=
  let clip x := Z.to_nat (Z.min (Z.max 0 (if (x <? 0)%Z then x + Z.of_nat total else x)) (Z.of_nat total)) in
  (clip i, Nat.max (clip i) (clip j)).

(** The piece of text a key stands for in Python: [d[i]] is one character, counted from the end if [i] is
    negative, or an IndexError; a slice bound left out is the start or the end. *)
Definition key_piece (total : nat) (k : key) : option (nat * nat) :=
  match k with
  | KInt i => if ((- Z.of_nat total <=? i) && (i <? Z.of_nat total))%Z
              then let p := Z.to_nat (i mod Z.of_nat total) in Some (p, S p) else None
  | KSlice i j => Some (key_span total (match i with Some i => i | None => 0%Z end)
                                       (match j with Some j => j | None => Z.of_nat total end))
  end.

(** The edit a [d[key] = text] stands for, in a text. *)
Definition edit_of (text : str) (o : mop) : list change :=
  match o with
  | Set_ k t => match key_piece (length text) k with
                | Some (i, j) => [Change i j t]
                | None => []
                end
  | _ => []
  end.

(** A sequence of operations during which the document stays inside an edit context that is
    [n > 0] levels deep, without exception, ending [m] levels deep. *)
Fixpoint inside (n : nat) (ops : list mop) (m : nat) : Prop :=
  match ops with
  | [] => n = m
  | Enter :: ops => inside (S n) ops m
  | Exit_ false :: ops => 1 < n /\ inside (n - 1) ops m
  | Exit_ true :: _ => False
  | Set_ _ _ :: ops => inside n ops m
  | SetText _ :: _ => False
  end.

(** The edit changes the text, taken alone. *)
Definition does_something (text : str) (e : change) : bool :=
  negb (str_eqb (slice text (g_start e) (g_end e)) (g_text e)).

(** No exception leaves an edit context. *)
Definition no_exception (o : mop) : Prop := o <> Exit_ true.

(** Changes in order: each starts at or after the end of the previous one. *)
Fixpoint ordered (tail : nat) (cs : list change) : Prop :=
  match cs with
  | [] => True
  | c :: cs => tail <= g_start c /\ g_start c <= g_end c /\ ordered (g_end c) cs
  end.
