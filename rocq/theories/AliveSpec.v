(** What becomes of one cursor, whatever other cursors there are. *)
From Coq Require Import List Arith.
From Verif Require Import Base MutableModel CursorModel AliveModel.
Import ListNotations.

(** One edit: a position that is inside or at the end of the replaced piece moves to its start, an end there to the end of the new text. *)
Definition pos_after (ch : change) (p : nat) : nat :=
  if p <=? g_start ch then p else if p <=? g_end ch then g_start ch else p - (g_end ch - g_start ch) + length (g_text ch).
Definition end_after (ch : change) (e : nat) : nat :=
  if e <? g_start ch then e else if e <=? g_end ch then g_start ch + length (g_text ch) else e - (g_end ch - g_start ch) + length (g_text ch).

(** The document, [pos] and [end] of the cursor at address [i]; None if there is no cursor there. *)
Definition life (i : nat) (s : option (nat * nat * option nat)) (o : op) : option (nat * nat * option nat) :=
  match o with
  | New j d pos e => if i =? j then Some (d, pos, match e with Some e => e | None => Some pos end) else s
  | Select j pos e => if i =? j then match s with Some (d, _, _) => Some (d, pos, e) | None => None end else s
  | Drop j => if i =? j then None else s
  | Edit d ch => match s with
                 | Some (d', pos, e) => if d' =? d then Some (d', pos_after ch pos, option_map (end_after ch) e) else s
                 | None => None
                 end
  end.
(** Edits replace a piece of text: it does not end before it begins. *)
Definition op_ok (o : op) : Prop := match o with Edit _ ch => g_start ch <= g_end ch | _ => True end.
(** What one sees of a cursor. *)
Definition seen (o : option obj) : option (nat * nat * option nat) :=
  option_map (fun o => (o_doc o, c_pos (o_cur o), c_end (o_cur o))) o.
