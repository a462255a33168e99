(** Model of the tokens at a position and in a range of a document: parce/work.py, parce/document.py. *)
From Verif Require Import Base TargetModel LexerModel TreeModel BlockModel.
From Coq Require Import ZArith.

Section Tokens.
Variables L A : Type.
Notation node := (node L A).
Notation tok := (tok A).

(** parce/work.py:457-476 [WorkerDocumentMixin.token], with the tree [Ctx l cs] that [get_root(True)] returns; the outer option is None where it raises.  Also
    document.py:515-523 [AbstractTextRange.token], called with the position of the cursor or block. *)
Definition doc_token (text sep : str) (l : L) (cs : list node) (pos : nat) : option (option tok) :=
  match find_token_with_trail cs pos with
  | None => None
  | Some None => Some None
  | Some (Some (t, trail)) =>
      if k_pos t <=? pos then Some (Some t)
      else match previous_token (Ctx l cs) (nat_trail trail) with
           | None => None
           | Some before =>
               let right := if match py_find sep (slice text pos (k_pos t)) 0 with None => true | Some _ => false end then Some (Some t) else Some None in
               match before with
               | Some u => if k_end u =? pos then Some (Some u) else right
               | None => right
               end
           end
  end.
(** parce/document.py:525-536 [AbstractTextRange.tokens], 758-767 [Block.tokens] *)
Definition range_of_tokens (l : L) (cs : list node) (pos : nat) (end_ : option nat) : option (list tok) :=
  match range_from_tree (Ctx l cs) pos end_ with
  | None => None
  | Some None => Some []
  | Some (Some r) => range_tokens (Ctx l cs) r
  end.
End Tokens.
Arguments doc_token {L A}. Arguments range_of_tokens {L A}.
