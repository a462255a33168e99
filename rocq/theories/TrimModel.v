(** Model of [AbstractDocument.trim] in parce/document.py: the operations it performs on the document (see
    MutableModel.v and ReplaceModel.v). *)
From Verif Require Import Base MutableModel ReplaceModel.
From Coq Require Import ZArith.

(** The class [[ \t]] of the pattern at document.py:259. *)
Definition tab_or_blank (c : nat) : bool := (c =? 32) || (c =? 9).
(** [$] with [re.MULTILINE]: at the end of the text, or before a newline. *)
Definition at_dollar (s : str) : bool := match s with [] => true | c :: _ => c =? 10 end.
(** How many characters [[ \t]*] can take. *)
Fixpoint span (s : str) : nat :=
  match s with [] => 0 | c :: s' => if tab_or_blank c then S (span s') else 0 end.
(** [pattern.match] for [[ \t]+$] at the start of [s]: greedy, then one less each time, down to one. *)
Definition trim_match (s : str) : option nat :=
  find (fun k => at_dollar (skipn k s)) (rev (seq 1 (span s))).
(** [pattern.finditer]: the next match is looked for from the end of the previous one. A match is not empty. The
    replacement is the empty string. [fuel] is the length of the text. *)
Fixpoint trim_iter (fuel pos : nat) (s : str) : list change :=
  match fuel, s with
  | S fuel, _ :: s' =>
      match trim_match s with
      | Some k => Change pos (pos + k) [] :: trim_iter fuel (pos + k) (skipn k s)
      | None => trim_iter fuel (S pos) s'
      end
  | _, _ => []
  end.

(** document.py:257-259 [trim], with document.py:230-255 [re_sub] called with [start], [end] and no count. *)
Definition trim_ops (doc : str) (start : Z) (end_ : option Z) : option (list mop) :=
  match getitem doc (KSlice (Some start) end_) with
  | None => None
  | Some text => Some (re_sub_ops start (trim_iter (length text) 0 text) 0)
  end.
