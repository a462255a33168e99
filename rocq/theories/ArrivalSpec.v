(** Changes that come in while a tree is being built. *)
From Verif Require Import Base TargetModel LexerModel LexerSpec TreeModel BuildModel ChangesModel ChangesSpec ChangesProofs RebuildModel.
From Coq Require Import ZArith.

Section Arrivals.
Variables L A : Type.
Variables (consume : L -> bool) (parse : L -> str -> nat -> gen (item L A)).

(** What has come in after an event was handled: nothing, one or more edits of the text, or another root lexicon (with a text, and
    numbers that do not matter then). *)
Inductive arrival := Quiet | Edits (d : edit) (ds : list edit) | NewRoot (text : str) (l : L) (start removed added : Z).

(** The entries in the list of pending changes, if the text is [cur] at first. *)
Fixpoint sched_of (cur : str) (arr : list arrival) : list (list (entry L)) :=
  match arr with
  | [] => []
  | Quiet :: arr => [] :: sched_of cur arr
  | Edits d ds :: arr => entries_of cur (d :: ds) :: sched_of (apply_edits cur (d :: ds)) arr
  | NewRoot t l start removed added :: arr => [Entry t (Some (Some l)) start removed added] :: sched_of t arr
  end.

(** The root lexicon and the text after all that. *)
Fixpoint after_arrivals (l : L) (cur : str) (arr : list arrival) : L * str :=
  match arr with
  | [] => (l, cur)
  | Quiet :: arr => after_arrivals l cur arr
  | Edits d ds :: arr => after_arrivals l (apply_edits cur (d :: ds)) arr
  | NewRoot t l' _ _ _ :: arr => after_arrivals l' t arr
  end.

(** The number of tokens of a text that end at or before a position. *)
Definition tokens_before (n : nat) (l : L) (text : str) (pos : nat) : nat :=
  match lex_events consume parse n [l] text 0 with
  | Some (evs, _) => length (filter (fun x => x_end x <=? pos) (concat (map (fun e => e_lexemes e) evs)))
  | None => 0
  end.

(** Edits fit in the text; if more than one is pending at a time, no one starts before the first; and they come in soon ([k] is the
    number of events that were handled since the start or the last change), or there are not many tokens before them.
    A lexicon is the one of the tree if it compares equal to it. *)
Variable l_eq : L -> L -> bool.
Fixpoint arrivals_ok (n : nat) (l0 l : L) (cur : str) (k : nat) (arr : list arrival) : Prop :=
  match arr with
  | [] => True
  | Quiet :: arr => arrivals_ok n l0 l cur (S k) arr
  | Edits d ds :: arr =>
      let new := apply_edits cur (d :: ds) in
      edits_fit cur (d :: ds) /\ Forall (fun e => d_start d <= d_start e) ds
      /\ (k < 9 \/ tokens_before n l cur (d_start d) <= 11)
      /\ lex_events consume parse n [l] new 0 <> None
      /\ arrivals_ok n l0 l new 0 arr
  | NewRoot t l' _ _ _ :: arr =>
      (l_eq l' l0 = true -> l' = l0) /\ lex_events consume parse n [l'] t 0 <> None /\ arrivals_ok n l0 l' t 0 arr
  end.
End Arrivals.
Arguments Quiet {L}. Arguments Edits {L}. Arguments NewRoot {L}. Arguments sched_of {L}. Arguments after_arrivals {L}.
Arguments tokens_before {L A}. Arguments arrivals_ok {L A}.
