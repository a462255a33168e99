(** The class of languages for which a tree can be updated locally, and what moving tokens means. *)
From Verif Require Import Base TargetModel LexerModel LexerSpec TreeModel TreeSpec BuildModel ChangesSpec RebuildModel.
From Coq Require Import ZArith.

Section Spec.
Variables L A : Type.

(** Moving by an offset. *)
Definition move_pos (d : Z) (p : nat) : nat := Z.to_nat (Z.of_nat p + d).
Definition shift_lexeme (d : Z) (x : lexeme A) : lexeme A := Lexeme (move_pos d (x_pos x)) (x_text x) (x_act x).
Definition shift_item (d : Z) (it : item L A) : item L A :=
  Item (move_pos d (i_pos it)) (i_txt it) (map (shift_lexeme d) (i_lexemes it)) (i_target it).
Definition shift_event (d : Z) (e : event L A) : event L A := Event (e_target e) (map (shift_lexeme d) (e_lexemes e)).

Definition i_end (it : item L A) : nat := i_pos it + length (i_txt it).

(** What a lexicon finds is local, with lookahead [K]:
    - items are consecutive pieces of the text;
    - the first lexeme of an item starts where the item starts;
    - starting at an item gives that item and the ones after it;
    - only the text from the starting point on matters;
    - an item that is followed by at least [K] unchanged characters remains the same.  If the item has no target, those
      characters must come after the next item (text that is not matched ends where the next match is found).  *)
Record local_parse (K : nat) (parse : L -> str -> nat -> gen (item L A)) : Prop := {
  lp_pieces : forall l text q, q <= length text -> gen_pieces text q (parse l text q);
  lp_starts : forall l text q k it x xs, q <= length text ->
    parse l text q k = Some it -> i_lexemes it = x :: xs -> x_pos x = i_pos it;
  lp_resume : forall l text q k it j, q <= length text ->
    parse l text q k = Some it -> i_txt it <> [] -> parse l text (i_pos it) j = parse l text q (k + j);
  lp_suffix : forall l text text' q q' k, q <= length text -> q' <= length text' -> skipn q text = skipn q' text' ->
    parse l text' q' k = option_map (shift_item (Z.of_nat q' - Z.of_nat q)) (parse l text q k);
  lp_look : forall l text text' q k it m, q <= m <= length text -> m <= length text' -> firstn m text = firstn m text' ->
    parse l text q k = Some it ->
    (i_target it <> None /\ i_end it + K <= m) \/ (exists next, parse l text q (S k) = Some next /\ i_end next + K <= m) ->
    parse l text' q k = Some it
}.

(** The tokens of the old tree [cs] and the new tree [cs'], if [lo], [hi] is the updated range in the text [new]: those before
    the range are the same, those after it only have moved, the new ones lie inside the range; and the range contains the
    [added] characters at [start]. *)
Definition move_tok (d : Z) (t : tok A) : tok A := Token (move_pos d (k_pos t)) (k_text t) (k_act t) (k_group t).
Definition updated_range (new : str) (d : Z) (start added : nat) (cs cs' : list (node L A)) (lo hi : nat) : Prop :=
  lo <= start /\ start + added <= hi /\ hi <= length new /\
  exists a m b m', flat cs = a ++ m ++ b /\ flat cs' = a ++ m' ++ map (move_tok d) b
    /\ Forall (fun t => k_end t <= lo) a
    /\ Forall (fun t => lo <= k_pos t /\ k_end t <= hi) m'
    /\ Forall (fun t => hi <= k_pos (move_tok d t)) b.

(** A builder is up to date: its tree and open lexicons are those found by tokenizing the text from scratch. *)
Variables (consume : L -> bool) (parse : L -> str -> nat -> gen (item L A)).
Definition up_to_date (n : nat) (tb : builder L A) (l : L) (text : str) : Prop :=
  exists evs fin, lex_events consume parse n [l] text 0 = Some (evs, fin)
    /\ build_tree l evs = Some (tb_root tb) /\ tb_lexicons tb = tl fin.

(** A history of calls of [rebuild]: each with the whole new text, and either the changed region or a root lexicon. *)
Inductive call := CEdit (text : str) (start removed added : nat) | CRoot (text : str) (l : L).
Variable l_eq : L -> L -> bool.
Fixpoint calls_ok (n : nat) (l : L) (text : str) (cs : list call) : Prop :=
  match cs with
  | [] => True
  | CEdit new s r a :: cs => covers_change text new s r a /\ lex_events consume parse n [l] new 0 <> None /\ calls_ok n l new cs
  | CRoot new l' :: cs => (l_eq l' l = true -> l' = l) /\ lex_events consume parse n [l'] new 0 <> None /\ calls_ok n l' new cs
  end.
Fixpoint after_calls (l : L) (text : str) (cs : list call) : L * str :=
  match cs with
  | [] => (l, text)
  | CEdit new _ _ _ :: cs => after_calls l new cs
  | CRoot new l' :: cs => after_calls l' new cs
  end.
Variable process : builder L A -> str -> option L -> nat -> nat -> nat -> option (builder L A).
Fixpoint run_calls (tb : builder L A) (cs : list call) : option (builder L A) :=
  match cs with
  | [] => Some tb
  | CEdit new s r a :: cs => match process tb new None s r a with Some tb => run_calls tb cs | None => None end
  | CRoot new l' :: cs => match process tb new (Some l') 0 0 0 with Some tb => run_calls tb cs | None => None end
  end.
End Spec.
Arguments move_tok {A}. Arguments updated_range {L A}. Arguments up_to_date {L A}.
Arguments CEdit {L}. Arguments CRoot {L}. Arguments calls_ok {L A}. Arguments after_calls {L}. Arguments run_calls {L A}.
Arguments shift_lexeme {A}. Arguments shift_item {L A}. Arguments shift_event {L A}. Arguments i_end {L A}.
Arguments local_parse {L A}. Arguments lp_pieces {L A K parse}. Arguments lp_starts {L A K parse}. Arguments lp_resume {L A K parse}.
Arguments lp_suffix {L A K parse}. Arguments lp_look {L A K parse}.
