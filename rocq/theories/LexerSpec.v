(** What the properties about a stream of events say, independently of the lexer. *)
From Verif Require Import Base TargetModel TargetSpec LexerModel.

Section Spec.
Variables L A : Type.

(** Following the targets of the given events one by one, from a given stack of lexicons. *)
Definition replay (stack : list L) (evs : list (event L A)) : list L :=
  fold_left (fun st e => follow st (e_target e)) evs stack.

(** The target of an event leaves the bottom lexicon of the stack alone. *)
Definition keeps_root (stack : list L) (t : option (target L)) : Prop :=
  match t with None => True | Some t => t_pop t < length stack end.

(** Consecutive pieces of [text] between [lo] and [hi]: every lexeme is a non-empty slice of the
    text at its position, and starts at or after the end of the previous one. *)
Fixpoint pieces (text : str) (lo hi : nat) (xs : list (lexeme A)) : Prop :=
  match xs with
  | [] => lo <= hi
  | x :: xs => lo <= x_pos x /\ x_text x <> [] /\ x_text x = slice text (x_pos x) (x_end x)
               /\ x_end x <= hi /\ x_end x <= length text /\ pieces text (x_end x) hi xs
  end.

(** As [pieces], without gaps. *)
Fixpoint tiles (text : str) (lo hi : nat) (xs : list (lexeme A)) : Prop :=
  match xs with
  | [] => lo = hi
  | x :: xs => x_pos x = lo /\ x_text x <> [] /\ x_text x = slice text (x_pos x) (x_end x)
               /\ x_end x <= length text /\ tiles text (x_end x) hi xs
  end.

(** All lexemes of a stream, in order. *)
Definition all_lexemes (evs : list (event L A)) : list (lexeme A) := concat (map e_lexemes evs).

(** The text of lexemes, joined. *)
Definition texts (xs : list (lexeme A)) : str := concat (map x_text xs).

(** A generator: once exhausted, it stays exhausted. *)
Definition gen_closed {T} (g : gen T) : Prop := forall k, g k = None -> g (S k) = None.

(** Items of a parse generator are made of consecutive pieces of the text, from [pos]. *)
Definition gen_pieces (text : str) (pos : nat) (g : gen (item L A)) : Prop :=
  gen_closed g /\
  (forall k it, g k = Some it ->
     pos <= i_pos it /\ i_txt it = slice text (i_pos it) (i_pos it + length (i_txt it))
     /\ i_pos it + length (i_txt it) <= length text
     /\ pieces text (i_pos it) (i_pos it + length (i_txt it)) (i_lexemes it)) /\
  (forall k it it', g k = Some it -> g (S k) = Some it' ->
     i_pos it + length (i_txt it) <= i_pos it').

(** The generator accounts for every character from [pos] to the end of the text. *)
Definition gen_tiles (text : str) (pos : nat) (g : gen (item L A)) : Prop :=
  gen_closed g /\
  (g 0 = None -> pos = length text) /\
  (forall it, g 0 = Some it -> i_pos it = pos) /\
  (forall k it, g k = Some it -> 
     i_txt it = slice text (i_pos it) (i_pos it + length (i_txt it)) /\
     i_pos it + length (i_txt it) <= length text /\
     tiles text (i_pos it) (i_pos it + length (i_txt it)) (i_lexemes it)) /\
  (forall k it it', g k = Some it -> g (S k) = Some it' ->
     i_pos it' = i_pos it + length (i_txt it)) /\
  (forall k it, g k = Some it -> g (S k) = None -> i_pos it + length (i_txt it) = length text).

Definition gen_finite {T} (g : gen T) : Prop := exists k, g k = None.

End Spec.
Arguments replay {L A}. Arguments keeps_root {L}. Arguments pieces {A}. Arguments tiles {A}.
Arguments all_lexemes {L A}. Arguments texts {A}.
Arguments gen_pieces {L A}. Arguments gen_tiles {L A}.
