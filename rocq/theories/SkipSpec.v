(** Characters that a lexer skips at a default target. *)
From Verif Require Import Base TargetModel LexerModel LexerSpec.

(** A target that only enters lexicons, or that only leaves one. *)
Definition simple_target {L} (t : target L) : Prop :=
  (t_pop t = 0 /\ t_push t <> []) \/ (t_pop t = 1 /\ t_push t = []).

Section Skip.
Variables L A : Type.
Variables (consume : L -> bool) (parse : L -> str -> nat -> gen (item L A)) (text : str) (lexicons : list L) (pos : nat).

(** After [n] items the lexicons [stack] are open, and the next item changes them at the position [p] without text. *)
Definition textless (n : nat) (stack : list L) (p : nat) : Prop :=
  exists s l it t, snd (l_run consume parse text n (l_init lexicons pos)) = Some s /\ s_lex s = stack
    /\ last_opt stack = Some l /\ parse l text (s_pos s) (s_idx s) = Some it
    /\ i_txt it = [] /\ i_target it = Some t /\ i_pos it = p.

(** After [n] items the lexer goes on at position [q]. *)
Definition goes_on (n q : nat) : Prop :=
  exists s, snd (l_run consume parse text n (l_init lexicons pos)) = Some s /\ s_pos s = q /\ s_idx s = 0.

(** A lexicon that finds a change of lexicons without text at some position finds it again when it starts there. *)
Definition finds_again : Prop := forall l q k it t, q <= length text ->
  parse l text q k = Some it -> i_txt it = [] -> i_target it = Some t ->
  exists it', parse l text (i_pos it) 0 = Some it' /\ i_txt it' = [] /\ i_target it' = Some t /\ i_pos it' = i_pos it.
End Skip.
Arguments textless {L A}. Arguments goes_on {L A}. Arguments finds_again {L A}.
