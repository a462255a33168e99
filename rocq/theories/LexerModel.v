(** Model of parce/lexer.py: the event generator of a [Lexer]. *)
From Verif Require Import Base TargetModel.

(** A lexeme [(pos, text, action)]. *)
Record lexeme (A : Type) := Lexeme { x_pos : nat; x_text : str; x_act : A }.
Arguments Lexeme {A}. Arguments x_pos {A}. Arguments x_text {A}. Arguments x_act {A}.
Definition x_end {A} (x : lexeme A) : nat := x_pos x + length (x_text x).

(** parce/lexer.py:97 [Event = namedtuple("Event", "target lexemes")]. *)
Record event (L A : Type) := Event { e_target : option (target L); e_lexemes : list (lexeme A) }.
Arguments Event {L A}. Arguments e_target {L A}. Arguments e_lexemes {L A}.

(** One tuple [(pos, txt, match, action, target)] yielded by [Lexicon.parse].  The fields [match]
    and [action] are only used by the lexer to compute the lexemes (lexer.py:125-132: a
    one-element tuple for a standard action, [action.replace(self, pos, txt, match)] for an
    [ActionItem]), so the item carries the resulting lexemes. *)
Record item (L A : Type) := Item {
  i_pos : nat; i_txt : str; i_lexemes : list (lexeme A); i_target : option (target L) }.
Arguments Item {L A}. Arguments i_pos {L A}. Arguments i_txt {L A}.
Arguments i_lexemes {L A}. Arguments i_target {L A}.

(** A Python generator: the [k]-th value it yields, None once it is exhausted. *)
Definition gen (T : Type) := nat -> option T.

Section Lexer.
Variables L A : Type.
Variable consume : L -> bool.                          (* Lexicon.consume *)
Variable parse : L -> str -> nat -> gen (item L A).    (* Lexicon.parse(text, pos) *)

(** The state of the generator [Lexer.events] between two items taken from a [parse] generator:
    [s_lex] is the attribute [self.lexicons], [s_fac] the target factory, [s_circ] the set
    [circular]; the parse generator in use was created as [lexicons[-1].parse(text, s_pos)] and
    has yielded [s_idx] items. *)
Record lstate := LState {
  s_lex : list L; s_fac : factory L; s_circ : list (nat * nat * nat);
  s_pos : nat; s_idx : nat }.

(** parce/lexer.py:113-123 *)
Definition l_init (lexicons : list L) (pos : nat) : lstate := LState lexicons f_init [] pos 0.

(** What a consumer sees at every yield: the event, and [lexer.lexicons] at that moment. *)
Definition seen := (event L A * list L)%type.

(** parce/lexer.py:125-132 [event()], called while [self.lexicons] is [lex]. *)
Definition l_emit (f : factory L) (it : item L A) (lex : list L) : list seen * factory L :=
  match i_lexemes it with
  | [] => ([], f)
  | ls => let '(t, f') := f_get f in ([(Event t ls, lex)], f')
  end.

(** parce/lexer.py:137-139 "never pop off root" *)
Definition l_clip (n : nat) (t : target L) : target L :=
  if negb (t_pop t =? 0) && (n <=? t_pop t) then Target (n - 1) (t_push t) else t.

(** parce/lexer.py:141 [target.push and target.push[-1].consume] *)
Definition l_consumes (t : target L) : bool :=
  match last_opt (t_push t) with None => false | Some l => consume l end.

Definition triple_eqb (a b : nat * nat * nat) : bool :=
  (fst3 a =? fst3 b) && (snd3 a =? snd3 b) && (thd3 a =? thd3 b).

(** parce/lexer.py:156-167, the part that decides the next position and the set [circular]. *)
Definition l_circle (text : str) (circ : list (nat * nat * nat)) (pos n : nat) (push : list L)
  : nat * list (nat * nat * nat) :=
  let state := (pos, n, length push) in
  if existsb (triple_eqb state) circ
  then (if negb (length push =? 0) && (pos <? length text) then pos + 1 else pos, [])
  else (pos, state :: circ).

(** parce/lexer.py:134-172: take one item from the current [parse] generator and handle it.
    None means the generator was exhausted: the event stream ends. *)
Definition l_step (text : str) (s : lstate) : option (list seen * lstate) :=
  match last_opt (s_lex s) with
  | None => None       (* unreachable, see [run_lex_nonempty] *)
  | Some lexicon =>
    match parse lexicon text (s_pos s) (s_idx s) with
    | None => None
    | Some it =>
      match i_target it with
      | None =>
          let '(evs, f) := match i_txt it with
                           | [] => ([], s_fac s)
                           | _ => l_emit (s_fac s) it (s_lex s)
                           end in
          Some (evs, LState (s_lex s) f (s_circ s) (s_pos s) (S (s_idx s)))
      | Some t0 =>
          let t := l_clip (length (s_lex s)) t0 in
          let lex1 := drop_last (t_pop t) (s_lex s) in
          let lex2 := lex1 ++ t_push t in
          match i_txt it with
          | [] =>
              let '(pos, circ) := l_circle text (s_circ s) (i_pos it) (length lex1) (t_push t) in
              Some ([], LState lex2 (f_add (s_fac s) (Some t)) circ pos 0)
          | txt =>
              let '(evs, f) :=
                if l_consumes t
                then l_emit (f_add (s_fac s) (Some t)) it lex2
                else let '(evs, f) := l_emit (s_fac s) it (s_lex s) in (evs, f_add f (Some t)) in
              Some (evs, LState lex2 f [] (i_pos it + length txt) 0)
          end
      end
    end
  end.

(** What has been yielded after [n] items, and the state then (None: the stream has ended). *)
Fixpoint l_run (text : str) (n : nat) (s : lstate) : list seen * option lstate :=
  match n with
  | 0 => ([], Some s)
  | S n =>
      match l_step text s with
      | None => ([], None)
      | Some (evs, s') => let '(evs', r) := l_run text n s' in (evs ++ evs', r)
      end
  end.

(** The stream of [Lexer(lexicons).events(text, pos)] is finite, with these events. *)
Definition l_events (text : str) (lexicons : list L) (pos : nat) (evs : list seen) : Prop :=
  exists n, l_run text n (l_init lexicons pos) = (evs, None).

End Lexer.
Arguments LState {L}. Arguments s_lex {L}. Arguments s_fac {L}. Arguments s_circ {L}.
Arguments s_pos {L}. Arguments s_idx {L}. Arguments l_init {L}.
Arguments seen : clear implicits.
Arguments l_emit {L A}. Arguments l_clip {L}. Arguments l_consumes {L}. Arguments l_circle {L}.
Arguments l_step {L A}. Arguments l_run {L A}. Arguments l_events {L A}.
