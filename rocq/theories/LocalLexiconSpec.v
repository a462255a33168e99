(** When a lexicon (its rules and the regular expression engine behind them) is local. *)
From Verif Require Import Base TargetModel LexerModel LexerSpec LexiconModel LexiconSpec RebuildSpec.
From Coq Require Import ZArith.

(** A match moved by an offset. *)
Definition move_span (d : Z) (g : option (nat * nat)) : option (nat * nat) :=
  match g with Some (i, j) => Some (move_pos d i, move_pos d j) | None => None end.
Definition move_match (d : Z) (m : mtch) : mtch :=
  Mtch (move_pos d (m_start m)) (move_pos d (m_end m)) (m_rule m) (map (move_span d) (m_groups m)).

(** What the regular expression engine may look at:
    - only the text from the position on (no lookbehind, no [^], no [\b] at the start);
    - a match depends on at most [K] characters after its end, and an attempt that fails on at most [K] characters. *)
Definition match_suffix (mat : bool -> str -> nat -> option mtch) : Prop :=
  forall adv text text' q q', q <= length text -> q' <= length text' -> skipn q text = skipn q' text' ->
    mat adv text' q' = option_map (move_match (Z.of_nat q' - Z.of_nat q)) (mat adv text q).
Definition match_look (K : nat) (mat : bool -> str -> nat -> option mtch) : Prop :=
  forall adv text text' p m, p <= m <= length text -> m <= length text' -> firstn m text = firstn m text' ->
    match mat adv text p with Some x => m_end x + K <= m | None => p + K <= m end ->
    mat adv text' p = mat adv text p.

Section Spec.
Variables L B : Type.
Variable sublex : L -> str -> list (lexeme B).

(** The first of the lexemes, if any, is at the start. *)
Definition at_start (text : str) (lo hi : nat) (xs : list (lexeme B)) : Prop :=
  match xs with [] => True | x :: _ => x_pos x = lo end.

Record local_lexicon (K : nat) (c : compiled L B) : Prop := {
  ll_ok : forall text, match_ok (c_match c) text;
  ll_nonempty : forall text, no_empty_match (c_match c) text;
  ll_suffix : match_suffix (c_match c);
  ll_look : match_look K (c_match c);
  ll_wf : forall text, wf_lexicon sublex c text;
  ll_start : forall text, actions_sat sublex at_start c text;
  (* the action and target of a rule that are evaluated for a match do not depend on its position *)
  ll_eval : forall eval m txt d, In (DRule eval) (c_rules c) -> eval (move_match d m) txt = eval m txt;
  (* the fast path is only taken for a plain string, see C08 *)
  ll_plain : forall needle a t, c_needle c = Some needle -> c_rules c = [SRule a t] -> needle <> [] ->
    literal_match (c_match c) needle /\
    forall text p m, act_lexemes sublex text a p needle (Some m) = act_lexemes sublex text a p needle None
}.
End Spec.
Arguments at_start {B}. Arguments local_lexicon {L B}. Arguments ll_ok {L B sublex K c}. Arguments ll_nonempty {L B sublex K c}.
Arguments ll_suffix {L B sublex K c}. Arguments ll_look {L B sublex K c}. Arguments ll_wf {L B sublex K c}. Arguments ll_start {L B sublex K c}.
Arguments ll_eval {L B sublex K c}. Arguments ll_plain {L B sublex K c}.
