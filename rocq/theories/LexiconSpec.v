(** What is assumed about the regular expression engine and the actions in rules. *)
From Verif Require Import Base TargetModel LexerModel LexerSpec LexiconModel.

(** A match found at [p] starts there, ends inside the text; in "must advance" mode it is not empty. *)
Definition match_ok (mat : bool -> str -> nat -> option mtch) (text : str) : Prop :=
  forall adv p m, p <= length text -> mat adv text p = Some m ->
    m_start m = p /\ p <= m_end m /\ m_end m <= length text /\ (adv = true -> p < m_end m).

(** The engine on a pattern that stands for the plain string [needle]. *)
Definition literal_match (mat : bool -> str -> nat -> option mtch) (needle : str) : Prop :=
  forall adv text p, mat adv text p =
    (if (p + length needle <=? length text) && str_eqb needle (slice text p (p + length needle))
     then Some (Mtch p (p + length needle) 0 []) else None).

(** No rule matches the empty string. *)
Definition no_empty_match (mat : bool -> str -> nat -> option mtch) (text : str) : Prop :=
  forall adv p m, p <= length text -> mat adv text p = Some m -> m_start m < m_end m.

Section Spec.
Variables L B : Type.
Variable sublex : L -> str -> list (lexeme B).

(** The action (not the target) a matching rule gives. *)
Definition rule_action (rules : list (rule L B)) (text : str) (m : mtch) : option (action L B) :=
  match nth_error rules (m_rule m) with
  | Some (SRule a _) => Some a
  | Some (DRule eval) => Some (fst (eval m (slice text (m_start m) (m_end m))))
  | None => None
  end.

Definition da_action (da : dact L B) (t : str) : option (action L B) :=
  match da with NoDA => None | StaticDA a => Some a | DynDA f => Some (f t) end.

(** All lexemes produced by the actions of a lexicon satisfy [Q lo hi], where [lo], [hi] is the
    span of the non-empty text the action is applied to. *)
Definition actions_sat (Q : str -> nat -> nat -> list (lexeme B) -> Prop)
    (c : compiled L B) (text : str) : Prop :=
  (forall adv p m a, p <= length text -> c_match c adv text p = Some m ->
     rule_action (c_rules c) text m = Some a -> m_start m < m_end m ->
     Q text (m_start m) (m_end m)
       (act_lexemes sublex text a (m_start m) (slice text (m_start m) (m_end m)) (Some m))) /\
  (forall i j a, i < j -> j <= length text -> da_action (c_da c) (slice text i j) = Some a ->
     Q text i j (act_lexemes sublex text a i (slice text i j) None)) /\
  (forall needle a t i, c_rules c = [SRule a t] -> c_needle c = Some needle ->
     needle <> [] -> i + length needle <= length text -> needle = slice text i (i + length needle) ->
     Q text i (i + length needle) (act_lexemes sublex text a i needle None)).

(** Rules are looked up inside the list of rules. *)
Definition rules_ok (c : compiled L B) (text : str) : Prop :=
  forall adv p m, p <= length text -> c_match c adv text p = Some m -> m_rule m < length (c_rules c).

(** Spans of subgroups: in order, not overlapping, inside [lo, hi]. *)
Fixpoint groups_ok (lo hi : nat) (gs : list (option (nat * nat))) : Prop :=
  match gs with
  | [] => lo <= hi
  | None :: gs => groups_ok lo hi gs
  | Some (i, j) :: gs => lo <= i /\ i <= j /\ j <= hi /\ groups_ok j hi gs
  end.
End Spec.
Arguments rule_action {L B}. Arguments da_action {L B}. Arguments actions_sat {L B}. Arguments rules_ok {L B}.

Section Actions.
Variables L B : Type.
Variable sublex : L -> str -> list (lexeme B).

(** A part of a [bygroup], or the whole action: at most one lexeme source. [using] must itself
    produce ordered pieces (which C03 says of every lexer). *)
Fixpoint leaf_action (a : action L B) : Prop :=
  match a with
  | AStd _ | ASkip => True
  | AUsing l => forall t, pieces t 0 (length t) (sublex l t)
  | AGroups _ => False
  | ADyn f => forall t, match f t with [] => True | [a] => leaf_action a | _ => False end
  end.

Definition wf_action (a : action L B) : Prop :=
  match a with AGroups l => Forall leaf_action l | _ => leaf_action a end.

(** The actions of a lexicon, and the subgroups of its matches, are well-formed. *)
Definition wf_lexicon (c : compiled L B) (text : str) : Prop :=
  (forall adv p m, p <= length text -> c_match c adv text p = Some m ->
     m_rule m < length (c_rules c) /\ groups_ok (m_start m) (m_end m) (m_groups m)) /\
  (forall r m, In r (c_rules c) ->
     wf_action (match r with SRule a _ => a
                | DRule eval => fst (eval m (slice text (m_start m) (m_end m))) end)) /\
  (forall t a, da_action (c_da c) t = Some a -> leaf_action a) /\
  (c_needle c <> None -> match c_rules c with [SRule a _] => leaf_action a | _ => True end).
End Actions.
Arguments leaf_action {L B}. Arguments wf_action {L B}. Arguments wf_lexicon {L B}.

(** No pattern matches at the positions from [i] up to [j]. After an empty match at [i], the engine
    only looks for a non-empty match there. *)
Definition quiet (mat : bool -> str -> nat -> option mtch) (text : str) (i j : nat) : Prop :=
  (i < j -> exists adv, mat adv text i = None) /\ (forall p, i < p < j -> mat false text p = None).

Section Items.
Variables L B : Type.
Variable sublex : L -> str -> list (lexeme B).

(** The action and target items of the rule that matched. *)
Definition rule_parts (rules : list (rule L B)) (text : str) (m : mtch)
  : option (action L B * list (ritem L)) :=
  match nth_error rules (m_rule m) with
  | Some (SRule a t) => Some (a, t)
  | Some (DRule eval) => Some (eval m (slice text (m_start m) (m_end m)))
  | None => None
  end.

(** Where an item of [Lexicon.parse] comes from: a match of one of the patterns, ... *)
Definition from_match (self : L) (c : compiled L B) (text : str) (it : item L B) : Prop :=
  exists adv m a t, c_match c adv text (i_pos it) = Some m
    /\ rule_parts (c_rules c) text m = Some (a, t)
    /\ i_txt it = slice text (i_pos it) (m_end m)
    /\ i_target it = t_make self t
    /\ (i_txt it <> [] -> i_lexemes it = act_lexemes sublex text a (i_pos it) (i_txt it) (Some m))
    /\ (i_txt it = [] -> i_lexemes it = []).

(** ... a piece of text without match that gets the default action, ... *)
Definition from_gap (c : compiled L B) (text : str) (it : item L B) : Prop :=
  exists a, da_action (c_da c) (i_txt it) = Some a
    /\ i_txt it <> [] /\ i_txt it = slice text (i_pos it) (i_pos it + length (i_txt it))
    /\ i_lexemes it = act_lexemes sublex text a (i_pos it) (i_txt it) None
    /\ i_target it = None
    /\ quiet (c_match c) text (i_pos it) (i_pos it + length (i_txt it)).

(** ... or a place without match where the default target is followed. *)
Definition from_default_target (c : compiled L B) (text : str) (it : item L B) : Prop :=
  c_da c = NoDA /\ i_txt it = [] /\ i_lexemes it = [] /\ i_target it = c_dt c /\ c_dt c <> None
  /\ c_match c false text (i_pos it) = None /\ i_pos it < length text.

(** Where the generator had got to before its [k]-th item. *)
Definition before_item (g : gen (item L B)) (pos k e : nat) : Prop :=
  match k with
  | 0 => e = pos
  | S j => exists it, g j = Some it /\ e = i_pos it + length (i_txt it)
  end.
End Items.
Arguments rule_parts {L B}. Arguments from_match {L B}. Arguments from_gap {L B}.
Arguments from_default_target {L B}. Arguments before_item {L B}.
