(** Model of [Indenter] in parce/indent.py (316-372), which uses the indenters of the languages, and of those of CSS and LilyPond. *)
From Verif Require Import Base TargetModel LexerModel TreeModel BlockModel DocTokenModel IndentModel.

(** ** Which indenter *)
Section Find.
(** Languages are classes, compared by identity; [mro] is [language.mro()], and [sister l] is the class with the name of the language and Indent (or as the
    template says) in the module of [l], if there is one and it is a subclass of the base class. *)
Variables Lang Cls : Type.
Variable same : Lang -> Lang -> bool.
Variable mro : Lang -> list Lang.
Variable sister : Lang -> option Cls.
(** util.py:814-820 [language_sister_class] *)
Definition butlast_two {X} (l : list X) : list X := firstn (length l - 2) l.
Fixpoint first_some {X Y} (f : X -> option Y) (l : list X) : option Y :=
  match l with [] => None | x :: l => match f x with Some y => Some y | None => first_some f l end end.
Definition sister_class (try_parents : bool) (l : Lang) : option Cls :=
  first_some sister (if try_parents then butlast_two (mro l) else [l]).
(** An indenter: one that was added, or an instance of the class that was found. *)
Inductive indenter := Added (i : nat) | Instance (c : Cls).
(** indent.py:359-372 [find_indent] *)
Definition find_indent (l : Lang) : option indenter := option_map Instance (sister_class true l).
(** 330: the dictionary of indenters (C68); the newest entry comes first. *)
Definition indents := list (Lang * option indenter).
Definition lookup (d : indents) (l : Lang) : option (option indenter) := option_map snd (find (fun e => same (fst e) l) d).
(** 351-353 [get_indent]; None is kept as well *)
Definition get_indent (d : indents) (l : Lang) : indents * option indenter :=
  match lookup d l with Some i => (d, i) | None => ((l, find_indent l) :: d, find_indent l) end.
(** 355-357 [add_indent] *)
Definition add_indent (d : indents) (l : Lang) (i : nat) : indents := (l, Some (Added i)) :: d.
Inductive iop := Add (l : Lang) (i : nat) | Get (l : Lang).
Fixpoint i_run (d : indents) (ops : list iop) : indents :=
  match ops with [] => d | Add l i :: ops => i_run (add_indent d l i) ops | Get l :: ops => i_run (fst (get_indent d l)) ops end.
End Find.
Arguments Added {Cls}. Arguments Instance {Cls}. Arguments Add {Lang}. Arguments Get {Lang}.

(** ** The tokens of a block *)
Section Runs.
Variables T Lang Ind : Type.
(** [token.parent.lexicon.language] *)
Variable lang : T -> Lang.
Variable same : Lang -> Lang -> bool.
Variable get : Lang -> option Ind.
(** [indenter.events(block, tokens, prev_indents)], for the block and the previous indents at hand. *)
Variable events_of : Ind -> list T -> list event.
Definition yield_from (l : Lang) (ts : list T) : list event := match get l with Some i => events_of i ts | None => [] end.
(** indent.py:337-349, the loop over [j], and what comes after it *)
Fixpoint runs_loop (tokens : list T) (js : list nat) (i : nat) (curlang : Lang) : list event :=
  match js with
  | [] => yield_from curlang (skipn i tokens)
  | j :: js =>
      match nth_error tokens j with
      | Some t => if negb (same (lang t) curlang) then yield_from curlang (firstn (j - i) (skipn i tokens)) ++ runs_loop tokens js j (lang t)
                  else runs_loop tokens js i curlang
      | None => []
      end
  end.
(** indent.py:332-349 [indent_events] *)
Definition indent_events (tokens : list T) : list event :=
  match tokens with [] => [] | t :: _ => runs_loop tokens (seq 1 (length tokens - 1)) 0 (lang t) end.
End Runs.

(** ** The indenters of CSS and LilyPond *)
Section Brackets.
Variable A : Type.
(** lang/css.py:301-309 [CssIndent.events]; [is_bracket a]: [a is Bracket] *)
Definition css_event (is_bracket : A -> bool) (t : tok A) : list event :=
  if is_bracket (k_act t) then if str_eqb (k_text t) [123] then [INDENT] else if str_eqb (k_text t) [125] then [DEDENT] else [] else [].
Definition css_events (is_bracket : A -> bool) (ts : list (tok A)) : list event := flat_map (css_event is_bracket) ts.
(** lang/lilypond.py:649-663 [LilyPondIndent.events]; [in_delimiter a]: [a in Delimiter] *)
Definition lily_event (in_delimiter : A -> bool) (t : tok A) : list event :=
  if in_delimiter (k_act t) then
    if str_eqb (k_text t) [123] || str_eqb (k_text t) [60; 60] then [INDENT]
    else if str_eqb (k_text t) [125] || str_eqb (k_text t) [62; 62] then [DEDENT]
    else [NO_DEDENT]
  else [NO_DEDENT].
Definition lily_events (in_delimiter : A -> bool) (ts : list (tok A)) : list event := flat_map (lily_event in_delimiter) ts.

(** The events of a block of a document that is all in one language, with the indenter [f]; nothing if [block.tokens()] raises. *)
Variable L : Type.
Definition doc_events (f : list (tok A) -> list event) (l : L) (cs : list (node L A)) (b : nat * nat) (prev_indents : list str) : list event :=
  match range_of_tokens l cs (fst b) (Some (snd b)) with
  | Some ts => indent_events (tok A) unit unit (fun _ => tt) (fun _ _ => true) (fun _ => Some tt) (fun _ => f) ts
  | None => []
  end.
End Brackets.
Arguments css_event {A}. Arguments css_events {A}. Arguments lily_event {A}. Arguments lily_events {A}. Arguments doc_events {A L}.
