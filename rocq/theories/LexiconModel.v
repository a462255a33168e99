(** Model of parce/lexicon.py: the parse functions of a [Lexicon], and of the actions in
    parce/ruleitem.py that turn a match into lexemes. *)
From Verif Require Import Base TargetModel LexerModel.

(** A match object: the span of the match, the index of the rule that matched (from
    [m.lastindex] through the table [indices]), and the spans of the subgroups of that rule
    (None: the group did not participate). *)
Record mtch := Mtch { m_start : nat; m_end : nat; m_rule : nat; m_groups : list (option (nat * nat)) }.

Section Lexicon.
Variables L B : Type.    (* lexicons, standard actions *)

(** Actions in a rule: a standard action, [skip], [using(lexicon)], [bygroup(...)], and a dynamic
    item that evaluates to actions (used inside bygroup). *)
Inductive action :=
| AStd (b : B)
| ASkip
| AUsing (l : L)
| AGroups (l : list action)
| ADyn (f : str -> list action).

(** The lexemes of all events of [Lexer([l]).events(text)]: an oracle here, see DESIGN.md. *)
Variable sublex : L -> str -> list (lexeme B).

Definition shift_lexeme (n : nat) (x : lexeme B) : lexeme B := Lexeme (n + x_pos x) (x_text x) (x_act x).

(** parce/lexer.py:174-183 [filter_actions], with the [replace] methods of
    parce/ruleitem.py:391-393 (SubgroupAction), 425-430 (DelegateAction), 448-449 (SkipAction).
    For a group that did not participate ([match.group(i)] is None) nothing is produced; the code
    would raise TypeError if the action of such a group is [using]. [text] is the full text, used
    to read the subgroups. *)
Fixpoint act_lexemes (text : str) (a : action) (pos : nat) (txt : str) (m : option mtch)
  : list (lexeme B) :=
  match a with
  | AStd b => match txt with [] => [] | _ => [Lexeme pos txt b] end
  | ASkip => []
  | AUsing l => map (shift_lexeme pos) (sublex l txt)
  | AGroups acts =>
      match m with
      | None => []        (* AttributeError in Python: no match object *)
      | Some m' =>
          (fix go (acts : list action) (gs : list (option (nat * nat))) : list (lexeme B) :=
             match acts, gs with
             | a :: acts, Some (i, j) :: gs => act_lexemes text a i (slice text i j) m ++ go acts gs
             | a :: acts, None :: gs => go acts gs
             | _, _ => []
             end) acts (m_groups m')
      end
  | ADyn f =>
      (fix go (acts : list action) : list (lexeme B) :=
         match acts with
         | [] => []
         | a :: acts => act_lexemes text a pos txt m ++ go acts
         end) (f txt)
  end.

(** The item of a [(pos, txt, match, action, target)] tuple; [event()] is only called by the lexer
    when [txt] is not empty. *)
Definition mk_item (text : str) (pos : nat) (txt : str) (m : option mtch) (a : option action)
    (t : option (target L)) : item L B :=
  Item pos txt (match txt, a with
                | [], _ => []
                | _, None => []
                | _, Some a => act_lexemes text a pos txt m
                end) t.

(** A rule after its pattern: without and with items that need evaluation when it matches. *)
Inductive rule :=
| SRule (a : action) (t : list (ritem L))
| DRule (eval : mtch -> str -> action * list (ritem L)).

(** [default_action]: absent, static, or dynamic (called with the text). *)
Inductive dact := NoDA | StaticDA (a : action) | DynDA (f : str -> action).

(** What [_get_parse_function] (parce/lexicon.py:259-393) has prepared: the rules, the default
    action and target, the plain string of the only pattern if the fast path applies (lines
    313-318), and the compiled regular expression.  [c_match adv text pos]: an attempt of the
    regular expression engine to match at exactly [pos]; [adv] asks for a non-empty match (the
    "must advance" mode of the scanner behind [finditer]). *)
Record compiled := Compiled {
  c_rules : list rule;
  c_da : dact;
  c_dt : option (target L);
  c_needle : option str;
  c_match : bool -> str -> nat -> option mtch }.

(** [rx.finditer(text, pos)], as the engine does it: try at [pos], then at the next positions; after
    an empty match, the next attempt at the same position must be non-empty. *)
Fixpoint scan (mat : bool -> str -> nat -> option mtch) (text : str) (fuel : nat) (adv : bool) (pos : nat)
  : list mtch :=
  match fuel with
  | 0 => []
  | S fuel =>
      if length text <? pos then []
      else match mat adv text pos with
           | Some m => m :: scan mat text fuel (m_end m =? m_start m) (m_end m)
           | None => scan mat text fuel false (S pos)
           end
  end.

Definition finditer mat (text : str) (pos : nat) : list mtch :=
  scan mat text (2 * S (length text - pos)) false pos.

(** parce/lexicon.py:386-393 [token(m)] and [replace(m)]. [self] is the lexicon. *)
Definition token (self : L) (rules : list rule) (text : str) (m : mtch) : item L B :=
  let txt := slice text (m_start m) (m_end m) in
  match nth_error rules (m_rule m) with
  | Some (SRule a t) => mk_item text (m_start m) txt (Some m) (Some a) (t_make self t)
  | Some (DRule eval) =>
      let '(a, t) := eval m txt in mk_item text (m_start m) txt (Some m) (Some a) (t_make self t)
  | None => mk_item text (m_start m) txt (Some m) None None    (* unreachable: IndexError *)
  end.

(** The default action for an unmatched piece of text. *)
Definition da_item (text : str) (da : dact) (pos : nat) (t : str) : item L B :=
  match da with
  | NoDA => mk_item text pos t None None None
  | StaticDA a => mk_item text pos t None (Some a) None
  | DynDA f => mk_item text pos t None (Some (f t)) None
  end.

(** parce/lexicon.py:397-418: the two variants with a default action. *)
Fixpoint gaps (self : L) (rules : list rule) (da : dact) (text : str) (pos : nat) (ms : list mtch)
  : list (item L B) :=
  match ms with
  | [] => if pos <? length text then [da_item text da pos (from text pos)] else []
  | m :: ms =>
      (if pos <? m_start m then [da_item text da pos (slice text pos (m_start m))] else [])
      ++ token self rules text m :: gaps self rules da text (m_end m) ms
  end.

(** parce/lexicon.py:421-431: the variant with a default target. *)
Fixpoint dt_gen (self : L) (rules : list rule) (mat : bool -> str -> nat -> option mtch)
    (dt : option (target L)) (text : str) (pos : nat) (k : nat) : option (item L B) :=
  match mat false text pos with
  | Some m => match k with
              | 0 => Some (token self rules text m)
              | S k => dt_gen self rules mat dt text (m_end m) k
              end
  | None => match k with
            | 0 => if pos <? length text then Some (mk_item text pos [] None None dt) else None
            | S _ => None
            end
  end.

(** [str.find(needle, pos)]: the first index not before [pos] where [needle] occurs; None is -1. *)
Fixpoint find_from (needle text : str) (fuel pos : nat) : option nat :=
  match fuel with
  | 0 => None
  | S fuel =>
      if length text <? pos + length needle then None
      else if str_eqb needle (slice text pos (pos + length needle)) then Some pos
      else find_from needle text fuel (S pos)
  end.
Definition str_find (needle text : str) (pos : nat) : option nat :=
  find_from needle text (S (length text - pos)) pos.

(** parce/lexicon.py:322-349, 359-366: the literal variants that use [text.find]; [None]: without
    default action.  Fuel: one unit per occurrence. *)
Fixpoint fast_find (text needle : str) (da : dact) (a : action) (t : option (target L))
    (fuel pos : nat) : list (item L B) :=
  match fuel with
  | 0 => []
  | S fuel =>
      match str_find needle text pos with
      | Some i =>
          (match da with
           | NoDA => []
           | _ => if pos <? i then [da_item text da pos (slice text pos i)] else []
           end) ++ mk_item text i needle None (Some a) t
               :: fast_find text needle da a t fuel (i + length needle)
      | None =>
          match da with
          | NoDA => []
          | _ => if pos <? length text then [da_item text da pos (from text pos)] else []
          end
      end
  end.

(** parce/lexicon.py:350-357: the literal variant with a default target. *)
Fixpoint fast_dt (text needle : str) (a : action) (t dt : option (target L)) (fuel pos : nat)
  : list (item L B) :=
  match fuel with
  | 0 => []
  | S fuel =>
      if str_eqb needle (slice text pos (pos + length needle))
      then mk_item text pos needle None (Some a) t
           :: fast_dt text needle a t dt fuel (pos + length needle)
      else if pos <? length text then [mk_item text pos [] None None dt] else []
  end.

(** parce/lexicon.py:313-367 *)
Definition parse_fast (self : L) (c : compiled) (needle : str) (a : action) (t : list (ritem L))
    (text : str) (pos : nat) : gen (item L B) :=
  let tgt := t_make self t in
  let fuel := S (length text - pos) in
  nth_error
    (match c_da c, c_dt c with
     | NoDA, Some dt => fast_dt text needle a tgt (Some dt) fuel pos
     | da, _ => fast_find text needle da a tgt fuel pos
     end).

(** parce/lexicon.py:395-436 *)
Definition parse_regex (self : L) (c : compiled) (text : str) (pos : nat) : gen (item L B) :=
  match c_da c, c_dt c with
  | NoDA, None => nth_error (map (token self (c_rules c) text) (finditer (c_match c) text pos))
  | NoDA, Some dt => dt_gen self (c_rules c) (c_match c) (Some dt) text pos
  | da, _ => nth_error (gaps self (c_rules c) da text pos (finditer (c_match c) text pos))
  end.

(** parce/lexicon.py:288-311: no patterns at all. *)
Definition parse_empty (c : compiled) (text : str) (pos : nat) : gen (item L B) :=
  nth_error
    (if pos <? length text then
       match c_da c, c_dt c with
       | NoDA, None => []
       | NoDA, Some dt => [mk_item text pos [] None None (Some dt)]
       | da, _ => [da_item text da pos (from text pos)]
       end
     else []).

(** [Lexicon.parse] as chosen by parce/lexicon.py:259-437 [_get_parse_function]. *)
Definition lexicon_parse (self : L) (c : compiled) (text : str) (pos : nat) : gen (item L B) :=
  match c_rules c, c_needle c with
  | [], _ => parse_empty c text pos
  | [SRule a t], Some (n :: needle) => parse_fast self c (n :: needle) a t text pos
  | _, _ => parse_regex self c text pos
  end.

End Lexicon.
Arguments AStd {L B}. Arguments ASkip {L B}. Arguments AUsing {L B}. Arguments AGroups {L B}. Arguments ADyn {L B}.
Arguments SRule {L B}. Arguments DRule {L B}.
Arguments NoDA {L B}. Arguments StaticDA {L B}. Arguments DynDA {L B}.
Arguments Compiled {L B}. Arguments c_rules {L B}. Arguments c_da {L B}. Arguments c_dt {L B}.
Arguments c_needle {L B}. Arguments c_match {L B}.
Arguments act_lexemes {L B}. Arguments mk_item {L B}. Arguments token {L B}. Arguments da_item {L B}.
Arguments gaps {L B}. Arguments dt_gen {L B}. Arguments fast_find {L B}. Arguments fast_dt {L B}.
Arguments parse_fast {L B}. Arguments parse_regex {L B}. Arguments parse_empty {L B}. Arguments lexicon_parse {L B}.
Arguments shift_lexeme {B}.
