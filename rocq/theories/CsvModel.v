(** Model of parce/lang/csv.py: the language [Csv] and the transform [CsvTransform]. *)
From Verif Require Import Base TargetModel LexerModel LexiconModel TreeModel TransformModel.
From Coq Require Import ZArith.

(** The lexicons of [Csv], and the actions in its rules. *)
Inductive clex := CRoot | CRecord | CString.
Inductive cact := CName | CSeparator | CStart | CEnd | CEscape | CText | CInvalid.

Section Csv.
(** White space outside ASCII, as the module [re] sees it. *)
Variable uspace : nat -> bool.

(** White space, blanks (space and tab), and the complements of comma, quote and white space, and of comma, quote and newline. *)
Definition c_space (c : nat) : bool := if c <? 128 then ((9 <=? c) && (c <=? 13)) || ((28 <=? c) && (c <=? 32)) else uspace c.
Definition c_blank (c : nat) : bool := (c =? 32) || (c =? 9).
Definition c_solid (c : nat) : bool := negb ((c =? 44) || (c =? 34) || c_space c).
Definition c_plain (c : nat) : bool := negb ((c =? 44) || (c =? 34) || (c =? 10)).

Fixpoint run_of (f : nat -> bool) (s : str) : nat := match s with [] => 0 | c :: s => if f c then S (run_of f s) else 0 end.

(** A match of a pattern at the start of a text: the length, and the groups relative to the start. *)
Definition cpattern := str -> option (nat * list (option (nat * nat))).

(** csv.py:47 (with MULTILINE): at the end of the text, or before a newline, which is then included. *)
Definition p_line : cpattern := fun s => match s with [] => Some (0, []) | 10 :: _ => Some (1, []) | _ => None end.
(** csv.py:48, a run without comma, quote or newline, before a comma or the end of the line: what follows the longest run can only be wrong if it is a quote, and then a shorter run is wrong too. *)
Definition p_plain : cpattern := fun s =>
  match run_of c_plain s with
  | 0 => None
  | n => match skipn n s with 34 :: _ => None | _ => Some (n, []) end
  end.
(** csv.py:49: blanks, optionally text that has no other white space than blanks, and a quote. *)
Definition p_quote : cpattern := fun s =>
  let a := run_of c_blank s in
  let b := run_of (fun c => c_solid c || c_blank c) (skipn a s) in
  match skipn (a + b) s with
  | 34 :: _ => Some (a + b + 1, [if b =? 0 then None else Some (a, a + b); Some (a + b, a + b + 1)])
  | _ => None
  end.
(** csv.py:50 *)
Definition p_comma : cpattern := fun s => match s with 44 :: _ => Some (1, []) | _ => None end.
(** csv.py:55 *)
Definition p_double : cpattern := fun s => match s with 34 :: 34 :: _ => Some (2, []) | _ => None end.
(** csv.py:56: a quote, blanks, and optionally a run without comma, quote or white space *)
Definition p_unquote : cpattern := fun s =>
  match s with
  | 34 :: s =>
      let a := run_of c_blank s in
      let b := run_of c_solid (skipn a s) in
      Some (1 + a + b, [Some (0, 1); if b =? 0 then None else Some (1 + a, 1 + a + b)])
  | _ => None
  end.

(** csv.py:39-57, the rules with a pattern of every lexicon *)
Definition c_patterns (l : clex) : list cpattern :=
  match l with
  | CRoot => []
  | CRecord => [p_line; p_plain; p_quote; p_comma]
  | CString => [p_double; p_unquote]
  end.
Definition c_actions (l : clex) : list (rule clex cact) :=
  match l with
  | CRoot => []
  | CRecord => [SRule ASkip [RInt (-1)]; SRule (AStd CName) []; SRule (AGroups [AStd CInvalid; AStd CStart]) [RLex CString]; SRule (AStd CSeparator) []]
  | CString => [SRule (AStd CEscape) []; SRule (AGroups [AStd CEnd; AStd CInvalid]) [RInt (-1)]]
  end.

(** The first pattern that matches; in the mode that must advance an empty match does not count. *)
Fixpoint c_pick (ps : list cpattern) (i : nat) (adv : bool) (s : str) : option (nat * nat * list (option (nat * nat))) :=
  match ps with
  | [] => None
  | p :: ps => match p s with
               | Some (n, gs) => if adv && (n =? 0) then c_pick ps (S i) adv s else Some (i, n, gs)
               | None => c_pick ps (S i) adv s
               end
  end.
Definition at_pos (pos : nat) (g : option (nat * nat)) : option (nat * nat) := match g with Some (i, j) => Some (pos + i, pos + j) | None => None end.

Definition c_compiled (l : clex) : compiled clex cact :=
  Compiled (c_actions l)
    (match l with CString => StaticDA (AStd CText) | _ => NoDA end)
    (match l with CRoot => t_make CRoot [RLex CRecord] | _ => None end)
    None
    (fun adv text pos => match c_pick (c_patterns l) 0 adv (skipn pos text) with
                         | Some (i, n, gs) => Some (Mtch pos (pos + n) i (map (at_pos pos) gs))
                         | None => None
                         end).
(** [Lexicon.parse]; there is no [using] in the rules. *)
Definition c_parse (l : clex) : str -> nat -> gen (item clex cact) := lexicon_parse (fun _ _ => []) l (c_compiled l).
(** csv.py:52 *)
Definition c_consume (l : clex) : bool := match l with CString => true | _ => false end.
End Csv.

(** ** The transform *)

Inductive cv := VNone | VStr (s : str) | VTuple (l : list cv) | VList (l : list cv).
(** The result of a method: None if it raises; the methods of the parent contexts are not called then, in the model they give None too. *)
Notation R := (option cv).
Notation citem := (titem clex cact R clex).

Definition c_raised (i : citem) : bool := match i with IObj _ None => true | _ => false end.
Definition c_call (f : list citem -> R) (il : itemlist clex cact R clex unit) : R := if existsb c_raised (il_items il) then None else f (il_items il).

(** csv.py:75-77 [root]; a token has no attribute [obj] *)
Fixpoint c_objs (l : list citem) : option (list cv) :=
  match l with
  | [] => Some []
  | IObj _ (Some v) :: l => option_map (cons v) (c_objs l)
  | _ :: _ => None
  end.
Definition m_root (l : list citem) : R := option_map VList (c_objs l).

(** util.py:737-750 [split_list(items, ',')]: a token is equal to a string if that is its text, an item never is. *)
Definition is_comma (i : citem) : bool := match i with IToken t => str_eqb (k_text t) [44] | _ => false end.
Fixpoint c_split (l cur : list citem) : list (list citem) :=
  match l with
  | [] => [cur]
  | i :: l => if is_comma i then cur :: c_split l [] else c_split l (cur ++ [i])
  end.
(** csv.py:86-90, one field *)
Definition field_of (l : list citem) : option cv :=
  match l with
  | [] => Some VNone
  | IToken t :: _ => Some (VStr (k_text t))
  | IObj _ o :: _ => o
  | IUntransformed _ :: _ => None       (* there are none: every lexicon has a method *)
  end.
Fixpoint fields_of (ls : list (list citem)) : option (list cv) :=
  match ls with
  | [] => Some []
  | l :: ls => match field_of l, fields_of ls with Some v, Some vs => Some (v :: vs) | _, _ => None end
  end.
(** csv.py:79-90 [record] *)
Definition m_record (l : list citem) : R := option_map VTuple (fields_of (c_split l [])).

Definition act_of (i : citem) : option cact := match i with IToken t => Some (k_act t) | _ => None end.
Definition opening (i : citem) : bool := match act_of i with Some CInvalid | Some CStart => true | _ => false end.
Definition closing (i : citem) : bool := match act_of i with Some CEnd | Some CInvalid => true | _ => false end.
(** csv.py:98-100: None is the IndexError at the end of the list. *)
Fixpoint strip_start (l : list citem) : option (list citem) :=
  match l with
  | [] => None
  | i :: l' => if opening i then strip_start l' else Some l
  end.
(** csv.py:101-102, on the list in reverse *)
Fixpoint strip_rev (l : list citem) : list citem :=
  match l with
  | [] => []
  | i :: l' => if closing i then strip_rev l' else l
  end.
(** csv.py:103-106; the items are tokens *)
Fixpoint c_join (l : list citem) : option str :=
  match l with
  | [] => Some []
  | IToken t :: l => option_map (app (match k_act t with CEscape => [34] | _ => k_text t end)) (c_join l)
  | _ :: _ => None
  end.
(** csv.py:92-106 [string] *)
Definition m_string (l : list citem) : R :=
  match strip_start l with
  | None => None
  | Some l => option_map VStr (c_join (rev (strip_rev (rev l))))
  end.

(** csv.py:60-106 [CsvTransform] *)
Definition c_methods : transform clex cact R clex unit := fun nm =>
  Some (Method (c_call (match nm with CRoot => m_root | CRecord => m_record | CString => m_string end)) false).

(** [Transformer().transform_text(Csv.root, text)], given the events of the lexer: the outer option is None where the machinery raises, the
    second where there is no method, the third where a method raises. *)
Definition c_read (evs : list (event clex cact)) : option (option R) :=
  transform_text clex cact R unit clex unit (fun _ => tt) (fun l => l) (fun _ => tt) (fun _ _ => true) (fun _ => c_methods) CRoot evs.
