(** Model of parce/lang/ini.py: the language [Ini] and the transform [IniTransform]. *)
From Verif Require Import Base TargetModel LexerModel LexiconModel TreeModel TransformModel.
From Coq Require Import ZArith.

(** The lexicons of [Ini], and the actions in its rules. *)
Inductive ilex := IRoot | ISection | IKey | IValue | IComment.
Inductive iact := IStart | IEnd | INamespace | ICom | IMark (k : nat) | IAssign | IEscape | IIdent | IData.

Section Ini.
(** language.py:55-57, the patterns for an e-mail address, a URL and a word like TODO in a comment: which of them (0 to 2) matches at a
    position in a text, and the length of the match. *)
Variable marks : str -> nat -> option (nat * nat).

(** ini.py:66: the characters that end a run of text in a key or value. *)
Definition i_special (c : nat) : bool :=
  (c =? 91) || (c =? 92) || (c =? 10) || (c =? 59) || (c =? 61) || (c =? 35) || (c =? 58).
Definition i_plain (c : nat) : bool := negb (i_special c).
(** ini.py:65: the characters that can be escaped. *)
Definition i_escapable (c : nat) : bool :=
  existsb (Nat.eqb c) [10; 92; 39; 34; 48; 97; 98; 116; 114; 110; 59; 35; 61; 58].
Definition i_x (c : nat) : bool := (c =? 120) || (c =? 88).
Definition i_hex (c : nat) : bool := ((48 <=? c) && (c <=? 57)) || ((97 <=? c) && (c <=? 102)) || ((65 <=? c) && (c <=? 70)).
Definition i_hex4 (s : str) : bool := (length s =? 4) && forallb i_hex s.
Fixpoint i_span (f : nat -> bool) (s : str) : nat := match s with [] => 0 | c :: s => if f c then S (i_span f s) else 0 end.

(** ini.py:65, the length of an escape. *)
Definition i_escape (s : str) : option nat :=
  match s with
  | b :: c :: s => if b =? 92 then if i_escapable c then Some 2 else if i_x c && i_hex4 (firstn 4 s) then Some 6 else None else None
  | _ => None
  end.
(** ini.py:63-67 [values]: the number of the rule and the length of the match. *)
Definition i_values_at (s : str) : option (nat * nat) :=
  match i_escape s with
  | Some n => Some (0, n)
  | None => match i_span i_plain s with 0 => None | n => Some (1, n) end
  end.

(** The match of the patterns of a lexicon at a position.  [adv]: the match may not be empty. *)
Definition i_pick (l : ilex) (adv : bool) (text : str) (pos : nat) : option (nat * nat) :=
  match l with
  | IRoot =>                                     (* ini.py:39-42 *)
      match skipn pos text with
      | c :: _ => if c =? 91 then Some (0, 1) else if (c =? 59) || (c =? 35) then Some (1, 1) else if c =? 61 then Some (2, 1) else None
      | [] => None
      end
  | ISection => match skipn pos text with c :: _ => if c =? 93 then Some (0, 1) else None | [] => None end    (* ini.py:47 *)
  | IKey | IValue => i_values_at (skipn pos text)                 (* ini.py:53, 58 *)
  | IComment =>                                                   (* ini.py:72-73; the $ of MULTILINE is first *)
      let eol := match skipn pos text with [] => true | c :: _ => c =? 10 end in
      if eol && negb adv then Some (0, 0)
      else match marks text pos with Some (k, n) => Some (S k, n) | None => None end
  end.
Definition i_rules (l : ilex) : list (rule ilex iact) :=
  match l with
  | IRoot => [SRule (AStd IStart) [RLex ISection]; SRule (AStd ICom) [RLex IComment]; SRule (AStd IAssign) [RLex IValue]]
  | ISection => [SRule (AStd IEnd) [RInt (-1)]]
  | IKey => [SRule (AStd IEscape) []; SRule (AStd IIdent) []]
  | IValue => [SRule (AStd IEscape) []; SRule (AStd IData) []]
  | IComment => [SRule (AStd ICom) [RInt (-1)]; SRule (AStd (IMark 0)) []; SRule (AStd (IMark 1)) []; SRule (AStd (IMark 2)) []]
  end.
(** The only pattern of [section] is a plain string. *)
Definition i_compiled (l : ilex) : compiled ilex iact :=
  Compiled (i_rules l)
    (match l with ISection => StaticDA (AStd INamespace) | IComment => StaticDA (AStd ICom) | _ => NoDA end)
    (match l with IRoot => t_make IRoot [RLex IKey] | IKey | IValue => t_make l [RInt (-1)] | _ => None end)
    (match l with ISection => Some [93] | _ => None end)
    (fun adv text pos => match i_pick l adv text pos with Some (i, n) => Some (Mtch pos (pos + n) i []) | None => None end).
Definition i_parse (l : ilex) : str -> nat -> gen (item ilex iact) := lexicon_parse (fun _ _ => []) l (i_compiled l).
Definition i_consume (l : ilex) : bool := false.
End Ini.

(** ** The transform *)

(** A section: its name (None: the entries before the first section), and its entries. *)
Notation isection := (option str * list (str * option str))%type.
Inductive iv := VStr (s : str) | VIni (l : list isection).
(** The result of a method: None if it raises. *)
Notation IR := (option iv).
Notation iitem := (titem ilex iact IR ilex).

(** [d[k] = v]: a dictionary keeps the place of a key that is there already. *)
Fixpoint d_set {K V} (eqb : K -> K -> bool) (k : K) (v : V) (d : list (K * V)) : list (K * V) :=
  match d with
  | [] => [(k, v)]
  | (k', v') :: d => if eqb k k' then (k', v) :: d else (k', v') :: d_set eqb k v d
  end.
Definition name_eqb (a b : option str) : bool :=
  match a, b with None, None => true | Some a, Some b => str_eqb a b | _, _ => false end.
(** [d[k] = v], where [d] is the dictionary of the section [cur]. *)
Fixpoint in_section (cur : option str) (k : str) (v : option str) (r : list isection) : list isection :=
  match r with
  | [] => []
  | (n, d) :: r => if name_eqb cur n then (n, d_set str_eqb k v d) :: r else (n, d) :: in_section cur k v r
  end.

(** ini.py:94-108, the loop; [cur]: the name of the section whose dictionary is the variable [d] *)
Fixpoint root_loop (l : list iitem) (cur : option str) (r : list isection) : option (list isection) :=
  match l with
  | [] => Some r
  | IObj ISection o :: l => match o with Some (VStr n) => root_loop l (Some n) (d_set name_eqb (Some n) [] r) | _ => None end
  | IObj IKey o :: ((IToken t :: l2) as l1) =>
      match k_act t with
      | IAssign =>
          match o with
          | Some (VStr k) =>
              match l2 with
              | IObj IValue ov :: l3 => match ov with Some (VStr v) => root_loop l3 cur (in_section cur k (Some v) r) | _ => None end
              | _ => root_loop l2 cur (in_section cur k None r)
              end
          | _ => None
          end
      | _ => root_loop l1 cur r
      end
  | _ :: l => root_loop l cur r
  end.
(** ini.py:109-112 *)
Definition drop_toplevel (r : list isection) : list isection := match r with (None, []) :: r => r | _ => r end.
(** ini.py:86-112 [root] *)
Definition i_root (l : list iitem) : IR := option_map (fun r => VIni (drop_toplevel r)) (root_loop l None [(None, [])]).

(** [str.lstrip(' \t')] and [rstrip] *)
Definition i_blank (c : nat) : bool := (c =? 32) || (c =? 9).
Fixpoint l_strip (s : str) : str := match s with [] => [] | c :: s' => if i_blank c then l_strip s' else s end.
Definition r_strip (s : str) : str := rev (l_strip (rev s)).
Definition escaped (s : str) : bool := match s with c :: _ => c =? 92 | [] => false end.

(** [chr(int(s, 16))]: four hexadecimal digits are a number; [odd] is what comes of other strings, None if it raises. *)
Definition hex_digit (c : nat) : nat := if c <=? 57 then c - 48 else if c <=? 70 then c - 55 else c - 87.
Definition hex_number (s : str) : nat := fold_left (fun n c => n * 16 + hex_digit c) s 0.
Section Values.
Variable odd : str -> option nat.
Definition chr_int (s : str) : option nat := if i_hex4 s then Some (hex_number s) else odd s.

(** ini.py:138-145; [t[1]] raises if there is only the backslash *)
Definition unescape (t : str) : option str :=
  if escaped t
  then match t with
       | _ :: c :: s => if i_x c then option_map (fun n => [n]) (chr_int s) else Some [c]
       | _ => None
       end
  else Some t.
Fixpoint join_all (l : list str) : option str :=
  match l with [] => Some [] | t :: l => match unescape t, join_all l with Some a, Some b => Some (a ++ b) | _, _ => None end end.
(** ini.py:132-137, the first and the last text *)
Definition strip_first (l : list str) : list str := match l with [] => [] | t :: l => (if escaped t then t else l_strip t) :: l end.
Definition strip_last (l : list str) : list str := match rev l with [] => [] | t :: k => rev ((if escaped t then t else r_strip t) :: k) end.
(** ini.py:131: items have no attribute [text] *)
Fixpoint texts_of (l : list iitem) : option (list str) :=
  match l with [] => Some [] | IToken t :: l => option_map (cons (k_text t)) (texts_of l) | _ :: _ => None end.
(** ini.py:126-146 [values] *)
Definition i_values (l : list iitem) : IR :=
  match texts_of l with
  | None => None
  | Some ts => option_map VStr (join_all (strip_last (strip_first ts)))
  end.
(** ini.py:114-118 [section]; [peek] with a negative index is False if the list is empty *)
Definition i_section (l : list iitem) : IR :=
  i_values (match rev l with IToken t :: k => match k_act t with IEnd => rev k | _ => l end | _ => l end).

Definition i_raised (i : iitem) : bool := match i with IObj _ None => true | _ => false end.
Definition i_call (f : list iitem -> IR) (il : itemlist ilex iact IR ilex unit) : IR := if existsb i_raised (il_items il) then None else f (il_items il).
(** ini.py:78-148 [IniTransform]; there is no method for comments *)
Definition i_methods : transform ilex iact IR ilex unit := fun nm =>
  match nm with
  | IRoot => Some (Method (i_call i_root) false)
  | ISection => Some (Method (i_call i_section) false)
  | IKey | IValue => Some (Method (i_call i_values) false)
  | IComment => None
  end.

(** [Transformer().transform_text(Ini.root, text)], given the events of the lexer: the outer option is None where the machinery raises, the
    second where there is no method, the third where a method raises. *)
Definition i_read (evs : list (event ilex iact)) : option (option IR) :=
  transform_text ilex iact IR unit ilex unit (fun _ => tt) (fun l => l) (fun _ => tt) (fun _ _ => true) (fun _ => i_methods) IRoot evs.
End Values.
