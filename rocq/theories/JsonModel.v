(** Model of parce/lang/json.py: the language [Json] and the transform [JsonTransform]. *)
From Verif Require Import Base TargetModel LexerModel LexiconModel TreeModel TransformModel ItemListModel.
From Coq Require Import ZArith.

(** The lexicons of [Json], and the actions in its rules. *)
Inductive jlex := JRoot | JObject | JKey | JValue | JArray | JString.
Inductive jact := ADelimiter | AStringStart | AStringEnd | AStringEscape | AString | ANumber | AConstant.
Definition jlex_eqb (a b : jlex) : bool :=
  match a, b with
  | JRoot, JRoot | JObject, JObject | JKey, JKey | JValue, JValue | JArray, JArray | JString, JString => true
  | _, _ => false
  end.
Definition jact_eqb (a b : jact) : bool :=
  match a, b with
  | ADelimiter, ADelimiter | AStringStart, AStringStart | AStringEnd, AStringEnd | AStringEscape, AStringEscape
  | AString, AString | ANumber, ANumber | AConstant, AConstant => true
  | _, _ => false
  end.

(** "true", "false", "null" *)
Definition w_true : str := [116; 114; 117; 101].
Definition w_false : str := [102; 97; 108; 115; 101].
Definition w_null : str := [110; 117; 108; 108].

Section Json.
(** The digits, word characters and white space outside ASCII, as the module [re] sees them. *)
Variables udigit uword uspace : nat -> bool.

(** [\d], [\w] and [\s] *)
Definition is_digit (c : nat) : bool := if c <? 128 then (48 <=? c) && (c <=? 57) else udigit c.
Definition is_word (c : nat) : bool :=
  if c <? 128 then ((48 <=? c) && (c <=? 57)) || ((65 <=? c) && (c <=? 90)) || ((97 <=? c) && (c <=? 122)) || (c =? 95) else uword c.
Definition is_space (c : nat) : bool := if c <? 128 then ((9 <=? c) && (c <=? 13)) || ((28 <=? c) && (c <=? 32)) else uspace c.
Definition is_hex (c : nat) : bool := ((48 <=? c) && (c <=? 57)) || ((97 <=? c) && (c <=? 102)) || ((65 <=? c) && (c <=? 70)).

Fixpoint span (f : nat -> bool) (s : str) : nat :=
  match s with [] => 0 | c :: s => if f c then S (span f s) else 0 end.
Definition prefix (a s : str) : bool := str_eqb a (firstn (length a) s).

(** A pattern: the length of its match at a place in the text, given the character before that place and the text from there on. *)
Definition pattern := option nat -> str -> option nat.

Definition p_char (c : nat) : pattern := fun _ s => match s with d :: _ => if d =? c then Some 1 else None | [] => None end.
(** [\b]: there is a word character at exactly one side. *)
Definition at_bound (prev next : option nat) : bool :=
  let w x := match x with Some c => is_word c | None => false end in xorb (w prev) (w next).
(** json.py:72 [words(JSON_CONSTANTS, r'\b', r'\b')] *)
Definition p_constant : pattern := fun prev s =>
  if at_bound prev (hd_error s)
  then match find (fun w => prefix w s && at_bound (last_opt w) (hd_error (skipn (length w) s))) [w_true; w_false; w_null] with
       | Some w => Some (length w)
       | None => None
       end
  else None.
(** json.py:71 [-?\d+(?:\.\d+)?(?:[Ee][+-]?\d+)?] *)
Definition n_minus (s : str) : nat := match s with 45 :: _ => 1 | _ => 0 end.
Definition n_sign (s : str) : nat := match s with 43 :: _ | 45 :: _ => 1 | _ => 0 end.
Definition n_frac (s : str) : nat :=
  match s with
  | 46 :: s => match span is_digit s with 0 => 0 | n => 1 + n end
  | _ => 0
  end.
Definition n_exp (s : str) : nat :=
  match s with
  | 69 :: s | 101 :: s => let k := n_sign s in match span is_digit (skipn k s) with 0 => 0 | n => 1 + k + n end
  | _ => 0
  end.
Definition p_number : pattern := fun _ s =>
  let a := n_minus s in
  let d := span is_digit (skipn a s) in
  match d with
  | 0 => None
  | _ => let b := n_frac (skipn (a + d) s) in Some (a + d + b + n_exp (skipn (a + d + b) s))
  end.
(** json.py:77 [\s+] *)
Definition p_spaces : pattern := fun _ s => match span is_space s with 0 => None | n => Some n end.
(** json.py:100: a backslash and one of the characters of [JSON_ESCAPE_CHARS], or [u] and four hexadecimal digits. *)
Definition is_escape_char (c : nat) : bool := existsb (Nat.eqb c) [98; 102; 110; 114; 116; 34; 47; 92].
Definition p_escape : pattern := fun _ s =>
  match s with
  | 92 :: c :: s =>
      if is_escape_char c then Some 2
      else if (c =? 117) && (4 <=? length (firstn 4 s)) && forallb is_hex (firstn 4 s) then Some 6 else None
  | _ => None
  end.

(** Which rule matches: the first one that does, and the length. *)
Fixpoint pick (ps : list pattern) (i : nat) (prev : option nat) (s : str) : option (nat * nat) :=
  match ps with
  | [] => None
  | p :: ps => match p prev s with Some n => Some (i, n) | None => pick ps (S i) prev s end
  end.

Notation jrule := (pattern * rule jlex jact)%type.
Definition std (p : pattern) (a : jact) (t : list (ritem jlex)) : jrule := (p, SRule (AStd a) t).

(** json.py:66-72 [values] *)
Definition values_rules : list jrule :=
  [std (p_char 123) ADelimiter [RLex JObject];
   std (p_char 91) ADelimiter [RLex JArray];
   std (p_char 34) AStringStart [RLex JString];
   std p_number ANumber [];
   std p_constant AConstant []].
(** json.py:62-102, the rules with a pattern of every lexicon *)
Definition j_rules (l : jlex) : list jrule :=
  match l with
  | JRoot => values_rules
  | JObject => [std (p_char 125) ADelimiter [RInt (-1)]; (p_spaces, SRule ASkip [])]
  | JKey => [std (p_char 34) AStringStart [RLex JString]; std (p_char 58) ADelimiter [RInt (-1); RLex JValue]]
  | JValue => values_rules ++ [std (p_char 44) ADelimiter [RInt (-1)]; std (p_char 125) ADelimiter [RInt (-2)]]
  | JArray => values_rules ++ [std (p_char 44) ADelimiter []; std (p_char 93) ADelimiter [RInt (-1)]]
  | JString => [std (p_char 34) AStringEnd [RInt (-1)]; std p_escape AStringEscape []]
  end.

(** The character before a position. *)
Definition before (text : str) (pos : nat) : option nat := match pos with 0 => None | S q => nth_error text q end.

(** No lexicon has the single literal pattern that makes the fast path apply; no pattern matches the empty string, so "must advance" makes
    no difference. *)
Definition j_compiled (l : jlex) : compiled jlex jact :=
  Compiled (map snd (j_rules l))
    (match l with JString => StaticDA (AStd AString) | _ => NoDA end)
    (match l with JObject => t_make JObject [RLex JKey] | _ => None end)
    None
    (fun _ text pos => match pick (map fst (j_rules l)) 0 (before text pos) (skipn pos text) with
                       | Some (i, n) => Some (Mtch pos (pos + n) i [])
                       | None => None
                       end).

(** [Lexicon.parse]; there is no [using] in the rules. *)
Definition j_parse (l : jlex) : str -> nat -> gen (item jlex jact) := lexicon_parse (fun _ _ => []) l (j_compiled l).
(** No lexicon has the attribute [consume]. *)
Definition j_consume (l : jlex) : bool := false.

(** ** The transform *)

(** A Python float: an oracle.  [float_of]: [float(text)], None if that raises; [is_integer]: the integer it is, None if [f.is_integer()]
    is false. *)
Variable F : Type.
Variable float_of : str -> option F.
Variable is_integer : F -> option Z.

(** Python numbers and values.  Keys of dictionaries are strings or None. *)
Inductive num := NInt (z : Z) | NFloat (f : F).
Inductive pv := PNone | PBool (b : bool) | PNum (n : num) | PStr (s : str) | PList (l : list pv) | PDict (l : list (pv * pv)).

(** The result of a method: None if it raises.  When a method raises, the methods of the parent contexts are not called: in the model they
    give None too. *)
Notation R := (option pv).
Notation titem := (titem jlex jact R jlex).
Notation itemlist := (itemlist jlex jact R jlex unit).

Definition raised (i : titem) : bool := match i with IObj _ None => true | _ => false end.
Definition call (f : list titem -> R) (il : itemlist) : R :=
  if existsb raised (TransformModel.il_items il) then None else f (TransformModel.il_items il).

(** json.py:114-116 *)
Definition number_of (text : str) : option num :=
  match float_of text with
  | None => None
  | Some f => Some (match is_integer f with Some z => NInt z | None => NFloat f end)
  end.
(** json.py:43-47 [JSON_CONSTANTS[i.text]]; None: KeyError *)
Definition constant_of (text : str) : option pv :=
  if str_eqb text w_true then Some (PBool true) else if str_eqb text w_false then Some (PBool false)
  else if str_eqb text w_null then Some PNone else None.

(** json.py:109-121 [values], one item: None if nothing is yielded, Some None if it raises. *)
Definition value_of (i : titem) : option R :=
  match i with
  | IToken t =>
      match k_act t with
      | ANumber => Some (option_map PNum (number_of (k_text t)))
      | AConstant => Some (constant_of (k_text t))
      | _ => None
      end
  | IObj _ o => Some o
  | IUntransformed _ => None       (* there are none: every lexicon has a method *)
  end.
(** json.py:105-107, 131-133: the first value; None at the end of the function without [return]. *)
Fixpoint first_value (l : list titem) : R :=
  match l with
  | [] => Some PNone
  | i :: l => match value_of i with Some r => r | None => first_value l end
  end.
(** json.py:135-136 [list(self.values(items))] *)
Fixpoint all_values (l : list titem) : option (list pv) :=
  match l with
  | [] => Some []
  | i :: l => match value_of i with
              | None => all_values l
              | Some None => None
              | Some (Some v) => option_map (cons v) (all_values l)
              end
  end.

(** [dict(pairs)]: later values replace earlier ones. None: the key is not hashable. *)
Definition key_eqb (a b : pv) : bool :=
  match a, b with PNone, PNone => true | PStr s, PStr t => str_eqb s t | _, _ => false end.
Definition hashable (k : pv) : bool := match k with PList _ | PDict _ => false | _ => true end.
Fixpoint dict_set (d : list (pv * pv)) (k v : pv) : list (pv * pv) :=
  match d with
  | [] => [(k, v)]
  | (k', v') :: d => if key_eqb k k' then (k', v) :: d else (k', v') :: dict_set d k v
  end.
Fixpoint dict_from (d : list (pv * pv)) (l : list (pv * pv)) : option (list (pv * pv)) :=
  match l with
  | [] => Some d
  | (k, v) :: l => if hashable k then dict_from (dict_set d k v) l else None
  end.

(** The items as the methods of [ItemList] see them. *)
Definition entry_of (i : titem) : entry jlex jact pv :=
  match i with
  | IToken t => EToken (k_act t)
  | IObj n o => EItem n (match o with Some v => v | None => PNone end)
  | IUntransformed _ => EToken ADelimiter     (* there are none *)
  end.
Definition or_none (o : option pv) : pv := match o with Some v => v | None => PNone end.
Definition pair_of (g : list (option pv)) : pv * pv := (or_none (nth 0 g None), or_none (nth 1 g None)).

(** json.py:123-124 [object] *)
Definition m_object (l : list titem) : R :=
  option_map PDict (dict_from [] (map pair_of (grouped_objects jlex_eqb [JKey; JValue] (map entry_of l)))).
(** json.py:126-129 [key] *)
Definition m_key (l : list titem) : R :=
  match find (fun x => jlex_eqb (fst x) JString) (ItemListModel.il_items (map entry_of l)) with
  | Some (_, o) => Some o
  | None => Some PNone
  end.
(** json.py:135-136 [array] *)
Definition m_array (l : list titem) : R := option_map PList (all_values l).

(** [int(t, 16)] of hexadecimal digits *)
Definition hex_digit (c : nat) : nat := if c <=? 57 then c - 48 else if c <=? 70 then c - 55 else c - 87.
Definition int16 (s : str) : nat := fold_left (fun n c => n * 16 + hex_digit c) s 0.
(** json.py:49-58 [JSON_ESCAPE_CHARS] *)
Definition escape_char (c : nat) : option nat :=
  match find (fun x => fst x =? c) [(98, 8); (102, 12); (110, 10); (114, 13); (116, 9); (34, 34); (47, 47); (92, 92)] with
  | Some (_, d) => Some d
  | None => None
  end.
(** json.py:141-150, one item; None: it raises (IndexError, ValueError, KeyError, AttributeError). *)
Definition piece_of (i : titem) : option str :=
  match i with
  | IToken t =>
      match k_act t with
      | AStringEscape =>
          match nth_error (k_text t) 1 with
          | None => None
          | Some 117 => if negb (length (skipn 2 (k_text t)) =? 0) && forallb is_hex (skipn 2 (k_text t))
                        then Some [int16 (skipn 2 (k_text t))] else None
          | Some c => option_map (fun d => [d]) (escape_char c)
          end
      | _ => Some (k_text t)
      end
  | _ => None
  end.
Fixpoint pieces (l : list titem) : option str :=
  match l with
  | [] => Some []
  | i :: l => match piece_of i with None => None | Some s => option_map (app s) (pieces l) end
  end.
(** json.py:138-151 [string] *)
Definition m_string (l : list titem) : R :=
  option_map PStr (pieces (if peek jlex_eqb jact_eqb (map entry_of l) (-1) [VAct AStringEnd] then removelast l else l)).

(** json.py:103-151 [JsonTransform] *)
Definition j_methods : transform jlex jact R jlex unit := fun nm =>
  Some (Method (call (match nm with
                      | JRoot | JValue => first_value
                      | JObject => m_object
                      | JKey => m_key
                      | JArray => m_array
                      | JString => m_string
                      end)) false).

(** [Transformer().transform_text(Json.root, text)], given the events of the lexer: the outer option is None where the machinery raises, the
    second where there is no method, the third where a method raises.  There is one language, and a lexicon has its name and no argument. *)
Definition j_read (evs : list (event jlex jact)) : option (option R) :=
  transform_text jlex jact R unit jlex unit (fun _ => tt) (fun l => l) (fun _ => tt) (fun _ _ => true) (fun _ => j_methods) JRoot evs.
End Json.
Arguments NInt {F}. Arguments NFloat {F}. Arguments PNone {F}. Arguments PBool {F}. Arguments PNum {F}. Arguments PStr {F}. Arguments PList {F}. Arguments PDict {F}.
