(** Model of the language [Css] in parce/lang/css.py (45-298) and of [CssTransform] in parce/css.py (843-1223). *)
From Verif Require Import Base TargetModel LexerModel LexiconModel TreeModel TransformModel CssColorModel.
From Coq Require Import ZArith.

(** The lexicons of [Css], and the actions in its rules. *)
Inductive klex := KRoot | KPrelude | KSelector | KSelectorList | KRule | KInline | KDeclaration | KUnit | KElement | KProperty | KAttribute | KId | KClass
  | KAttrSel | KPseudoClass | KPseudoElement | KAtrule | KNested | KKeyword | KBlock | KNestedBlock | KIdentToken | KIdentifier | KFunction | KUrlFunction
  | KDq | KSq | KComment.
Inductive kact := ABracket | ACom | AMark (k : nat) | ADelim | AEsc | AInvalid | AKey | AColor | AUrl | AName | ATag | AProp | APropDef | AAttr | AIdDef
  | AClass | APseudoClass | APseudoTag | ASymbol | AUnit | ANumber | AOp | APercent | AStr | AStrEsc.
Definition klex_eqb (a b : klex) : bool :=
  match a, b with
  | KRoot, KRoot | KPrelude, KPrelude | KSelector, KSelector | KSelectorList, KSelectorList | KRule, KRule | KInline, KInline | KDeclaration, KDeclaration
  | KUnit, KUnit | KElement, KElement | KProperty, KProperty | KAttribute, KAttribute | KId, KId | KClass, KClass | KAttrSel, KAttrSel
  | KPseudoClass, KPseudoClass | KPseudoElement, KPseudoElement | KAtrule, KAtrule | KNested, KNested | KKeyword, KKeyword | KBlock, KBlock
  | KNestedBlock, KNestedBlock | KIdentToken, KIdentToken | KIdentifier, KIdentifier | KFunction, KFunction | KUrlFunction, KUrlFunction
  | KDq, KDq | KSq, KSq | KComment, KComment => true
  | _, _ => false
  end.

(** What is not in the code of parce: which characters the classes \w, \s and \d match; the patterns for marks in comments (language.py:55-57): which of them
    (0 to 2) matches at a position, and the length; the names of properties and of colors (css_words.py). *)
Record kenv := Env { k_word : nat -> bool; k_space : nat -> bool; k_digit : nat -> bool; k_marks : str -> nat -> option (nat * nat); k_isprop : str -> bool;
  k_colors : str -> option (Z * Z * Z) }.

Section Css.
Variable e : kenv.
Notation word := (k_word e).
Notation digit := (k_digit e).

Fixpoint span (f : nat -> bool) (s : str) : nat := match s with [] => 0 | c :: s => if f c then S (span f s) else 0 end.
Definition hexd (c : nat) : bool := ((48 <=? c) && (c <=? 57)) || ((97 <=? c) && (c <=? 102)) || ((65 <=? c) && (c <=? 70)).
(** The length of a match, if it is not 0. *)
Definition some_len (n : nat) : option nat := match n with 0 => None | _ => Some n end.
(** The text starts with [t]. *)
Definition starts (t s : str) : bool := str_eqb t (firstn (length t) s).
Definition lit (t s : str) : option nat := if starts t s then Some (length t) else None.
Definition chr1 (c : nat) (s : str) : option nat := match s with d :: _ => if d =? c then Some 1 else None | [] => None end.
Definition chrs (l : list nat) (s : str) : option nat := match s with d :: _ => if existsb (Nat.eqb d) l then Some 1 else None | [] => None end.

(** lang/css.py:45 [RE_CSS_ESCAPE] *)
Definition re_escape (s : str) : option nat :=
  match s with
  | b :: r =>
      if b =? 92 then
        match r with
        | c :: _ =>
            match Nat.min 6 (span hexd r) with
            | 0 => if c =? 10 then None else Some 2
            | n => Some (S n + match nth_error r n with Some d => if d =? 32 then 1 else 0 | None => 0 end)
            end
        | [] => None
        end
      else None
  | [] => None
  end.
(** lang/css.py:46-49 [RE_CSS_NUMBER] *)
Definition re_mantisse (s : str) : nat :=
  let n := span digit s in
  match skipn n s with
  | c :: r => if c =? 46 then match span digit r with 0 => n | m => n + 1 + m end else n
  | [] => n
  end.
Definition re_exponent (s : str) : nat :=
  match s with
  | c :: d :: r => if ((c =? 69) || (c =? 101)) && ((d =? 43) || (d =? 45)) then match span digit r with 0 => 0 | m => 2 + m end else 0
  | _ => 0
  end.
Definition re_number (s : str) : option nat :=
  let k := match s with c :: _ => if (c =? 43) || (c =? 45) then 1 else 0 | [] => 0 end in
  match re_mantisse (skipn k s) with
  | 0 => None
  | n => Some (k + n + re_exponent (skipn (k + n) s))
  end.
(** lang/css.py:51 [RE_HEX_COLOR] *)
Definition re_hex_color (s : str) : option nat :=
  match s with
  | c :: r =>
      if c =? 35 then
        let n := span hexd r in
        if n <? 3 then None else if 8 <=? n then Some 9 else if 6 <=? n then Some 7 else if 4 <=? n then Some 5 else Some 4
      else None
  | [] => None
  end.
Definition re_spaces (s : str) : option nat := some_len (span (k_space e) s).
(** The pattern of identifiers in lang/css.py:151. *)
Definition namechar (c : nat) : bool := word c || (c =? 45).
Definition re_name (s : str) : option nat := some_len (span namechar s).
(** A word that ends with \b. *)
Definition re_word (t s : str) : option nat :=
  if starts t s && match skipn (length t) s with c :: _ => negb (word c) | [] => true end then Some (length t) else None.
Definition re_nested (s : str) : option nat :=
  match re_word [109; 101; 100; 105; 97] s with
  | Some n => Some n
  | None =>
      match re_word [115; 117; 112; 112; 111; 114; 116; 115] s with
      | Some n => Some n
      | None => re_word [100; 111; 99; 117; 109; 101; 110; 116] s
      end
  end.
(** lang/css.py:92, a full stop that no digit follows. *)
Definition re_dot (s : str) : option nat :=
  match s with c :: r => if c =? 46 then match r with d :: _ => if digit d then None else Some 1 | [] => Some 1 end else None | [] => None end.
(** lang/css.py:79, a combinator. *)
Definition re_combinator (s : str) : option nat := match chrs [62; 43; 126] s with Some n => Some n | None => lit [124; 124] s end.
(** lang/css.py:185 *)
Definition re_attr_op (s : str) : option nat :=
  match s with
  | c :: r => if existsb (Nat.eqb c) [126; 124; 94; 36; 42] then option_map S (chr1 61 r) else chr1 61 s
  | [] => None
  end.
(** [(?=</)]: nothing, before an end tag; not when something must be matched. *)
Definition re_end_tag (adv : bool) (s : str) : option nat := if negb adv && starts [60; 47] s then Some 0 else None.

(** The patterns of a lexicon, in order, tried on the rest of the text.  lang/css.py, of the class methods: *)
Notation pat := (str -> option nat).
Definition p_ident : list pat := [re_escape; re_name].                                                                              (* 148-152 *)
Definition p_selectors : list pat := [re_spaces; re_combinator; chr1 44; lit [47; 42]; chr1 34; chr1 39].                           (* 76-84 *)
Definition p_common : list pat :=                                                                                                   (* 128-138 *)
  [chr1 34; chr1 39; lit [47; 42]; chr1 123; re_number; re_hex_color; lit [117; 114; 108; 40]] ++ p_ident ++ [chrs [58; 44; 59; 64; 37; 33]].
Definition p_toplevel : list pat := [chr1 64; lit [47; 42]; re_spaces].                                                             (* 61-66 *)
Definition p_atrule_common (adv : bool) : list pat := [chr1 59; chr1 58] ++ p_common ++ [re_end_tag adv].                           (* 235-240 *)
Definition p_string : list pat := [re_escape; lit [92; 10]; chr1 10].                                                               (* 287-292 *)
(** The lexicons; those of [comment] from the second on are [k_marks].  [anyof] (rule.py:463-497) gives the patterns of a lexicon that have no target, and are
    no default. *)
Definition k_patterns (adv : bool) (l : klex) : list pat :=
  match l with
  | KRoot => p_toplevel                                                                                                             (* 56-58 *)
  | KPrelude => [chr1 123; re_end_tag adv] ++ p_selectors                                                                           (* 69-73 *)
  | KSelector => [chr1 42; chr1 124; chr1 35; re_dot; lit [58; 58]; chr1 58; chr1 91] ++ p_ident                                    (* 87-97 *)
  | KSelectorList => chr1 41 :: p_selectors                                                                                         (* 100-103 *)
  | KRule => chr1 125 :: p_ident ++ p_common                                                                                        (* 106-109 *)
  | KInline => p_ident ++ p_common                                                                                                  (* 112-115 *)
  | KDeclaration => [chr1 58; chr1 59; re_word [33; 105; 109; 112; 111; 114; 116; 97; 110; 116]] ++ p_common ++ [re_spaces]         (* 118-125 *)
  | KUnit => chr1 37 :: p_ident                                                                                                     (* 141-144 *)
  | KElement | KProperty | KAttribute | KId | KClass | KPseudoElement | KIdentToken => p_ident                                      (* 155-179, 199-201, 243-245 *)
  | KAttrSel => [chr1 93; re_attr_op; chr1 34; chr1 39] ++ p_ident ++ [re_spaces]                                                   (* 182-190 *)
  | KPseudoClass => chr1 40 :: p_ident                                                                                              (* 193-196 *)
  | KAtrule | KNested => chr1 123 :: p_atrule_common adv                                                                            (* 205-214 *)
  | KKeyword => re_nested :: p_ident                                                                                                (* 217-220 *)
  | KBlock => chr1 125 :: p_ident ++ p_common                                                                                       (* 223-226 *)
  | KNestedBlock => chr1 125 :: p_toplevel                                                                                          (* 229-232 *)
  | KIdentifier => chr1 40 :: p_ident                                                                                               (* 248-254 *)
  | KFunction => [chr1 41; chr1 40] ++ p_common ++ [chrs [42; 47; 43; 45]]                                                          (* 257-262 *)
  | KUrlFunction => [chr1 41; chr1 34; chr1 39; lit [47; 42]; re_escape]                                                            (* 265-272 *)
  | KDq => chr1 34 :: p_string                                                                                                      (* 275-278 *)
  | KSq => chr1 39 :: p_string                                                                                                      (* 281-284 *)
  | KComment => [lit [42; 47]]                                                                                                      (* 295-298 *)
  end.
(** The first pattern that matches: its number, counted from [i], and the length of the match. *)
Fixpoint first_match (i : nat) (ps : list pat) (s : str) : option (nat * nat) :=
  match ps with
  | [] => None
  | p :: ps => match p s with Some n => Some (i, n) | None => first_match (S i) ps s end
  end.
Definition k_pick (l : klex) (adv : bool) (text : str) (pos : nat) : option (nat * nat) :=
  match first_match 0 (k_patterns adv l) (skipn pos text) with
  | Some x => Some x
  | None => match l with KComment => match k_marks e text pos with Some (k, n) => Some (S k, n) | None => None end | _ => None end
  end.

(** The actions and targets of the rules, in the same order. *)
Notation rl := (rule klex kact).
Definition std (a : kact) (t : list (ritem klex)) : rl := SRule (AStd a) t.
Definition skp : rl := SRule ASkip [].
Definition r_ident (a : kact) (t : list (ritem klex)) : list rl := [std AEsc t; std a t].
(** [ifmember(TEXT, CSS3_ALL_PROPERTIES, Name.Property.Definition, Name.Property)], lang/css.py:163 *)
Definition r_property (t : list (ritem klex)) : list rl :=
  [std AEsc t; DRule (fun _ s => (AStd (if k_isprop e s then APropDef else AProp), t))].
(** lang/css.py:250-252 *)
Definition named (s : str) : bool := match k_colors e s with Some _ => true | None => false end.
Definition r_identifier (t : list (ritem klex)) : list rl :=
  [std AEsc t; DRule (fun _ s => (AStd (if str_eqb s t_transparent then AColor else if named s then AColor else ASymbol), t))].
Definition r_selectors : list rl :=
  [skp; std AOp []; std ADelim []; std ACom [RLex KComment]; std AStr [RLex KDq]; std AStr [RLex KSq]].
Definition r_common : list rl :=
  [std AStr [RLex KDq]; std AStr [RLex KSq]; std ACom [RLex KComment]; std ABracket [RLex KRule]; std ANumber [RLex KUnit]; std AColor [];
   SRule (AGroups [AStd AName; AStd ADelim]) [RLex KUrlFunction]] ++ r_identifier [RLex KIdentifier] ++ [std ADelim []].
Definition r_toplevel : list rl := [std AKey [RLex KAtrule; RLex KKeyword]; std ACom [RLex KComment]; skp].
Definition r_atrule_common : list rl := [std ADelim [RInt (-1)]; std AKey [RLex KPseudoClass]] ++ r_common ++ [SRule ASkip [RInt (-1)]].
Definition r_string : list rl := [std AStrEsc []; std AStrEsc []; std AInvalid [RInt (-1)]].
Definition r_inline : list rl := r_property [RLex KDeclaration; RLex KProperty] ++ r_common.
Definition k_rules (l : klex) : list rl :=
  match l with
  | KRoot => r_toplevel
  | KPrelude => [std ABracket [RInt (-1); RLex KRule]; SRule ASkip [RInt (-1)]] ++ r_selectors
  | KSelector => [std AKey []; std AKey []; std AIdDef [RLex KId]; std AKey [RLex KClass]; std AKey [RLex KPseudoElement]; std AKey [RLex KPseudoClass];
                  std ADelim [RLex KAttrSel; RLex KAttribute]] ++ r_ident ATag [RLex KElement]
  | KSelectorList => std ADelim [RInt (-2)] :: r_selectors
  | KRule => std ABracket [RInt (-1)] :: r_inline
  | KInline => r_inline
  | KDeclaration => [std ADelim []; std ADelim [RInt (-1)]; std AKey [RInt (-1)]] ++ r_common ++ [skp]
  | KUnit => std APercent [RInt (-1)] :: r_ident AUnit []
  | KElement => r_ident ATag []
  | KProperty => r_property []
  | KAttribute => r_ident AAttr []
  | KId => r_ident AIdDef []
  | KClass => r_ident AClass []
  | KPseudoElement => r_ident APseudoTag []
  | KIdentToken => r_ident ASymbol []
  | KAttrSel => [std ADelim [RInt (-1)]; std AOp []; std AStr [RLex KDq]; std AStr [RLex KSq]] ++ r_ident ASymbol [RLex KIdentToken] ++ [skp]
  | KPseudoClass => std ADelim [RLex KSelectorList] :: r_ident APseudoClass []
  | KAtrule => std ABracket [RLex KBlock] :: r_atrule_common
  | KNested => std ABracket [RLex KNestedBlock] :: r_atrule_common
  | KKeyword => std AKey [RInt (-1); RLex KNested] :: r_ident AKey []
  | KBlock => std ABracket [RInt (-2)] :: r_inline
  | KNestedBlock => std ABracket [RInt (-2)] :: r_toplevel
  | KIdentifier => std ADelim [RLex KFunction] :: r_identifier []
  | KFunction => [std ADelim [RInt (-2)]; std ADelim [RInt 1]] ++ r_common ++ [std AOp []]
  | KUrlFunction => [std ADelim [RInt (-1)]; std AStr [RLex KDq]; std AStr [RLex KSq]; std ACom [RLex KComment]; std AEsc []]
  | KDq | KSq => std AStr [RInt (-1)] :: r_string
  | KComment => [std ACom [RInt (-1)]; std (AMark 0) []; std (AMark 1) []; std (AMark 2) []]
  end.
(** The default actions and targets. *)
Definition k_da (l : klex) : dact klex kact :=
  match l with
  | KAttrSel => StaticDA (AStd AInvalid)
  | KUrlFunction => StaticDA (AStd AUrl)
  | KDq | KSq => StaticDA (AStd AStr)
  | KComment => StaticDA (AStd ACom)
  | _ => NoDA
  end.
Definition k_dt (l : klex) : option (target klex) :=
  match l with
  | KRoot | KNestedBlock => t_make l [RLex KPrelude]
  | KPrelude | KSelectorList => t_make l [RLex KSelector]
  | KSelector | KDeclaration | KUnit | KElement | KProperty | KAttribute | KId | KClass | KPseudoClass | KPseudoElement | KKeyword | KIdentToken | KIdentifier =>
      t_make l [RInt (-1)]
  | _ => None
  end.
(** The groups of the pattern for [url(] are its two parts. *)
Definition k_groups (l : klex) (i pos n : nat) : list (option (nat * nat)) :=
  match nth_error (k_rules l) i with Some (SRule (AGroups _) _) => [Some (pos, pos + 3); Some (pos + 3, pos + n)] | _ => [] end.
Definition k_compiled (l : klex) : compiled klex kact :=
  Compiled (k_rules l) (k_da l) (k_dt l) None
    (fun adv text pos => match k_pick l adv text pos with Some (i, n) => Some (Mtch pos (pos + n) i (k_groups l i pos n)) | None => None end).
Definition k_parse (l : klex) : str -> nat -> gen (item klex kact) := lexicon_parse (fun _ _ => []) l (k_compiled l).
Definition k_consume (l : klex) : bool := match l with KElement | KProperty | KIdentToken | KIdentifier => true | _ => false end.
End Css.

(** ** The transform *)

(** css.py:1308-1352 [Value]: the number is kept as its text; a color can also be that of [get_rgba_color] for some arguments.  What the methods return: *)
Inductive kcolor := Plain (c : color) | Rgba (args : list kv)
with kv :=
| VStr (s : str)
| VValue (text number unit url : option str) (col : option kcolor) (func : option str) (quoted : bool) (args : list kv)
| VValues (l : list kv)                                        (* a tuple *)
| VDict (d : list (klex * list kv))                            (* a selector *)
| VPrelude (p : list (list kv))
| VPseudo (name : str) (args : option (list (list kv)))
| VAttr (attr op val flag : option str)
| VProps (d : list (str * list kv))
| VDecl (p : option (str * list kv))
| VRule (prelude : option kv) (props : kv)
| VAtrule (keyword : option kv) (contents : list kv) (block : option kv)
| VNested (contents : list kv) (block : option kv)
| VSheet (l : list kv).
Definition value_of (text : str) : kv := VValue (Some text) None None None None None false [].
Notation KR := (option kv).
Notation kitem := (titem klex kact KR klex).

Section Transform.
Variable e : kenv.
(** [int(c, 16)] of a character that is no hexadecimal digit in ASCII; [None]: a [ValueError]. *)
Variable odd : nat -> option nat.

(** css.py:1184-1193 [get_escape]; [int] allows white space at the end.  None: [chr] raises. *)
Definition code_of (s : str) : nat := fold_left (fun n c => n * 16 + (if c <=? 57 then c - 48 else if c <=? 70 then c - 55 else c - 87)) (filter hexd s) 0.
Definition chr (n : nat) : option str := if n <? 17 * 2 ^ 16 then Some [n] else None.
Definition get_escape (t : str) : option str :=
  match t with
  | _ :: c :: s =>
      if hexd c then chr (code_of (c :: s))
      else if c =? 10 then Some [] else match odd c with Some n => chr n | None => Some (c :: s) end
  | _ => Some []
  end.
(** [a in Delimiter], action.py:145-151; [a in Name] *)
Definition is_delim (a : kact) : bool := match a with ADelim | ABracket | AOp | APercent => true | _ => false end.
Definition is_name (a : kact) : bool :=
  match a with AName | ATag | AProp | APropDef | AAttr | AIdDef | AClass | APseudoClass | APseudoTag | ASymbol | AUnit => true | _ => false end.
(** css.py:1207-1223 [get_ident_token]: the name, and whether the last action is [Literal.Color] (it never is, only names count). *)
Fixpoint ident_loop (l : list kitem) : option str :=
  match l with
  | [] => Some []
  | IToken t :: l =>
      match (match k_act t with AEsc => get_escape (k_text t) | a => if is_delim a then Some [] else Some (k_text t) end), ident_loop l with
      | Some a, Some b => Some (a ++ b)
      | _, _ => None
      end
  | _ :: l => ident_loop l
  end.
Definition last_name (l : list kitem) : option kact :=
  fold_left (fun a i => match i with IToken t => if is_name (k_act t) then Some (k_act t) else a | _ => a end) l None.
Definition ident_token (l : list kitem) : KR := option_map VStr (ident_loop l).

(** css.py:843-855 [root] *)
Fixpoint root_loop (l : list kitem) (prelude : option kv) (result : list kv) : option (list kv) :=
  match l with
  | [] => Some result
  | IObj KPrelude (Some o) :: l => root_loop l (Some o) result
  | IObj KRule (Some o) :: l => root_loop l None (result ++ [VRule prelude o])
  | IObj KAtrule (Some o) :: l => root_loop l prelude (result ++ [o])
  | IObj _ None :: _ => None
  | _ :: l => root_loop l prelude result
  end.
Definition k_root (l : list kitem) : KR := option_map VSheet (root_loop l None []).

(** css.py:857-898 [prelude] *)
Definition is_dict (o : kv) : bool := match o with VDict _ => true | _ => false end.
Definition ends_in_dict (l : list kv) : bool := match last_opt l with Some o => is_dict o | None => false end.
Fixpoint prelude_loop (l : list kitem) (prelude : list (list kv)) (result : list kv) : option (list (list kv) * list kv) :=
  match l with
  | [] => Some (prelude, result)
  | IToken t :: l =>
      if str_eqb (k_text t) [44] then prelude_loop l (prelude ++ [result]) []
      else match k_act t with
           | AOp => prelude_loop l prelude (if ends_in_dict result then result ++ [VStr (k_text t)] else result)
           | _ => prelude_loop l prelude result
           end
  | IObj KSelector o :: l =>
      match o with
      | Some o => prelude_loop l prelude ((if ends_in_dict result then result ++ [VStr [32]] else result) ++ [o])
      | None => None
      end
  | _ :: l => prelude_loop l prelude result
  end.
Definition prelude_of (l : list kitem) : option (list (list kv)) :=
  match prelude_loop l [] [] with
  | None => None
  | Some (prelude, result) =>
      let prelude := match result with [] => prelude | _ => prelude ++ [result] end in
      let prelude := map (fun sels => match sels with [] => [] | _ => if ends_in_dict sels then sels else removelast sels end) prelude in
      Some (filter (fun sels => match sels with [] => false | _ => true end) prelude)
  end.
Definition k_prelude (l : list kitem) : KR := option_map VPrelude (prelude_of l).

(** css.py:900-918 [selector] *)
Fixpoint d_append (k : klex) (o : kv) (d : list (klex * list kv)) : list (klex * list kv) :=
  match d with
  | [] => [(k, [o])]
  | (k', os) :: d => if klex_eqb k k' then (k', os ++ [o]) :: d else (k', os) :: d_append k o d
  end.
Fixpoint selector_loop (l : list kitem) (d : list (klex * list kv)) : option (list (klex * list kv)) :=
  match l with
  | [] => Some d
  | IObj k (Some o) :: l => selector_loop l (d_append k o d)
  | IObj _ None :: _ => None
  | _ :: l => selector_loop l d
  end.
Definition k_selector (l : list kitem) : KR := option_map VDict (selector_loop l []).

(** [items[-1] == t], and the items without the last *)
Definition ends_with (t : str) (l : list kitem) : bool := match last_opt l with Some (IToken x) => str_eqb (k_text x) t | _ => false end.
(** css.py:920-925 [selector_list] *)
Definition k_selector_list (l : list kitem) : KR := k_prelude (if ends_with [41] l then removelast l else l).

(** css.py:931-938 [inline]; a dictionary keeps the place of a key. *)
Fixpoint p_set (k : str) (v : list kv) (d : list (str * list kv)) : list (str * list kv) :=
  match d with
  | [] => [(k, v)]
  | (k', v') :: d => if str_eqb k k' then (k', v) :: d else (k', v') :: p_set k v d
  end.
Fixpoint inline_loop (l : list kitem) (d : list (str * list kv)) : option (list (str * list kv)) :=
  match l with
  | [] => Some d
  | IObj KDeclaration (Some (VDecl (Some (p, vs)))) :: l => inline_loop l (p_set p vs d)
  | IObj _ None :: _ => None
  | _ :: l => inline_loop l d
  end.
Definition k_inline (l : list kitem) : KR := option_map VProps (inline_loop l []).

(** css.py:1125-1164 [common]; [number]: the text of a number that may still get a unit. *)
Definition num (t : str) (u : option str) : kv := VValue (Some t) (Some t) u None None None false [].
Definition str_of (o : kv) : option str := match o with VStr s => Some s | _ => None end.
Fixpoint common (l : list kitem) (number : option str) (skip : bool) : option (list kv) :=
  match l with
  | [] => Some (match number with Some t => [num t None] | None => [] end)
  | i :: l =>
      if skip then common l None false          (* css.py:1153 *)
      else
        match number, i with
        | Some t, IObj KUnit o => match o with Some o => option_map (cons (num t (str_of o))) (common l None false) | None => None end
        | _, _ =>
            let before := match number with Some t => [num t None] | None => [] end in
            option_map (app before)
              match i with
              | IToken t =>
                  match k_act t with
                  | ANumber => common l (Some (k_text t)) false
                  | AColor => match get_hex_color (tl (k_text t)) with
                              | Some c => option_map (cons (VValue (Some (k_text t)) None None None (Some (Plain c)) None false [])) (common l None false)
                              | None => None
                              end
                  | AKey | ADelim | ABracket | AOp | APercent => option_map (cons (VStr (k_text t))) (common l None false)
                  | AName => common l None (str_eqb (k_text t) [117; 114; 108])
                  | _ => common l None false
                  end
              | IObj _ None => None
              | IObj k (Some o) =>
                  match k with
                  | KSq | KDq => option_map (cons (VValue (str_of o) None None None None None true [])) (common l None false)
                  | KUrlFunction | KIdentifier | KPseudoClass | KAttribute | KSelectorList => option_map (cons o) (common l None false)
                  | _ => common l None false
                  end
              | IUntransformed _ => common l None false
              end
        end
  end.
Definition values (l : list kitem) : option (list kv) := common l None false.

(** css.py:940-952 [declaration] *)
Definition no_colon (i : kitem) : bool := match i with IToken t => negb (str_eqb (k_text t) [58] || str_eqb (k_text t) [59]) | _ => true end.
Fixpoint k_declaration (l : list kitem) : KR :=
  match l with
  | [] => Some (VDecl None)
  | IObj KProperty o :: l =>
      match o with
      | Some (VStr p) => option_map (fun vs => VDecl (Some (p, vs))) (values (filter no_colon l))
      | _ => None
      end
  | _ :: l => k_declaration l
  end.
(** css.py:954-958 [unit] *)
Definition k_unit (l : list kitem) : KR :=
  match l with
  | IToken t :: _ => if str_eqb (k_text t) [37] then Some (VStr [37]) else ident_token l
  | _ => ident_token l
  end.
(** css.py:980-1000 [attribute_selector] *)
Definition truthy (o : option str) : bool := match o with Some (_ :: _) => true | _ => false end.
Fixpoint attr_loop (l : list kitem) (attr op val flag : option str) : KR :=
  match l with
  | [] => Some (VAttr attr op val flag)
  | IToken t :: l => match k_act t with AOp => attr_loop l attr (Some (k_text t)) val flag | _ => attr_loop l attr op val flag end
  | IObj _ None :: _ => None
  | IObj k (Some o) :: l =>
      match k with
      | KSq | KDq => attr_loop l attr op (str_of o) flag
      | KAttribute => attr_loop l (str_of o) op val flag
      | KIdentToken => if truthy val then attr_loop l attr op val (str_of o) else attr_loop l attr op (str_of o) flag
      | _ => attr_loop l attr op val flag
      end
  | _ :: l => attr_loop l attr op val flag
  end.
(** css.py:1002-1014 [pseudo_class] *)
Definition k_pseudo_class (l : list kitem) : KR :=
  match ident_loop l with
  | None => None
  | Some n =>
      match last_opt l with
      | Some (IObj KSelectorList o) => match o with Some (VPrelude p) => Some (VPseudo n (Some p)) | _ => None end
      | _ => Some (VPseudo n None)
      end
  end.
(** css.py:1020-1041 [atrule]; [before]: the items before, the last one first *)
Fixpoint atrule_loop (before l : list kitem) : option (list kv * option kv) :=
  match l with
  | [] => option_map (fun c => (c, None)) (values (rev before))
  | IToken t :: l => if str_eqb (k_text t) [59] then option_map (fun c => (c, None)) (values (rev before)) else atrule_loop (IToken t :: before) l
  | IObj _ None :: _ => None
  | IObj k (Some o) :: l' =>
      match k with
      | KNested => match o with VNested c b => Some (c, b) | _ => None end
      | KBlock => option_map (fun c => (c, Some o)) (values (rev (tl before)))
      | _ => atrule_loop (IObj k (Some o) :: before) l'
      end
  | i :: l => atrule_loop (i :: before) l
  end.
Definition k_atrule (l : list kitem) : KR :=
  match l with
  | IObj KKeyword o :: l => match o with Some k => option_map (fun x => VAtrule (Some k) (fst x) (snd x)) (atrule_loop [] l) | None => None end
  | _ => option_map (fun x => VAtrule None (fst x) (snd x)) (atrule_loop [] l)
  end.
(** css.py:1043-1049 [atrule_nested] *)
Definition k_nested (l : list kitem) : KR :=
  match last_opt l with
  | Some (IObj KNestedBlock o) => match o with Some b => option_map (fun c => VNested c (Some b)) (values (removelast (removelast l))) | None => None end
  | _ => option_map (fun c => VNested c None) (values l)
  end.
(** css.py:1166-1175 [get_css_function_call] *)
Definition text_of (o : kv) : str := match o with VValue (Some t) _ _ _ _ _ _ _ => t | _ => [] end.
Definition function_call (name : str) (args : list kv) : kv :=
  if str_eqb name [114; 103; 98] || str_eqb name [114; 103; 98; 97] then VValue None None None None (Some (Rgba args)) None false []
  else if str_eqb name [117; 114; 108] then VValue None None None (Some (flat_map text_of args)) None None false []
  else VValue None None None None None (Some name) false args.
(** css.py:1067-1087 [identifier] *)
Definition k_identifier (l : list kitem) : KR :=
  match ident_loop l with
  | None => None
  | Some t =>
      match last_opt l with
      | Some (IObj KFunction o) => match o with Some (VValues a) => Some (function_call t a) | _ => None end
      | _ => if match last_name l with Some AColor => true | _ => false end || named e t
             then Some (VValue (Some t) None None None (Some (Plain (get_named_color (k_colors e) t))) None false [])
             else Some (value_of t)
      end
  end.
(** css.py:1089-1094 [function] *)
Definition k_function (l : list kitem) : KR := option_map VValues (values (if ends_with [41] l then removelast l else l)).
(** css.py:1096-1107 [url_function] *)
Fixpoint url_loop (l : list kitem) : option str :=
  match l with
  | [] => Some []
  | i :: l =>
      match (match i with
             | IToken t => match k_act t with AEsc => get_escape (k_text t) | AUrl => Some (k_text t) | _ => Some [] end
             | IObj KDq o | IObj KSq o => match o with Some (VStr s) => Some s | _ => None end
             | _ => Some []
             end), url_loop l with
      | Some a, Some b => Some (a ++ b)
      | _, _ => None
      end
  end.
Definition k_url (l : list kitem) : KR := option_map (fun u => VValue None None None (Some u) None None false []) (url_loop l).
(** css.py:1109-1119 [dqstring], [sqstring], with 1195-1205 [get_string]: a slice has no method [tokens], and the name [String] is not defined. *)
Definition k_string (quote : nat) (l : list kitem) : KR :=
  if ends_with [quote] l then None
  else if existsb (fun i => match i with IToken _ => true | _ => false end) l then None
  else Some (VStr []).

Definition k_raised (i : kitem) : bool := match i with IObj _ None => true | _ => false end.
Definition k_call (f : list kitem -> KR) (il : itemlist klex kact KR klex unit) : KR := if existsb k_raised (il_items il) then None else f (il_items il).
(** css.py:843-1122: the methods of [CssTransform]; there is none for comments ([None], 1122). *)
Definition k_method (nm : klex) : list kitem -> KR :=
  match nm with
  | KRoot | KNestedBlock | KComment => k_root
  | KPrelude => k_prelude
  | KSelector => k_selector
  | KSelectorList => k_selector_list
  | KRule | KInline | KBlock => k_inline
  | KDeclaration => k_declaration
  | KUnit => k_unit
  | KElement | KProperty | KAttribute | KId | KClass | KPseudoElement | KKeyword | KIdentToken => ident_token
  | KAttrSel => fun l => attr_loop l None None None None
  | KPseudoClass => k_pseudo_class
  | KAtrule => k_atrule
  | KNested => k_nested
  | KIdentifier => k_identifier
  | KFunction => k_function
  | KUrlFunction => k_url
  | KDq => k_string 34
  | KSq => k_string 39
  end.
Definition k_methods : transform klex kact KR klex unit := fun nm =>
  match nm with KComment => None | _ => Some (Method (k_call (k_method nm)) false) end.

(** [transform_text(Css.root, text)], given the events of the lexer: the outer option is None where the machinery raises, the second where there is no
    method, the third where a method raises. *)
Definition k_read (evs : list (event klex kact)) : option (option KR) :=
  transform_text klex kact KR unit klex unit (fun _ => tt) (fun l => l) (fun _ => tt) (fun _ _ => true) (fun _ => k_methods) KRoot evs.
End Transform.
