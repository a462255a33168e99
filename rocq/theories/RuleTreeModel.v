(** Model of [variations_tree] (parce/ruleitem.py) and of parce/introspect.py: the decision tree of a rule, the lexicons of a language,
    and the actions and languages that its rules can give. *)
From Verif Require Import Base RuleValues RuleItemModel.
From Coq Require Import ZArith.

(** ** The decision tree *)
(** An entry, a tuple, or a frozenset of tuples.  A frozenset is a list here; its order and repetitions do not matter. *)
Inductive vt := TEntry (v : vobj) | TTup (l : list vt) | TSet (l : list vt).

(** parce/ruleitem.py:558-563: what an item is replaced with, [bs] being the trees of the objects that its method [variations] yields:
    nothing changes if there are none. None: an exception (hashing the members of a frozenset is supposed to succeed). *)
Definition tbranch (o : obj) (bs : list (option (list vt))) : option (list vt) :=
  match omap (fun b => b) bs with
  | None => None
  | Some [] => Some [TEntry (VObj o)]
  | Some [t] => Some [TTup t]
  | Some ts => Some [TSet (map TTup ts)]
  end.

(** parce/ruleitem.py:550-565 [variations_tree] of [unroll(o)]; with the methods [variations] as in [vars]: 205-207 (select), 256-271
    (target), 342-348 (pattern), 385-387 (SubgroupAction), 426-428 (DelegateAction), 444-447 (SkipAction), 93-103 (others). *)
Fixpoint titems (o : obj) : option (list vt) :=
  match o with
  | OAtom _ => Some [TEntry (VObj o)]
  | OSeq l => fold_right oapp (Some []) (map titems l)
  | OVar _ | OCall _ _ => None
  | OSelect _ items => tbranch o (map titems items)
  | OTarget value lexicons =>
      match value with
      | OAtom a => match as_int a with Some _ => tbranch o [Some [TEntry (VObj value)]] | None => None end
      | OSeq [OAtom a; _] => match as_int a with
                             | Some i => match py_get (map titems lexicons) i with Some r => tbranch o [r] | None => None end
                             | None => None
                             end
      | OSeq _ => None
      | _ => tbranch o (Some [TEntry ANumber] :: map titems lexicons)
      end
  | OPattern v => if is_item v then tbranch o [Some [TEntry (VObj (OAtom ANone))]; Some [TEntry AString]] else tbranch o [titems v]
  | OSub actions => tbranch o (map titems actions)
  | ODelegate lexicon => tbranch o [titems lexicon]
  | OSkip => tbranch o []
  end.
(** parce/ruleitem.py:550-565: the rule itself is not unrolled, so a list or tuple in it stays as it is. *)
Definition variations_tree (rule : list obj) : option (list vt) :=
  fold_right oapp (Some []) (map (fun o => match o with OSeq _ => Some [TEntry (VObj o)] | _ => titems o end) rule).

(** ** Introspection *)
(** parce/introspect.py:63-72 [flatten] in [rule_items], for one item; None: an exception. *)
Fixpoint leaves (o : obj) : option (list vobj) :=
  match o with
  | OAtom _ => Some [VObj o]
  | OSeq l => fold_right oapp (Some []) (map leaves l)
  | OVar _ | OCall _ _ => None
  | OSelect _ items => fold_right oapp (Some []) (map leaves items)
  | OTarget value lexicons =>
      match value with
      | OAtom a => match as_int a with Some _ => Some [VObj value] | None => None end
      | OSeq [OAtom a; _] => match as_int a with
                             | Some i => match py_get (map leaves lexicons) i with Some r => r | None => None end
                             | None => None
                             end
      | OSeq _ => None
      | _ => oapp (Some [ANumber]) (fold_right oapp (Some []) (map leaves lexicons))
      end
  | OPattern v => if is_item v then Some [VObj (OAtom ANone); AString] else leaves v
  | OSub actions => fold_right oapp (Some []) (map leaves actions)
  | ODelegate lexicon => leaves lexicon
  | OSkip => Some []
  end.

(** A class: its own attributes with their names; a lexicon with its rules, or something else.  Names are numbers, ordered as the names
    are.  [mro]: the classes in the method resolution order before [Language]; [rest]: [Language] and those after it. *)
Inductive attr := ALexicon (rules : list (list obj)) | ANot.
Definition cls := list (nat * attr).
Definition own (c : cls) (name : nat) : option attr :=
  match find (fun p => fst p =? name) c with Some (_, a) => Some a | None => None end.
(** [getattr(language, name)] *)
Fixpoint get_attr (mro : list cls) (name : nat) : option attr :=
  match mro with
  | [] => None
  | c :: mro => match own c name with Some a => Some a | None => get_attr mro name end
  end.

(** Python's [sorted] of a set of names. *)
Fixpoint insert (x : nat) (l : list nat) : list nat :=
  match l with
  | [] => [x]
  | y :: r => if x <? y then x :: l else if x =? y then l else y :: insert x r
  end.
Definition sorted_set (l : list nat) : list nat := fold_right insert [] l.

(** parce/introspect.py:48-58 [lexicons], with the names; None: an exception. *)
Definition is_lexicon (a : attr) : bool := match a with ALexicon _ => true | ANot => false end.
Definition lexicon_names (mro : list cls) : list nat :=
  sorted_set (flat_map (fun c => map fst (filter (fun p => is_lexicon (snd p)) c)) mro).
Definition lexicons (mro rest : list cls) : option (list (nat * attr)) :=
  omap (fun name => match get_attr (mro ++ rest) name with Some a => Some (name, a) | None => None end) (lexicon_names mro).

(** parce/introspect.py:61-75 [rule_items].  Iterating over a lexicon (parce/lexicon.py:206-217, 229-237) gives the rules as written, because the lexicons
    have no argument; something that is not a lexicon is supposed not to be iterable. *)
Definition rule_items (mro rest : list cls) : option (list vobj) :=
  match lexicons mro rest with
  | None => None
  | Some ls =>
      fold_right oapp (Some [])
        (map (fun p => match snd p with
                       | ALexicon rules => fold_right oapp (Some []) (map (fun rule => leaves (OSeq rule)) rules)
                       | ANot => None
                       end) ls)
  end.
(** parce/introspect.py:78-84 [standardactions]; a set is a list here *)
Definition standardactions (mro rest : list cls) : option (list nat) :=
  match rule_items mro rest with
  | None => None
  | Some l => Some (flat_map (fun v => match v with VObj (OAtom (AAct n)) => [n] | _ => [] end) l)
  end.
(** parce/introspect.py:87-95 [languages]; [language_of] gives the language of a lexicon *)
Definition languages (language_of : nat -> nat) (lang : nat) (mro rest : list cls) : option (list nat) :=
  match rule_items mro rest with
  | None => None
  | Some l => Some (flat_map (fun v => match v with VObj (OAtom (ALex n _)) => if language_of n =? lang then [] else [language_of n] | _ => [] end) l)
  end.
