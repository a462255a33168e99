(** Model of the matching and cascading half of /repo/parce/css.py: the elements (lines 429-735), the specificity of
    a rule (1362-1383), the order of the rules in a style sheet (329-345) and the combined properties (375-411). *)
From Verif Require Import Base.

(** ** Dictionaries with string keys, in order of insertion *)
Fixpoint sget {V} (d : list (str * V)) (k : str) : option V :=
  match d with [] => None | (k', v) :: d => if str_eqb k' k then Some v else sget d k end.
Fixpoint sset {V} (d : list (str * V)) (k : str) (v : V) : list (str * V) :=
  match d with
  | [] => [(k, v)]
  | (k', v') :: d => if str_eqb k' k then (k', v) :: d else (k', v') :: sset d k v
  end.
(** [x in l] for a list of strings. *)
Definition smem (x : str) (l : list str) : bool := existsb (str_eqb x) l.

(** ** Elements: css.py:670-735 [Element]
    An element is given by the tree of its root and the path from the root; [parent] and [__eq__] by identity are
    what the path says. *)
Inductive elem :=
  Elem (name : str) (attrs : list (str * str)) (pclasses pelements : list str) (children : list elem).
Definition e_name (e : elem) := let '(Elem n _ _ _ _) := e in n.
Definition e_attrs (e : elem) := let '(Elem _ a _ _ _) := e in a.
Definition e_pclasses (e : elem) := let '(Elem _ _ c _ _) := e in c.
Definition e_pelements (e : elem) := let '(Elem _ _ _ x _) := e in x.
Definition e_children (e : elem) := let '(Elem _ _ _ _ l) := e in l.

Definition epath := list nat.
Fixpoint elem_at (root : elem) (p : epath) : option elem :=
  match p with
  | [] => Some root
  | i :: p => match nth_error (e_children root) i with Some e => elem_at e p | None => None end
  end.

(** ** Selectors: css.py:900-918 [selector]
    The dictionary of a selector, with the empty list for a missing key; a key is never there with an empty list. Of a
    [pseudo_class] the selector list between parentheses is left out: [match_selector] does not look at it. *)
Record attrsel := mkattr { as_name : str; as_op : option str; as_text : option str; as_flag : option str }.
Record selector := mksel {
  s_class : list str;
  s_element : list str;
  s_id : list str;
  s_attr : list attrsel;
  s_pclass : list str;
  s_pelement : list str }.
(** [bool(selector)]: whether the dictionary has a key. *)
Definition sel_true (s : selector) : bool :=
  match s_class s, s_element s, s_id s, s_attr s, s_pclass s, s_pelement s with
  | [], [], [], [], [], [] => false
  | _, _, _, _, _, _ => true
  end.
(** What a selector list holds: dictionaries and operators. *)
Inductive item := Sel (s : selector) | Op (s : str).
Definition item_true (i : item) : bool := match i with Sel s => sel_true s | Op [] => false | Op _ => true end.

(** The operators and names the code compares with. *)
Definition op_child : str := [62].                                     (* > *)
Definition op_desc : str := [32].                                      (* space *)
Definition op_next : str := [43].                                      (* + *)
Definition op_subs : str := [126].                                     (* ~ *)
Definition n_class : str := [99; 108; 97; 115; 115].                   (* class *)
Definition n_id : str := [105; 100].                                   (* id *)
Definition op_eq : str := [61].                                        (* = *)
Definition op_word : str := [126; 61].                                 (* ~= *)
Definition op_dash : str := [124; 61].                                 (* |= *)
Definition op_pre : str := [94; 61].                                   (* ^= *)
Definition op_suf : str := [36; 61].                                   (* $= *)
Definition op_sub : str := [42; 61].                                   (* *= *)
Definition n_first_child : str := [102;105;114;115;116;45;99;104;105;108;100].
Definition n_last_child : str := [108;97;115;116;45;99;104;105;108;100].
Definition n_only_child : str := [111;110;108;121;45;99;104;105;108;100].
Definition n_first_of_type : str := [102;105;114;115;116;45;111;102;45;116;121;112;101].
Definition n_last_of_type : str := [108;97;115;116;45;111;102;45;116;121;112;101].
Definition n_empty : str := [101;109;112;116;121].

(** [s.startswith(p)], [s.endswith(p)], [p in s]. *)
Definition s_startswith (p s : str) : bool := str_eqb (firstn (length p) s) p.
Definition s_endswith (p s : str) : bool := s_startswith (rev p) (rev s).
Fixpoint s_contains (p s : str) : bool :=
  s_startswith p s || match s with [] => false | _ :: s => s_contains p s end.

Section Css.
(** [str.isspace] of a character and [str.lower]. *)
Variable space : nat -> bool.
Variable lower : str -> str.

(** [s.split()]: [acc] is the word being read. *)
Fixpoint split_from (acc : str) (s : str) : list str :=
  match s with
  | [] => match acc with [] => [] | _ => [acc] end
  | c :: s =>
      if space c then match acc with [] => split_from [] s | _ => acc :: split_from [] s end
      else split_from (acc ++ [c]) s
  end.
Definition s_split (s : str) : list str := split_from [] s.

(** css.py:497-507 [get_classes] and 509-513 [get_id]. *)
Definition get_classes (e : elem) : list str :=
  match e_attrs e with
  | [] => []
  | d => s_split (match sget d n_class with Some v => v | None => [] end)
  end.
Definition get_id (e : elem) : option str :=
  match e_attrs e with [] => None | d => sget d n_id end.

Section Tree.
Variable root : elem.

(** css.py:703-705 [get_parent]: the path of the parent. *)
Definition get_parent (p : epath) : option epath :=
  match p with [] => None | _ => Some (removelast p) end.
(** Following [get_parent]: the ancestors, the nearest first. *)
Fixpoint ancestors_n (n : nat) (p : epath) : list epath :=
  match n with
  | 0 => []
  | S n => match get_parent p with None => [] | Some q => q :: ancestors_n n q end
  end.
Definition ancestors (p : epath) : list epath := ancestors_n (length p) p.
(** css.py:723-728 [previous_siblings]: the nearest first. *)
Definition previous_siblings (p : epath) : list epath :=
  match p with
  | [] => []
  | _ => map (fun i => removelast p ++ [i]) (rev (seq 0 (last p 0)))
  end.
(** css.py:730-734 [next_siblings]. *)
Definition next_siblings (p : epath) : list epath :=
  match p with
  | [] => []
  | _ =>
      match elem_at root (removelast p) with
      | None => []
      | Some par => map (fun i => removelast p ++ [i])
                      (seq (S (last p 0)) (length (e_children par) - S (last p 0)))
      end
  end.

Definition name_at (p : epath) : option str := option_map e_name (elem_at root p).
Definition same_name (p q : epath) : bool :=
  match name_at p, name_at q with Some a, Some b => str_eqb a b | _, _ => false end.
Definition empty_list {A} (l : list A) : bool := match l with [] => true | _ => false end.

(** css.py:525-558: the pseudo classes the tree decides, and the dispatcher; [None] when there is none of that name. *)
Definition pseudo_class (e : elem) (p : epath) (c : str) : option bool :=
  if str_eqb c n_first_child then Some (empty_list (previous_siblings p))
  else if str_eqb c n_last_child then Some (empty_list (next_siblings p))
  else if str_eqb c n_only_child then Some (empty_list (next_siblings p) && empty_list (previous_siblings p))
  else if str_eqb c n_first_of_type then Some (negb (existsb (same_name p) (previous_siblings p)))
  else if str_eqb c n_last_of_type then Some (negb (existsb (same_name p) (next_siblings p)))
  else if str_eqb c n_empty then Some (empty_list (e_children e))
  else None.

(** css.py:624-651, one attribute selector. *)
Definition match_attr (e : elem) (x : attrsel) : bool :=
  match sget (e_attrs e) (as_name x) with
  | None => false
  | Some value =>
      match as_op x, as_text x with
      | Some operator, Some text =>
          if empty_list operator || empty_list text then true
          else
            let fold := match as_flag x with Some f => str_eqb f [105] || str_eqb f [73] | None => false end in
            let text := if fold then lower text else text in
            let value := if fold then lower value else value in
            if str_eqb operator op_eq then str_eqb text value
            else if str_eqb operator op_word then smem text (s_split value)
            else if str_eqb operator op_dash then str_eqb text value || s_startswith (text ++ [45]) value
            else if str_eqb operator op_pre then s_startswith text value
            else if str_eqb operator op_suf then s_endswith text value
            else if str_eqb operator op_sub then s_contains text value
            else true
      | _, _ => true
      end
  end.

(** css.py:606-667 [match_selector], for the element [e] that is at the path. *)
Definition match_selector_of (e : elem) (p : epath) (s : selector) : bool :=
  forallb (fun c => smem c (get_classes e)) (s_class s) &&
  forallb (fun n => str_eqb n (e_name e)) (s_element s) &&
  forallb (fun i => match get_id e with Some j => str_eqb i j | None => false end) (s_id s) &&
  forallb (match_attr e) (s_attr s) &&
  forallb (fun c => match pseudo_class e p c with Some b => b | None => smem c (e_pclasses e) end) (s_pclass s) &&
  forallb (fun c => smem c (e_pelements e)) (s_pelement s).
Definition match_selector (p : epath) (s : selector) : bool :=
  match elem_at root p with Some e => match_selector_of e p s | None => false end.

(** [element.match_selector(sel)] for an item of the list: an [AttributeError] ([None]) when it is an operator. *)
Definition match_item (p : epath) (i : item) : option bool :=
  match i with Sel s => Some (match_selector p s) | Op _ => None end.
(** The first of the candidates that matches. *)
Fixpoint first_match (i : item) (l : list epath) : option (option epath) :=
  match l with
  | [] => Some None
  | p :: l =>
      match match_item p i with
      | None => None
      | Some true => Some (Some p)
      | Some false => first_match i l
      end
  end.
(** css.py:574-600: the elements an operator looks at. *)
Definition candidates (op : item) (p : epath) : list epath :=
  match op with
  | Op o =>
      if str_eqb o op_child then match get_parent p with Some q => [q] | None => [] end
      else if str_eqb o op_desc then ancestors p
      else if str_eqb o op_next then firstn 1 (previous_siblings p)
      else previous_siblings p
  | Sel _ => previous_siblings p
  end.
(** css.py:573-604: the loop, over what remains of the reversed list. *)
Fixpoint match_loop (p : epath) (its : list item) : option bool :=
  match its with
  | op :: ((sel :: rest) as its') =>
      if item_true op && item_true sel then
        match first_match sel (candidates op p) with
        | None => None
        | Some None => Some false
        | Some (Some q) => match_loop q rest
        end
      else Some true
  | _ => Some true
  end.
(** css.py:563-604 [match_selectors]. *)
Definition match_selectors (p : epath) (sels : list item) : option bool :=
  match rev sels with
  | [] => Some false
  | sel :: rest =>
      if negb (item_true sel) then Some false
      else
        match match_item p sel with
        | None => None
        | Some false => Some false
        | Some true => match_loop p rest
        end
  end.
(** css.py:559-561 [match]. *)
Fixpoint match_prelude (p : epath) (prelude : list (list item)) : option bool :=
  match prelude with
  | [] => Some false
  | sels :: prelude =>
      match match_selectors p sels with
      | None => None
      | Some true => Some true
      | Some false => match_prelude p prelude
      end
  end.
End Tree.

(** ** Rules *)
Section Rules.
(** What a value is does not matter here, but for being ['!important']. *)
Variable V : Type.
Inductive pval := Important | Val (v : V).
Definition is_important (v : pval) : bool := match v with Important => true | Val _ => false end.

Record rule := mkrule { r_prelude : list (list item); r_props : list (str * list pval) }.
(** css.py:121-150: the rules of a sheet; a condition has a keyword, its contents and a sheet of its own. An [@] rule
    that is no condition is kept by its keyword only. *)
Inductive entry :=
  | ERule (r : rule)
  | EAt (keyword : str)
  | ECond (keyword : str) (contents : list nat) (rules : list entry).

Definition spec3 := (nat * nat * nat)%type.
Definition spec_lt (a b : spec3) : bool :=
  let '(a1, a2, a3) := a in
  let '(b1, b2, b3) := b in
  (a1 <? b1) || ((a1 =? b1) && ((a2 <? b2) || ((a2 =? b2) && (a3 <? b3)))).
Definition spec_le (a b : spec3) : bool := negb (spec_lt b a).
(** css.py:1374-1382: the counts of one selector list. *)
Fixpoint spec_of (sels : list item) : spec3 :=
  match sels with
  | [] => (0, 0, 0)
  | Op _ :: sels => spec_of sels
  | Sel s :: sels =>
      let '(i, c, e) := spec_of sels in
      (length (s_id s) + i,
       length (s_attr s) + length (s_class s) + length (s_pclass s) + c,
       length (s_element s) + length (s_pelement s) + e)
  end.
(** [max(specificities)]; a [ValueError] for an empty prelude. *)
Fixpoint max_spec (l : list spec3) : option spec3 :=
  match l with
  | [] => None
  | s :: l => match max_spec l with None => Some s | Some m => Some (if spec_lt s m then m else s) end
  end.
(** css.py:1362-1383 [calculate_specificity]. *)
Definition specificity (prelude : list (list item)) : option spec3 := max_spec (map spec_of prelude).

(** css.py:336-341: the rules, also those in conditions. *)
Fixpoint get_rules1 (r : entry) : list rule :=
  match r with
  | ERule r => [r]
  | EAt _ => []
  | ECond _ _ rs => flat_map get_rules1 rs
  end.
Definition get_rules (rs : list entry) : list rule := flat_map get_rules1 rs.
(** [sorted(rules, key=...)] is a stable sort: a rule comes after the rules before it that are not higher. The keys
    are computed first. *)
Fixpoint insert_rule {R} (x : spec3 * R) (l : list (spec3 * R)) : list (spec3 * R) :=
  match l with
  | [] => [x]
  | y :: l => if spec_lt (fst y) (fst x) then y :: insert_rule x l else x :: y :: l
  end.
Fixpoint sort_rules {R} (l : list (spec3 * R)) : list (spec3 * R) :=
  match l with [] => [] | x :: l => insert_rule x (sort_rules l) end.
Fixpoint with_keys (l : list rule) : option (list (spec3 * rule)) :=
  match l with
  | [] => Some []
  | r :: l =>
      match specificity (r_prelude r), with_keys l with
      | Some s, Some l => Some ((s, r) :: l)
      | _, _ => None
      end
  end.
(** css.py:329-345 [StyleSheet.style]: the rules of the style. *)
Definition style (rs : list entry) : option (list rule) :=
  option_map (fun l => rev (map snd (sort_rules l))) (with_keys (get_rules rs)).

(** css.py:380-384 [select_element]. *)
Fixpoint select_element (root : elem) (p : epath) (rules : list rule) : option (list rule) :=
  match rules with
  | [] => Some []
  | r :: rules =>
      match match_prelude root p (r_prelude r) with
      | None => None
      | Some b => option_map (fun l => if b then r :: l else l) (select_element root p rules)
      end
  end.

(** css.py:391-411 [properties]: the result and the names of the important properties; [value[-1]] raises an
    [IndexError] for a property with an empty list. *)
Definition add_prop (st : list (str * list pval) * list str) (kv : str * list pval)
  : option (list (str * list pval) * list str) :=
  let '(result, imp) := st in
  let '(key, value) := kv in
  match last_opt value with
  | None => None
  | Some l =>
      let important := is_important l in
      let value := if important then removelast value else value in
      match sget result key with
      | None => Some (sset result key value, imp)
      | Some _ =>
          if important && negb (smem key imp) then Some (sset result key value, imp ++ [key])
          else Some (result, imp)
      end
  end.
Fixpoint add_props (st : list (str * list pval) * list str) (kvs : list (str * list pval))
  : option (list (str * list pval) * list str) :=
  match kvs with
  | [] => Some st
  | kv :: kvs => match add_prop st kv with None => None | Some st => add_props st kvs end
  end.
Definition properties (rules : list rule) : option (list (str * list pval)) :=
  option_map fst (add_props ([], []) (flat_map r_props rules)).
End Rules.
End Css.
Arguments Important {V}.
Arguments Val {V}.
Arguments mkrule {V}.
Arguments r_prelude {V}.
Arguments r_props {V}.
Arguments ERule {V}.
Arguments EAt {V}.
Arguments ECond {V}.
