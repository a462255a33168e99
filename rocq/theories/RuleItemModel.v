(** Model of parce/ruleitem.py: rule items, [evaluate], [pre_evaluate], rules and variations; and of the helpers in
    parce/rule.py. *)
From Verif Require Import Base RuleValues.
From Coq Require Import ZArith.

(** Names in the namespace. *)
Inductive var := VArg | VText | VMatch.

(** Objects in a rule.  [OSeq] is a list or tuple (lists and tuples are not distinguished: [evaluate] makes tuples of both). *)
Inductive obj :=
| OAtom (a : atom)
| OSeq (l : list obj)
| OVar (x : var)                                   (* VariableItem *)
| OCall (p : obj) (args : list obj)                (* call *)
| OSelect (index : obj) (items : list obj)         (* select *)
| OTarget (value : obj) (lexicons : list obj)      (* target *)
| OPattern (v : obj)                               (* pattern *)
| OSub (actions : list obj)                        (* SubgroupAction *)
| ODelegate (lexicon : obj)                        (* DelegateAction *)
| OSkip.                                           (* SkipAction *)

(** [isinstance(obj, Item)] and [isinstance(obj, RuleItem)] *)
Definition is_item (o : obj) : bool := match o with OAtom _ | OSeq _ => false | _ => true end.
Definition is_rule_item (o : obj) : bool := match o with OAtom _ | OSeq _ | OVar _ | OCall _ _ => false | _ => true end.

(** Values as objects, and objects without items as values. *)
Fixpoint of_pv (v : pv) : obj := match v with PA a => OAtom a | PTup l => OSeq (map of_pv l) end.
Fixpoint to_pv (o : obj) : option pv :=
  match o with
  | OAtom a => Some (PA a)
  | OSeq l => match omap to_pv l with Some l => Some (PTup l) | None => None end
  | _ => None
  end.

(** A namespace. *)
Definition ns := var -> option pv.

Section Eval.
Variable peq : pv -> pv -> bool.
Variable escape_str : str -> str.
Variable other : nat -> list pv -> option pv.

(** Calling a predicate with arguments, [lexicon(arg)].  Functions that are called with rule items as arguments are not modelled (None). *)
Definition apply (f : obj) (args : list obj) : option obj :=
  match to_pv f, omap to_pv args with
  | Some f, Some args => match call_pv peq escape_str other f args with Some r => Some (of_pv r) | None => None end
  | _, _ => None
  end.

(** The integer an object is, if it is one ([isinstance(value, int)]). *)
Definition int_of (o : obj) : option Z := match o with OAtom a => as_int a | _ => None end.

(** The two-bit success value: (complete, unchanged). *)
Definition flags := (bool * bool)%type.
Definition fl_and (a b : flags) : flags := (fst a && fst b, snd a && snd b).

(** parce/ruleitem.py:484-509 [pre_evaluate] of a list or tuple, given what it gives for the items.  None: an exception. *)
Fixpoint pre_seq (l : list (option (obj * flags))) : option (list obj * flags) :=
  match l with
  | [] => Some ([], (true, true))
  | Some (o, ok) :: l => match pre_seq l with Some (os, oks) => Some (o :: os, fl_and ok oks) | None => None end
  | None :: _ => None
  end.

(** parce/ruleitem.py:484-509 [pre_evaluate], with the methods: 70-91 (VariableItem uses that of Item), 151-160 (call), 193-203
    (select), 238-254 (target), 300-308 (PostponedItem, used by pattern and DelegateAction; SkipAction has no items to
    evaluate), 392-395 (SubgroupAction). *)
Fixpoint pre_evaluate (n : ns) (o : obj) : option (obj * flags) :=
  match o with
  | OAtom _ => Some (o, (true, true))
  | OSeq l => match pre_seq (map (pre_evaluate n) l) with Some (l, ok) => Some (OSeq l, ok) | None => None end
  | OVar x => match n x with Some v => Some (of_pv v, (true, false)) | None => Some (o, (false, true)) end
  | OCall p args =>
      match pre_evaluate n p, pre_seq (map (pre_evaluate n) args) with
      | Some (p', pred_ok), Some (args', arg_ok) =>
          let ok := fl_and pred_ok arg_ok in
          if fst ok then match apply p' args' with Some r => Some (r, (true, false)) | None => None end
          else if snd ok then Some (o, (false, true)) else Some (OCall p' args', (false, false))
      | _, _ => None
      end
  | OSelect index items =>
      match pre_evaluate n index with
      | None => None
      | Some (index', ok) =>
          if fst ok then
            match int_of index' with
            | None => None
            | Some i => match py_get (map (pre_evaluate n) items) i with
                        | Some (Some (item, ok)) => Some (item, (fst ok, false))
                        | _ => None
                        end
            end
          else
            match pre_seq (map (pre_evaluate n) items) with
            | None => None
            | Some (items', items_ok) =>
                let ok := fl_and ok items_ok in
                if snd ok then Some (o, (false, true)) else Some (OSelect index' items', (false, false))
            end
      end
  | OTarget value lexicons =>
      match pre_evaluate n value with
      | None => None
      | Some (value', ok) =>
          if fst ok then
            match int_of value' with
            | Some _ => Some (value', (true, false))
            | None =>
                match value' with
                | OSeq [index; arg] =>
                    match int_of index with
                    | None => None
                    | Some i =>
                        match py_get (map (pre_evaluate n) lexicons) i with
                        | Some (Some (lexicon, ok)) =>
                            if fst ok
                            then match arg with
                                 | OAtom ANone => Some (lexicon, (true, false))
                                 | _ => match apply lexicon [arg] with Some r => Some (r, (true, false)) | None => None end
                                 end
                            else Some (OTarget (OSeq [OAtom (AInt 0); arg]) [lexicon], (false, false))
                        | _ => None
                        end
                    end
                | _ => None
                end
            end
          else
            match pre_seq (map (pre_evaluate n) lexicons) with
            | None => None
            | Some (lexicons', l_ok) =>
                let ok := fl_and ok l_ok in
                if snd ok then Some (o, ok) else Some (OTarget value' lexicons', ok)
            end
      end
  | OPattern v => match pre_evaluate n v with
                  | Some (v', ok) => Some (if snd ok then o else OPattern v', ok)
                  | None => None
                  end
  | ODelegate v => match pre_evaluate n v with
                   | Some (v', ok) => Some (if snd ok then o else ODelegate v', ok)
                   | None => None
                   end
  | OSub actions => match pre_seq (map (pre_evaluate n) actions) with
                    | Some (actions', ok) => Some (if snd ok then o else OSub actions', ok)
                    | None => None
                    end
  | OSkip => Some (o, (true, true))
  end.

(** parce/ruleitem.py:450-462 [evaluate], with the methods: 127-132 (VariableItem), 145-149 (call), 187-191 (select), 229-236
    (target), 289-298 (PostponedItem: pattern and DelegateAction; SubgroupAction and SkipAction have no items to evaluate).
    None: an exception.  Of the items of [select] and the lexicons of [target] only the chosen one matters. *)
Fixpoint evaluate (n : ns) (o : obj) : option obj :=
  match o with
  | OAtom _ => Some o
  | OSeq l => match omap (evaluate n) l with Some l => Some (OSeq l) | None => None end
  | OVar x => match n x with Some v => Some (of_pv v) | None => None end
  | OCall p args =>
      match evaluate n p, omap (evaluate n) args with Some p, Some args => apply p args | _, _ => None end
  | OSelect index items =>
      match evaluate n index with
      | Some index => match int_of index with
                      | Some i => match py_get (map (evaluate n) items) i with Some r => r | None => None end
                      | None => None
                      end
      | None => None
      end
  | OTarget value lexicons =>
      match evaluate n value with
      | None => None
      | Some value =>
          match int_of value with
          | Some _ => Some value
          | None =>
              match value with
              | OSeq [index; arg] =>
                  match int_of index with
                  | None => None
                  | Some i => match py_get (map (evaluate n) lexicons) i with
                              | Some (Some lexicon) =>
                                  match arg with OAtom ANone => Some lexicon | _ => apply lexicon [arg] end
                              | _ => None
                              end
                  end
              | _ => None
              end
          end
      end
  | OPattern v => match pre_evaluate n v with Some (v', ok) => Some (if snd ok then o else OPattern v') | None => None end
  | ODelegate v => match pre_evaluate n v with Some (v', ok) => Some (if snd ok then o else ODelegate v') | None => None end
  | OSub _ => Some o
  | OSkip => Some o
  end.

(** parce/util.py:753-777 [unroll] *)
Fixpoint unroll (o : obj) : list obj := match o with OSeq l => flat_map unroll l | _ => [o] end.

(** parce/ruleitem.py:473-481 and 521-528: going through a rule; [f] is what is done with rule items. *)
Definition oapp {A} (a b : option (list A)) : option (list A) :=
  match a, b with Some a, Some b => Some (a ++ b) | _, _ => None end.
Fixpoint rule_obj (f : obj -> option obj) (o : obj) : option (list obj) :=
  match o with
  | OSeq l => fold_right (fun o r => oapp (rule_obj f o) r) (Some []) l
  | _ => if is_rule_item o then match f o with Some r => Some (unroll r) | None => None end else Some [o]
  end.
Definition rule_objs (f : obj -> option obj) (rule : list obj) : option (list obj) :=
  fold_right (fun o r => oapp (rule_obj f o) r) (Some []) rule.

Definition arg_ns (arg : pv) : ns := fun x => match x with VArg => Some arg | _ => None end.
Definition match_ns (text m : pv) : ns := fun x => match x with VText => Some text | VMatch => Some m | VArg => None end.

(** parce/ruleitem.py:465-481 [evaluate_rule] *)
Definition evaluate_rule (rule : list obj) (text m : pv) : option (list obj) := rule_objs (evaluate (match_ns text m)) rule.

(** parce/ruleitem.py:512-535 [pre_evaluate_rule] *)
Definition pre_evaluate_rule (rule : list obj) (arg : pv) : option (list obj) :=
  match rule_objs (fun o => match pre_evaluate (arg_ns arg) o with Some (r, _) => Some r | None => None end) rule with
  | Some (OPattern v :: rest) => Some (v :: rest)
  | r => r
  end.

(** parce/ruleitem.py:538-547 [needs_evaluation].  [OPattern] and [ODelegate] have items to evaluate, the other postponed items
    do not. *)
Fixpoint needs_evaluation1 (o : obj) : bool :=
  match o with
  | OPattern v | ODelegate v => needs_evaluation1 v
  | OSub _ | OSkip => false
  | OSelect _ _ | OTarget _ _ => true
  | OSeq l => existsb needs_evaluation1 l
  | OAtom _ | OVar _ | OCall _ _ => false
  end.
Definition needs_evaluation (rule : list obj) : bool := existsb needs_evaluation1 rule.

(** parce/lexicon.py:373-393: the action and target of a rule (without the pattern) when it matched; rules that need no evaluation
    are used as they are. *)
Definition use_rule (rule : list obj) (text m : pv) : option (list obj) :=
  if needs_evaluation rule then evaluate_rule rule text m else Some rule.
End Eval.

(** ** Variations *)
(** The objects a variation has: as in rules, or a sentinel. *)
Inductive vobj := VObj (o : obj) | ANumber | AString.

(** parce/ruleitem.py:568-580 [variations], one object at a time.  [variations_item] gives the variations that an item is replaced
    with: those of every object that its method [variations] yields (205-207 select, 256-271 target, 342-348 pattern, 385-387
    SubgroupAction, 426-428 DelegateAction, 444-447 SkipAction; the other items raise RuntimeError, 93-103), unrolled.  None: an
    exception. *)
Definition vprod (a b : option (list (list vobj))) : option (list (list vobj)) :=
  match a, b with
  | Some a, Some b => Some (flat_map (fun suffix => map (fun l => l ++ suffix) a) b)
  | _, _ => None
  end.
Definition vsum (l : list (option (list (list vobj)))) : option (list (list vobj)) := fold_right oapp (Some []) l.
Definition vseq (l : list (option (list (list vobj)))) : option (list (list vobj)) := fold_right vprod (Some [[]]) l.

(** [vars o]: the variations of [unroll(o)]. *)
Fixpoint vars (o : obj) : option (list (list vobj)) :=
  match o with
  | OAtom _ => Some [[VObj o]]
  | OSeq l => vseq (map vars l)
  | OVar _ | OCall _ _ => None
  | OSelect _ items => vsum (map vars items)
  | OTarget value lexicons =>
      match value with
      | OAtom a => match as_int a with Some _ => Some [[VObj value]] | None => None end
      | OSeq [OAtom a; _] => match as_int a with
                             | Some i => match py_get (map vars lexicons) i with Some r => r | None => None end
                             | None => None
                             end
      | OSeq _ => None
      | _ => oapp (Some [[ANumber]]) (vsum (map vars lexicons))
      end
  | OPattern v => if is_item v then Some [[VObj (OAtom ANone)]; [AString]] else vars v
  | OSub actions => vsum (map vars actions)
  | ODelegate lexicon => vars lexicon
  | OSkip => Some []
  end.
(** parce/ruleitem.py:568-580: the rule itself is not unrolled, so a list or tuple that stands directly in it is left as it is.  None is given
    also where the exception is not reached because a later item has no variations at all. *)
Definition variations (rule : list obj) : option (list (list vobj)) :=
  vseq (map (fun o => match o with OSeq _ => Some [[VObj o]] | _ => vars o end) rule).

(** ** Helpers (parce/rule.py) *)
Definition tARG := OVar VArg.
Definition tTEXT := OVar VText.
Definition tMATCH := OVar VMatch.
Definition OFun (f : fn) : obj := OAtom (AFun f).
(** 67: [MATCH[n]] *)
Definition match_group (n : nat) : obj := OCall (OFun FGroup) [tMATCH; OAtom (AInt (Z.of_nat n))].
(** 161-173 [ifeq], 176-178 [ifneq], 181-198 [ifmember], 201-216 [ifgroup] *)
Definition ifeq (a b result else_result : obj) : obj := OSelect (OCall (OFun FEq) [a; b]) [else_result; result].
Definition ifneq (a b result else_result : obj) : obj := OSelect (OCall (OFun FNe) [a; b]) [else_result; result].
Definition ifmember (item : obj) (sequence : list pv) (result else_result : obj) : obj :=
  OSelect (OCall (OFun FContains) [OAtom (ASet sequence); item]) [else_result; result].
Definition ifgroup (n : nat) (result else_result : obj) : obj :=
  OSelect (OCall (OFun FNe) [match_group n; OAtom ANone]) [else_result; result].
(** 219-252 [gselect]; None for an argument None (which is skipped).  [zip(... )] fails if there are no other arguments. *)
Fixpoint gsel_items (i : nat) (results : list (option obj)) : list (nat * obj) :=
  match results with
  | [] => []
  | Some r :: results => (i, r) :: gsel_items (S i) results
  | None :: results => gsel_items (S i) results
  end.
Definition gselect (results : list (option obj)) (default : obj) : option obj :=
  match gsel_items 1 results with
  | [] => None
  | l => Some (OSelect (OCall (OFun (FGsel (map fst l))) [tMATCH]) (map snd l ++ [default]))
  end.
(** 255-278 [dselect]; [mapping] has the keys and values of the dictionary *)
Definition dselect (item : obj) (mapping : list (pv * obj)) (default : obj) : obj :=
  OSelect (OCall (OFun (FDict (combine (map fst mapping) (seq 1 (length mapping))))) [item]) (default :: map snd mapping).
(** 282-297 [derive] *)
Definition derive (lexicon argument : obj) : obj := OTarget (OSeq [OAtom (AInt 0); argument]) [lexicon].
(** 300-327 [findmember].  [d] as pairs, the order of which does not matter. *)
Section FindMember.
Variable peq : pv -> pv -> bool.
Definition fm_step (acc : list (pv * nat) * list obj) (p : list pv * obj) : list (pv * nat) * list obj :=
  let '(d, items) := acc in
  let s := filter (fun x => negb (existsb (fun q => peq x (fst q)) d)) (fst p) in
  match s with
  | [] => acc
  | _ => (d ++ map (fun x => (x, length items)) s, items ++ [snd p])
  end.
Definition findmember (item : obj) (pairs : list (list pv * obj)) (default : obj) : obj :=
  let '(d, items) := fold_left fm_step pairs ([], [default]) in
  OSelect (OCall (OFun (FDict d)) [item]) items.
End FindMember.
(** 373-382 [pattern], 385-406 [arg], 409-420 [ifarg] *)
Definition arg (escape : bool) (prefix suffix : str) (default : option str) : obj :=
  OPattern (OCall (OFun (FArg escape prefix suffix default)) [tARG]).
Definition ifarg (pat : str) (else_pat : option str) : obj :=
  OPattern (OSelect (OCall (OFun FBool) [tARG]) [match else_pat with Some s => OAtom (AStr s) | None => OAtom ANone end; OAtom (AStr pat)]).
