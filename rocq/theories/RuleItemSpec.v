(** What rule items mean: the value of an item when the argument, the text and the match are known. *)
From Verif Require Import Base RuleValues RuleItemModel.
From Coq Require Import ZArith.

(** The result of an item: a value, several values, a pattern, an action [using(lexicon)], [skip], or an action [bygroup(...)]: for
    every subgroup, what its action is, given the text of the subgroup and the match. *)
Inductive rv :=
| RAtom (a : atom)
| RTup (l : list rv)
| RPat (r : rv)
| RUsing (r : rv)
| RSkip
| RSub (l : list (pv -> pv -> option rv)).

Fixpoint rv_of (v : pv) : rv := match v with PA a => RAtom a | PTup l => RTup (map rv_of l) end.
Fixpoint pv_of (r : rv) : option pv :=
  match r with
  | RAtom a => Some (PA a)
  | RTup l => match omap pv_of l with Some l => Some (PTup l) | None => None end
  | _ => None
  end.
Definition rint (r : rv) : option Z := match r with RAtom a => as_int a | _ => None end.

(** The known values. *)
Record env := Env { e_arg : option pv; e_text : option pv; e_match : option pv }.
Definition e_get (e : env) (x : var) : option pv := match x with VArg => e_arg e | VText => e_text e | VMatch => e_match e end.

Section Denote.
Variable peq : pv -> pv -> bool.
Variable escape_str : str -> str.
Variable other : nat -> list pv -> option pv.

Definition rcall (f : rv) (args : list rv) : option rv :=
  match pv_of f, omap pv_of args with
  | Some f, Some args => match call_pv peq escape_str other f args with Some r => Some (rv_of r) | None => None end
  | _, _ => None
  end.

(** None: there is no value. *)
Fixpoint denote (e : env) (o : obj) : option rv :=
  match o with
  | OAtom a => Some (RAtom a)
  | OSeq l => match omap (denote e) l with Some l => Some (RTup l) | None => None end
  | OVar x => match e_get e x with Some v => Some (rv_of v) | None => None end
  | OCall p args => match denote e p, omap (denote e) args with Some p, Some args => rcall p args | _, _ => None end
  | OSelect index items =>
      match denote e index with
      | Some r => match rint r with
                  | Some i => match py_get (map (denote e) items) i with Some r => r | None => None end
                  | None => None
                  end
      | None => None
      end
  | OTarget value lexicons =>
      match denote e value with
      | Some (RTup [index; arg]) =>
          match rint index with
          | Some i => match py_get (map (denote e) lexicons) i with
                      | Some (Some lexicon) => match arg with RAtom ANone => Some lexicon | _ => rcall lexicon [arg] end
                      | _ => None
                      end
          | None => None
          end
      | Some r => match rint r with Some _ => Some r | None => None end
      | None => None
      end
  | OPattern v => match denote e v with Some r => Some (RPat r) | None => None end
  | ODelegate v => match denote e v with Some r => Some (RUsing r) | None => None end
  | OSkip => Some RSkip
  | OSub actions => Some (RSub (map (fun a text m => denote (Env (e_arg e) (Some text) (Some m)) a) actions))
  end.

(** A rule: tuples are unrolled. *)
Fixpoint flat (r : rv) : list rv := match r with RTup l => flat_map flat l | _ => [r] end.
Definition denote_rule (e : env) (rule : list obj) : option (list rv) :=
  match omap (denote e) rule with Some l => Some (flat_map flat l) | None => None end.
End Denote.

(** The same result; for subgroups, the same for every text and match. *)
Definition all2 {A} (R : A -> A -> Prop) : list A -> list A -> Prop :=
  fix go (l l' : list A) : Prop :=
    match l, l' with [], [] => True | x :: l, y :: l' => R x y /\ go l l' | _, _ => False end.
Fixpoint same (r r' : rv) {struct r} : Prop :=
  match r, r' with
  | RAtom a, RAtom b => a = b
  | RTup l, RTup l' => all2 same l l'
  | RPat r, RPat r' | RUsing r, RUsing r' => same r r'
  | RSkip, RSkip => True
  | RSub l, RSub l' =>
      all2 (fun f g => forall text m, match f text m, g text m with
                                      | Some r, Some r' => same r r'
                                      | None, None => True
                                      | _, _ => False
                                      end) l l'
  | _, _ => False
  end.
Definition same_opt (a b : option rv) : Prop :=
  match a, b with Some r, Some r' => same r r' | None, None => True | _, _ => False end.

(** The variables in an object are all known. *)
Fixpoint known (k : var -> bool) (o : obj) : Prop :=
  match o with
  | OAtom _ | OSkip => True
  | OVar x => k x = true
  | OSeq l | OSub l => fold_right (fun o P => known k o /\ P) True l
  | OCall p l | OSelect p l | OTarget p l => known k p /\ fold_right (fun o P => known k o /\ P) True l
  | OPattern v | ODelegate v => known k v
  end.

(** Which objects may stand where.  [no_post]: without postponed items, as in patterns, and in the lexicons of [using] and [target].
    [item_ok]: what may stand in a rule, so not [call(...)] or [TEXT] itself (parce/ruleitem.py:93-103). *)
Fixpoint no_post (o : obj) : Prop :=
  match o with
  | OAtom _ | OVar _ => True
  | OSeq l => fold_right (fun o P => no_post o /\ P) True l
  | OCall p args => no_post p /\ fold_right (fun o P => no_post o /\ P) True args
  | OSelect i l | OTarget i l => no_post i /\ fold_right (fun o P => no_post o /\ P) True l
  | OPattern _ | OSub _ | ODelegate _ | OSkip => False
  end.
Fixpoint item_ok (o : obj) : Prop :=
  match o with
  | OAtom _ | OSkip => True
  | OSeq l | OSub l => fold_right (fun o P => item_ok o /\ P) True l
  | OSelect i l => no_post i /\ fold_right (fun o P => item_ok o /\ P) True l
  | OTarget v l => no_post v /\ fold_right (fun o P => no_post o /\ P) True l
  | OPattern v | ODelegate v => no_post v
  | OVar _ | OCall _ _ => False
  end.
(** The lexicons in [using(...)], and patterns, are not [call(...)] or [TEXT] themselves. *)
Fixpoint using_ok (o : obj) : Prop :=
  match o with
  | ODelegate v | OPattern v => item_ok v
  | OSeq l | OSub l | OSelect _ l => fold_right (fun o P => using_ok o /\ P) True l
  | _ => True
  end.
(** Nothing is left to evaluate (subgroup actions are evaluated for every subgroup). *)
Fixpoint static (o : obj) : Prop :=
  match o with
  | OAtom _ | OSkip | OSub _ => True
  | OSeq l => fold_right (fun o P => static o /\ P) True l
  | OPattern v | ODelegate v => static v
  | OVar _ | OCall _ _ | OSelect _ _ | OTarget _ _ => False
  end.
(** The same results, or none in both. *)
Definition same_list (a b : option (list rv)) : Prop :=
  match a, b with Some l, Some l' => Forall2 same l l' | None, None => True | _, _ => False end.
