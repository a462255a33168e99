(** What it is for the variations of a rule to list a result. *)
From Verif Require Import Base RuleValues RuleItemModel RuleItemSpec.
From Coq Require Import ZArith.

(** The actions and targets that a result comes down to: an action [using(lexicon)] is listed as its lexicon, of an action
    [bygroup(...)] any one of its actions, for any subgroup and match; [skip] has no action.  A pattern is a string or None. *)
Inductive outcome : rv -> list atom -> Prop :=
| out_atom a : outcome (RAtom a) [a]
| out_tup l out : outcomes l out -> outcome (RTup l) out
| out_pattern a : (a = ANone \/ exists s, a = AStr s) -> outcome (RPat (RAtom a)) [a]
| out_using r out : outcome r out -> outcome (RUsing r) out
| out_skip : outcome RSkip []
| out_sub fs f text m r out : In f fs -> f text m = Some r -> outcome r out -> outcome (RSub fs) out
with outcomes : list rv -> list atom -> Prop :=
| outs_nil : outcomes [] []
| outs_cons r l out outs : outcome r out -> outcomes l outs -> outcomes (r :: l) (out ++ outs).

(** An entry of a variation stands for an object: for itself, any number, any string; a lexicon also for what is derived from it. *)
Definition listed (a : atom) (v : vobj) : Prop :=
  match v with
  | VObj (OAtom b) => a = b \/ exists l x y, a = ALex l x /\ b = ALex l y
  | VObj _ => False
  | ANumber => exists z, as_int a = Some z
  | AString => exists s, a = AStr s
  end.

(** Lexicons, or a choice of them. *)
Fixpoint lex_only (o : obj) : Prop :=
  match o with
  | OAtom (ALex _ _) => True
  | OSelect _ l => fold_right (fun o P => lex_only o /\ P) True l
  | _ => False
  end.
(** Rules for which variations are claimed to be complete: without [skip], without empty [bygroup()]; the value of a [target] is a
    number, a pair with as index a literal number that is in range, or an item; calls and variables do not stand in a rule themselves;
    patterns are items or strings. *)
Fixpoint var_ok (o : obj) : Prop :=
  match o with
  | OAtom _ => True
  | OSeq l => fold_right (fun o P => var_ok o /\ P) True l
  | OVar _ | OCall _ _ | OSkip => False
  | OSelect _ l => fold_right (fun o P => var_ok o /\ P) True l
  | OTarget value lexicons =>
      fold_right (fun o P => lex_only o /\ P) True lexicons /\
      match value with
      | OAtom a => as_int a <> None
      | OSeq [OAtom a; _] => exists i x, as_int a = Some i /\ py_get lexicons i = Some x
      | OSeq _ => False
      | _ => True
      end
  | OPattern v => match v with OAtom _ => True | OSeq _ => False | _ => True end
  | OSub l => l <> [] /\ fold_right (fun o P => var_ok o /\ P) True l
  | ODelegate v => var_ok v
  end.
(** No list or tuple stands directly in the rule. *)
Definition flat_rule (rule : list obj) : Prop := Forall (fun o => match o with OSeq _ => False | _ => True end) rule.
