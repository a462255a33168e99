(** Model of parce/validate.py: checking default targets, and validating a lexicon. *)
From Verif Require Import Base TargetModel RuleValues RuleItemModel.
From Coq Require Import ZArith.

Section Check.
Variable L : Type.

(** What stands in a default target: an integer or a lexicon, or something else. *)
Inductive titem := TItem (r : ritem L) | TOther.

(** The default target of a lexicon, if it has one (parce/validate.py:173-177: the first rule with the pattern [default_target]).
    Simplified: unpacking a rule that is not a sequence, or that is empty, raises an exception there. *)
Variable default_of : L -> option (list titem).

(** parce/validate.py:121-123 [Context]: an object with a lexicon.  The number tells objects apart: it is the number of contexts that
    were made before. *)
Notation ctx := (nat * L)%type.

(** How the check ends.  [VLeft]: 141-142, nothing is reported.  [VOther]: 148-150, an error.  [VSelf]: 155-157, an error.  [VHandled]:
    165-167, a warning.  [VRunaway]: 168-170, an error.  [VEnd]: 176-177, nothing is reported. *)
Inductive verdict := VLeft | VOther (l : L) | VSelf (l : L) | VHandled (l : L) | VRunaway (l : L) | VEnd.
Definition is_error (v : verdict) : bool := match v with VOther _ | VSelf _ | VRunaway _ => true | _ => false end.
Definition is_warning (v : verdict) : bool := match v with VHandled _ => true | _ => false end.

(** parce/validate.py:144-145 *)
Fixpoint new_ctxs (next : nat) (l : L) (n : nat) : list ctx :=
  match n with 0 => [] | S n => (next, l) :: new_ctxs (S next) l n end.

(** parce/validate.py:138-152, the loop over the items of the target *)
Fixpoint chk_items (l : L) (items : list titem) (st : list ctx) (next : nat) : verdict + list ctx * nat :=
  match items with
  | [] => inr (st, next)
  | TOther :: _ => inl (VOther l)
  | TItem (RInt z) :: items =>
      if (z <? 0)%Z then
        if (Z.of_nat (length st) + z <? 1)%Z then inl VLeft else chk_items l items (drop_last (Z.to_nat (- z)) st) next
      else chk_items l items (st ++ new_ctxs next l (Z.to_nat z)) (next + Z.to_nat z)
  | TItem (RLex l') :: items => chk_items l items (st ++ [(next, l')]) (S next)
  end.

(** [circular.add(context)] *)
Definition add_id (n : nat) (circ : list nat) : list nat := if existsb (Nat.eqb n) circ then circ else n :: circ.

(** parce/validate.py:134-177, the loop.  None: not ended yet.  The names of the lexicons in the messages are not modelled. *)
Fixpoint chk_loop (fuel : nat) (st : list ctx) (next : nat) (context : ctx) (circ : list nat) (warn : bool) (target : list titem) : option verdict :=
  match fuel with
  | 0 => None
  | S fuel =>
      let circ := add_id (fst context) circ in
      match chk_items (snd context) target st next with
      | inl v => Some v
      | inr (st, next) =>
          match last_opt st with
          | None => None
          | Some new =>
              if fst new =? fst context then Some (VSelf (snd new))
              else
                let warn := warn || existsb (Nat.eqb (fst new)) circ in
                if 100 <? length circ then Some (if warn then VHandled (snd new) else VRunaway (snd new))
                else match default_of (snd new) with
                     | None => Some VEnd
                     | Some target => chk_loop fuel st next new circ warn target
                     end
          end
      end
  end.

(** parce/validate.py:114-177 [check_default_target] *)
Definition check (fuel : nat) (l : L) (target : list titem) : option verdict := chk_loop fuel [(0, l)] 1 (0, l) [] false target.
End Check.
Arguments TItem {L}. Arguments TOther {L}. Arguments VLeft {L}. Arguments VOther {L}. Arguments VSelf {L}. Arguments VHandled {L}.
Arguments VRunaway {L}. Arguments VEnd {L}. Arguments is_error {L}. Arguments is_warning {L}. Arguments new_ctxs {L}. Arguments chk_items {L}. Arguments chk_loop {L}. Arguments check {L}.

(** ** Validating the rules of a lexicon *)
Section Validate.
(** Regular expressions, and whether [re.compile] accepts them. *)
Variable P : Type.
Variable compiles : P -> bool.
(** Lexicons as in rules: with the argument they are derived with. *)
Notation lexicon := (nat * option pv)%type.

(** A rule: not a list or tuple, or one without items; or a pattern and the rest.  Patterns are [default_action], [default_target], None or
    a regular expression. *)
Inductive vpat := PAction | PTarget | PNone | PRegex (p : P).
Inductive vrule := RBad | RSeq (p : vpat) (rest : list obj).

(** [isinstance(t, int)], [isinstance(t, Lexicon)] *)
Definition titem_of (o : obj) : titem lexicon :=
  match o with
  | OAtom a => match as_int a with
               | Some z => TItem (RInt z)
               | None => match a with ALex l arg => TItem (RLex (l, arg)) | _ => TOther end
               end
  | _ => TOther
  end.
(** The default target of a lexicon: parce/validate.py:173-177, see [default_of] above. *)
Fixpoint first_target (rules : list vrule) : option (list (titem lexicon)) :=
  match rules with
  | [] => None
  | RSeq PTarget rest :: _ => Some (map titem_of rest)
  | _ :: rules => first_target rules
  end.
(** [bool(o)]; rule items and the other objects are true. *)
Definition obj_truth (o : obj) : bool := match o with OAtom a => truth (PA a) | OSeq [] => false | _ => true end.

(** parce/validate.py:109, the condition *)
Definition valid_target (t : vobj) : bool :=
  match t with
  | ANumber => true
  | VObj (OAtom a) => match as_int a with Some _ => true | None => match a with ALex _ _ => true | _ => false end end
  | _ => false
  end.
(** The errors, with the number of the rule. *)
Inductive verr := ERule (n : nat) | EActions (n : nat) | ETargets (n : nat) | ERegex (n : nat) | EInvalid (n : nat) | EBoth | EDefault (v : verdict lexicon).
(** parce/validate.py:99-110 [validate_rule]; None: [variations] raises an exception. *)
Definition validate_rule (rest : list obj) (n : nat) : option (list verr) :=
  match variations rest with
  | None => None
  | Some paths => Some (flat_map (fun path => map (fun _ => EInvalid n) (filter (fun t => negb (valid_target t)) (tl path))) paths)
  end.

Variable rules_of : lexicon -> list vrule.
(** parce/validate.py:55-84, the loop over the rules.  [act]: [default_act] is set and true; [tg]: [default_tg] is set (it is a list with at
    least one item, so it is true).  Gives the errors, and [act] and [tg] at the end.  Warnings about patterns are not modelled; [errors] is a
    list here, of which only the emptiness matters. *)
Fixpoint val_rules (fuel : nat) (l : lexicon) (n : nat) (act tg : bool) (rules : list vrule) : option (list verr * bool * bool) :=
  match rules with
  | [] => Some ([], act, tg)
  | rule :: rules =>
      match
        match rule with
        | RBad | RSeq _ [] => Some ([ERule n], act, tg)
        | RSeq PAction (a :: _) => if act then Some ([EActions n], act, tg) else Some ([], obj_truth a, tg)
        | RSeq PTarget rest =>
            if tg then Some ([ETargets n], act, tg)
            else match check (fun l => first_target (rules_of l)) fuel l (map titem_of rest) with
                 | Some v => Some (if is_error v then [EDefault v] else [], act, true)
                 | None => None
                 end
        | RSeq PNone rest => match validate_rule rest n with Some errs => Some (errs, act, tg) | None => None end
        | RSeq (PRegex p) rest =>
            match validate_rule rest n with
            | Some errs => Some ((if compiles p then [] else [ERegex n]) ++ errs, act, tg)
            | None => None
            end
        end
      with
      | None => None
      | Some (errs, act, tg) =>
          match val_rules fuel l (S n) act tg rules with
          | None => None
          | Some (errs', act, tg) => Some (errs ++ errs', act, tg)
          end
      end
  end.
(** parce/validate.py:46-88 [validate]: the errors; it returns whether there are none.  None: an exception, or not ended with this fuel. *)
Definition validate (fuel : nat) (l : lexicon) : option (list verr) :=
  match val_rules fuel l 1 false false (rules_of l) with
  | None => None
  | Some (errs, act, tg) => Some (errs ++ if act && tg then [EBoth] else [])
  end.
End Validate.
Arguments PAction {P}. Arguments PTarget {P}. Arguments PNone {P}. Arguments PRegex {P}. Arguments RBad {P}. Arguments RSeq {P}.
Arguments first_target {P}. Arguments val_rules {P}. Arguments validate {P}.
