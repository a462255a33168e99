(** Following default targets. *)
From Verif Require Import Base TargetModel TargetSpec RuleValues RuleItemModel ValidateModel.
From Coq Require Import ZArith.

Section Chain.
Variable L : Type.
Variable default_of : L -> option (list (titem L)).

(** Following the items of a target one by one, in lexicon [l]; None: the root is left, or there is something else than a number or lexicon. *)
Fixpoint walk (l : L) (items : list (titem L)) (stack : list L) : option (list L) :=
  match items with
  | [] => Some stack
  | TOther :: _ => None
  | TItem r :: items => match follow_item l stack r with [] => None | stack => walk l items stack end
  end.

(** From the open lexicons [start], after [n] default targets, the lexicons [stack] are open. *)
Inductive chain (start : list L) : nat -> list L -> Prop :=
| chain_start : chain start 0 start
| chain_next n stack l items stack' : chain start n stack -> last_opt stack = Some l -> default_of l = Some items ->
    walk l items stack = Some stack' -> chain start (S n) stack'.

(** The chain comes to a lexicon without default target. *)
Definition comes_to_end (start : list L) : Prop :=
  exists n stack l, chain start n stack /\ last_opt stack = Some l /\ default_of l = None.
(** It comes to a target that leaves the root; to a target with something else in it; it goes on forever. *)
Definition leaves_root (start : list L) : Prop :=
  exists n stack l before z after s, chain start n stack /\ last_opt stack = Some l /\ default_of l = Some (before ++ TItem (RInt z) :: after)
    /\ walk l before stack = Some s /\ follow_item l s (RInt z) = [].
Definition meets_other (start : list L) : Prop :=
  exists n stack l before after s, chain start n stack /\ last_opt stack = Some l /\ default_of l = Some (before ++ TOther :: after)
    /\ walk l before stack = Some s.
Definition endless (start : list L) : Prop := forall n, exists stack, chain start n stack.

(** The check of a lexicon with a default target gives verdict [v]; it is reported. *)
Definition gives (l : L) (v : verdict L) : Prop := exists items fuel, default_of l = Some items /\ check default_of fuel l items = Some v.
Definition reported (v : verdict L) : Prop := is_error v = true \/ is_warning v = true.

(** A target that does not both leave and enter. *)
Definition one_way (items : list (titem L)) : Prop :=
  Forall (fun i => match i with TItem (RInt z) => (z < 0)%Z | _ => False end) items
  \/ Forall (fun i => match i with TItem (RInt z) => (0 <= z)%Z | TItem (RLex _) => True | TOther => False end) items.
End Chain.
Arguments walk {L}. Arguments chain {L}. Arguments comes_to_end {L}. Arguments leaves_root {L}. Arguments meets_other {L}. Arguments endless {L}.
Arguments gives {L}. Arguments reported {L}. Arguments one_way {L}.

(** ** Rules that are in order *)
Section Rules.
Variable P : Type.
Variable compiles : P -> bool.
Variable rules_of : nat * option pv -> list (vrule P).

Definition is_default (r : vrule P) : bool := match r with RSeq PAction _ | RSeq PTarget _ => true | _ => false end.
Definition is_target (a : atom) : Prop := (exists z, as_int a = Some z) \/ (exists l arg, a = ALex l arg).
(** An entry of a variation that can be a target: a number or a lexicon. *)
Definition target_entry (v : vobj) : Prop := v = ANumber \/ exists a, v = VObj (OAtom a) /\ is_target a.

(** Every rule has a pattern and an action; there is at most one default action or default target; regular expressions can be compiled; all
    that the variations of a rule list after the action are targets; the default target is not found to be wrong. *)
Definition in_order (l : nat * option pv) : Prop :=
  let rules := rules_of l in
  (forall r, In r rules -> exists p a rest, r = RSeq p (a :: rest))
  /\ length (filter is_default rules) <= 1
  /\ (forall p rest, In (RSeq (PRegex p) rest) rules -> compiles p = true)
  /\ (forall r p rest vs v x, In r rules -> r = RSeq p rest -> is_default r = false -> variations rest = Some vs -> In v vs -> In x (tl v) -> target_entry x)
  /\ (forall v, gives (fun l => first_target (rules_of l)) l v -> is_error v = false).
(** Default actions are true values, as standard actions are. *)
Definition true_actions (l : nat * option pv) : Prop := forall a rest, In (RSeq PAction (a :: rest)) (rules_of l) -> obj_truth a = true.
End Rules.
Arguments is_default {P}. Arguments in_order {P}. Arguments true_actions {P}.
