(** Values that rule items work with: Python values as far as the rules see them, and calling functions. *)
From Verif Require Import Base.
From Coq Require Import ZArith.

(** [atom]: everything that is not a tuple or list.  [ALex l arg]: a lexicon, derived with [arg]; [AMatch gs]: a match object, with
    the groups of the rule that matched (None: the group did not contribute); [AAct]: a standard action.  [AOther]: any other
    object.  Lists and tuples are not distinguished ([PTup]).
    [fn]: functions that the helpers in parce/rule.py use, see there; [FOther]: any other function. *)
Inductive atom :=
| ANone
| AInt (z : Z)
| ABool (b : bool)
| AStr (s : str)
| AFun (f : fn)
| ALex (l : nat) (arg : option pv)
| AAct (n : nat)
| AMatch (gs : list (option str))
| ASet (l : list pv)
| AOther (n : nat)
with pv := PA (a : atom) | PTup (l : list pv)
with fn :=
| FEq | FNe                                        (* operator.eq, operator.ne *)
| FContains                                        (* operator.contains, on a frozenset *)
| FBool                                            (* bool *)
| FGroup                                           (* lambda m, n: m.group(m.lastindex + n) *)
| FGsel (indices : list nat)                       (* predicate in gselect *)
| FDict (d : list (pv * nat))                      (* get_index in dselect and findmember; the keys and indices of d *)
| FArg (escape : bool) (prefix suffix : str) (default : option str)    (* build in arg *)
| FOther (n : nat).

(** Python [l[i]]; None: IndexError. *)
Definition py_get {A} (l : list A) (i : Z) : option A :=
  if (0 <=? i)%Z then nth_error l (Z.to_nat i)
  else if (- i <=? Z.of_nat (length l))%Z then nth_error l (Z.to_nat (Z.of_nat (length l) + i)) else None.

(** An integer; Python's bool is one too. *)
Definition as_int (a : atom) : option Z :=
  match a with AInt z => Some z | ABool b => Some (if b then 1%Z else 0%Z) | _ => None end.

(** [bool(x)] *)
Definition truth (v : pv) : bool :=
  match v with
  | PA ANone => false
  | PA (AInt z) => negb (z =? 0)%Z
  | PA (ABool b) => b
  | PA (AStr s) => match s with [] => false | _ => true end
  | PA (ASet l) => match l with [] => false | _ => true end
  | PTup l => match l with [] => false | _ => true end
  | _ => true
  end.

Definition omap {A B} (f : A -> option B) : list A -> option (list B) :=
  fix go (l : list A) : option (list B) :=
    match l with
    | [] => Some []
    | x :: l => match f x, go l with Some y, Some r => Some (y :: r) | _, _ => None end
    end.

Section Call.
(** Python's [==] on values; [re.escape]; calling other functions (None: an exception). *)
Variable peq : pv -> pv -> bool.
Variable escape_str : str -> str.
Variable other : nat -> list pv -> option pv.

Definition group (gs : list (option str)) (n : nat) : option (option str) :=
  match n with 0 => None | S n => nth_error gs n end.
Fixpoint lookup (d : list (pv * nat)) (x : pv) : option nat :=
  match d with [] => None | (k, i) :: d => if peq x k then Some i else lookup d x end.
(** The loop in [gselect]; [i] counts. *)
Fixpoint first_group (gs : list (option str)) (i : nat) (indices : list nat) : option nat :=
  match indices with
  | [] => Some i
  | n :: indices => match group gs n with
                    | None => None
                    | Some (Some _) => Some i
                    | Some None => first_group gs (S i) indices
                    end
  end.

Definition call_fn (f : fn) (args : list pv) : option pv :=
  match f, args with
  | FEq, [a; b] => Some (PA (ABool (peq a b)))
  | FNe, [a; b] => Some (PA (ABool (negb (peq a b))))
  | FContains, [PA (ASet l); x] => Some (PA (ABool (existsb (peq x) l)))
  | FBool, [x] => Some (PA (ABool (truth x)))
  | FGroup, [PA (AMatch gs); PA (AInt n)] =>
      match group gs (Z.to_nat n) with
      | Some (Some s) => Some (PA (AStr s))
      | Some None => Some (PA ANone)
      | None => None
      end
  | FGsel indices, [PA (AMatch gs)] => match first_group gs 0 indices with Some i => Some (PA (AInt (Z.of_nat i))) | None => None end
  | FDict d, [x] => Some (PA (AInt (Z.of_nat (match lookup d x with Some i => i | None => 0 end))))
  | FArg escape prefix suffix default, [x] =>
      match x with
      | PA (AStr s) => Some (PA (AStr (prefix ++ (if escape then escape_str s else s) ++ suffix)))
      | _ => Some (PA (match default with Some s => AStr s | None => ANone end))
      end
  | FOther n, _ => other n args
  | _, _ => None
  end.

(** Calling a value.  A lexicon that is called gives the derived lexicon (parce/lexicon.py:156-184). *)
Definition call_pv (f : pv) (args : list pv) : option pv :=
  match f, args with
  | PA (AFun f), _ => call_fn f args
  | PA (ALex l arg), [PA ANone] => Some f
  | PA (ALex l arg), [x] => Some (PA (ALex l (Some x)))
  | _, _ => None
  end.
End Call.
