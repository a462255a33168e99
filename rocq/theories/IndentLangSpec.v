(** Which indenter is asked about which tokens, and how deep a line is. *)
From Verif Require Import Base TreeModel TreeSpec BlockSpec IndentModel IndentSpec IndentLangModel.

(** Tokens in pieces, each with its language: as long as possible. *)
Section Runs.
Variables T Lang : Type.
Variable lang : T -> Lang.
Inductive is_runs : list T -> list (Lang * list T) -> Prop :=
| runs_nil : is_runs [] []
| runs_one ts l : ts <> [] -> Forall (fun t => lang t = l) ts -> is_runs ts [(l, ts)]
| runs_cons ts l ts' l' us gs : ts <> [] -> Forall (fun t => lang t = l) ts -> l <> l' -> is_runs ts' ((l', us) :: gs) ->
    is_runs (ts ++ ts') ((l, ts) :: (l', us) :: gs).
End Runs.
Arguments is_runs {T Lang}.

(** What was added last for a language. *)
Fixpoint last_added {Lang} (same : Lang -> Lang -> bool) (l : Lang) (ops : list (iop Lang)) : option nat :=
  match ops with
  | [] => None
  | Add l' i :: ops => match last_added same l ops with Some j => Some j | None => if same l' l then Some i else None end
  | Get _ :: ops => last_added same l ops
  end.
(** The class that belongs to the nearest of some classes that has one. *)
Definition nearest {Lang Cls} (sister : Lang -> option Cls) (ls : list Lang) (r : option Cls) : Prop :=
  match r with
  | Some c => exists a l b, ls = a ++ l :: b /\ sister l = Some c /\ Forall (fun x => sister x = None) a
  | None => Forall (fun x => sister x = None) ls
  end.

(** How many brackets are open after some tokens; a closing bracket too many is ignored. *)
Inductive bracket := Open | Close | Other.
Definition nesting (bs : list bracket) (d : nat) : nat := fold_left (fun d b => match b with Open => S d | Close => d - 1 | Other => d end) bs d.
(** The closing brackets at the start of a line: those before the first other token, or only those before the first opening bracket. *)
Fixpoint first_closes (strict : bool) (bs : list bracket) : list bracket :=
  match bs with
  | Close :: bs => Close :: first_closes strict bs
  | Other :: bs => if strict then [] else first_closes strict bs
  | _ => []
  end.
Definition css_bracket {A} (is_bracket : A -> bool) (t : tok A) : bracket :=
  if is_bracket (k_act t) then if str_eqb (k_text t) [123] then Open else if str_eqb (k_text t) [125] then Close else Other else Other.
Definition lily_bracket {A} (in_delimiter : A -> bool) (t : tok A) : bracket :=
  if in_delimiter (k_act t) then
    if str_eqb (k_text t) [123] || str_eqb (k_text t) [60; 60] then Open else if str_eqb (k_text t) [125] || str_eqb (k_text t) [62; 62] then Close else Other
  else Other.

(** A token is in, or overlaps, a line. *)
Definition overlaps {A} (b : nat * nat) (t : tok A) : bool := (fst b <? k_end t) && (k_pos t <? snd b).
(** The depth of line [k], given the tokens of the text: the brackets that are open where the line starts, less those closed at its start. *)
Definition line_depth {A} (strict : bool) (br : tok A -> bracket) (ts : list (tok A)) (sep : str) (lines : list str) (k : nat) : nat :=
  let b := place sep lines k in
  nesting (map br (filter (fun t => k_pos t <? fst b) ts) ++ first_closes strict (map br (filter (overlaps b) ts))) 0.
