(** Model of the queries that go to the tokens before and after nodes, and of slices (parce/query.py). A node is its path. *)
From Verif Require Import Base LexerModel TreeModel QueryModel.
From Coq Require Import ZArith.

Section Nav.
Variables L A : Type.
Variable root : node L A.

(** [reversed] or [iter] *)
Definition dir {T} (rv : bool) (l : list T) : list T := if rv then rev l else l.

(** tree.py:727-748 [Context.tokens], yielding nodes of this tree; a generator is the list of nodes still to come. *)
Fixpoint walk (rv : bool) (fuel : nat) (stack : list (list path)) (gen : list path) : option (list path) :=
  match fuel with
  | 0 => None
  | S fuel =>
      match gen with
      | n :: gen => if is_token root n then match walk rv fuel stack gen with Some r => Some (n :: r) | None => None end
                    else walk rv fuel (gen :: stack) (dir rv (kids root n))
      | [] => match stack with
              | [] => Some []
              | g :: stack => walk rv fuel stack g
              end
      end
  end.

(** util.py:780-793 [tokens] *)
Definition tokens_of (rv : bool) (ns : list path) : option (list path) :=
  each (fun n => if is_token root n then Some [n] else walk rv (fuel_for root n) [] (dir rv (kids root n))) (dir rv ns).

(** tree.py:203-208 [ancestors_with_index], for the ancestor at depth [d]: the ancestor and the index. *)
Definition anc_index (n : path) (d : nat) : option (path * nat) :=
  match index_of root (firstn (S d) n) with Some i => Some (firstn d n, i) | None => None end.

(** tree.py:280-299 [forward] and [backward] without [upto] *)
Definition forward_of (n : path) : option (list path) :=
  concat_opt (map (fun d => match anc_index n d with
                            | Some (p, i) => tokens_of false (skipn (i + 1) (kids root p))
                            | None => None
                            end) (ancestors n None)).
Definition backward_of (n : path) : option (list path) :=
  concat_opt (map (fun d => match anc_index n d with
                            | Some (p, i) => if i =? 0 then Some [] else tokens_of true (firstn i (kids root p))
                            | None => None
                            end) (ancestors n None)).

(** query.py:492-502 [forward] and [backward] *)
Definition q_forward (ns : list path) : option (list path) := each forward_of ns.
Definition q_backward (ns : list path) : option (list path) := each backward_of ns.

(** query.py:476-490 [next] and [previous], tree.py:270-278. (The generators would stop at the first token; here they are run to
    the end, which makes no difference when they do not raise.) *)
Definition first_true (l : list path) : list path :=
  match l with t :: _ => if truth root t then [t] else [] | [] => [] end.
Definition q_next (ns : list path) : option (list path) := each (fun n => option_map first_true (forward_of n)) ns.
Definition q_previous (ns : list path) : option (list path) := each (fun n => option_map first_true (backward_of n)) ns.

(** Slices of Python lists with [len] elements, [start:stop:step]: the indices (as slice.indices and range compute them). None: the
    step is zero, which raises ValueError. *)
Local Open Scope Z_scope.
Definition slice_bound (len step : Z) (default : Z) (b : option Z) : Z :=
  let lower := if step <? 0 then -1 else 0 in
  let upper := if step <? 0 then len - 1 else len in
  match b with
  | None => default
  | Some b => if b <? 0 then Z.max (b + len) lower else Z.min b upper
  end.
Fixpoint count_up (fuel : nat) (i stop step : Z) : list Z :=
  match fuel with
  | O => []
  | S fuel => if (if step <? 0 then stop <? i else i <? stop) then i :: count_up fuel (i + step) stop step else []
  end.
Definition slice_indices (len : nat) (start stop step : option Z) : option (list nat) :=
  let n := Z.of_nat len in
  let st := match step with Some s => s | None => 1 end in
  if st =? 0 then None
  else let a := slice_bound n st (if st <? 0 then n - 1 else 0) start in
       let b := slice_bound n st (if st <? 0 then -1 else n) stop in
       Some (map Z.to_nat (count_up len a b st)).
Local Close Scope Z_scope.

(** query.py:364-368 [__getitem__] with a slice *)
Definition q_slice (start stop step : option Z) (ns : list path) : option (list path) :=
  each (fun n => if is_context root n
                 then match slice_indices (len root n) start stop step with
                      | Some l => Some (map (fun i => n ++ [i]) l)
                      | None => None
                      end
                 else Some []) ns.

(** query.py:574-589 [slice] with itertools.islice: [start], [stop] and [step] are not negative, and [step] is not zero (islice would
    raise ValueError). [skip] counts the nodes to drop before the next one to yield. *)
Fixpoint islice (skip : nat) (left : option nat) (step : nat) (ns : list path) : list path :=
  match left, ns with
  | Some 0, _ => []
  | _, [] => []
  | _, n :: ns =>
      let left := option_map pred left in
      match skip with
      | 0 => n :: islice (step - 1) left step ns
      | S skip => islice skip left step ns
      end
  end.
Definition q_islice (start : nat) (stop : option nat) (step : nat) (ns : list path) : list path := islice start stop step ns.

End Nav.
Arguments walk {L A}. Arguments tokens_of {L A}. Arguments anc_index {L A}. Arguments forward_of {L A}. Arguments backward_of {L A}.
Arguments q_forward {L A}. Arguments q_backward {L A}. Arguments first_true {L A}. Arguments q_next {L A}. Arguments q_previous {L A}.
Arguments q_slice {L A}.
