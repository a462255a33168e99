(** Model of parce/tree.py, nodes above other nodes and ranges between two tokens. *)
From Verif Require Import Base TargetModel LexerModel TreeModel.
From Coq Require Import ZArith.

Section Ancestors.
Variables L A : Type.
Notation node := (node L A).
Notation tok := (tok A).

(** Several trees; a node is known by the number of its tree and its path in it. *)
Definition nid := (nat * list nat)%type.
Definition same_node (a b : nid) : bool := (fst a =? fst b) && path_eqb (snd a) (snd b).
Definition node_of (trees : list node) (n : nid) : option node :=
  match nth_error trees (fst n) with Some t => node_at t (snd n) | None => None end.
Definition up_to (n : nid) (d : nat) : nid := (fst n, firstn d (snd n)).

(** parce/tree.py:185-201 [ancestors].  The loop without [stop] and the loop with it are [ancestors] of TreeModel; a node of another tree is never met.
    ([if upto] is false for a context without children; in a tree that was built there is none below the root.) *)
Definition ancestors_of (n : nid) (upto : option nid) : list nid :=
  map (up_to n) (ancestors (snd n) (match upto with Some u => if fst u =? fst n then Some (snd u) else None | None => None end)).

(** parce/tree.py:155-160 [root] *)
Definition n_root (n : nid) : nid := fold_left (fun _ a => a) (ancestors_of n None) n.
(** parce/tree.py:178-183 [is_ancestor_of] *)
Definition is_ancestor_of (self n : nid) : bool := existsb (fun a => same_node a self) (ancestors_of n None).
(** parce/tree.py:222-224 [depth] *)
Definition depth (n : nid) : nat := fold_left (fun k _ => k + 1) (ancestors_of n None) 0.
(** parce/tree.py:210-220 [common_ancestor]; [in] compares contexts by identity (612-615) *)
Definition is_context (trees : list node) (n : nid) : bool := match node_of trees n with Some (Ctx _ _) => true | _ => false end.
Definition common_ancestor (trees : list node) (self other : nid) : option nid :=
  let ancestors := (if is_context trees self then [self] else []) ++ ancestors_of self None in
  if is_context trees other && existsb (same_node other) ancestors then Some other
  else find (fun n => existsb (same_node n) ancestors) (ancestors_of other None).

(** parce/tree.py:203-208 [ancestors_with_index], one round: None if it raises *)
Definition with_index (trees : list node) (n : nid) (d : nat) : option (nid * nat) :=
  match nth_error trees (fst n) with
  | Some t => match ancestor_with_index t (snd n) d with Some (_, i) => Some (up_to n d, i) | None => None end
  | None => None
  end.
Fixpoint all_opt {X Y} (f : X -> option Y) (l : list X) : option (list Y) :=
  match l with [] => Some [] | x :: l => match f x, all_opt f l with Some y, Some ys => Some (y :: ys) | _, _ => None end end.
(** [s_ancestors.index(n)] *)
Fixpoint index_of (n : nid) (l : list nid) : option nat :=
  match l with [] => None | a :: l => if same_node a n then Some 0 else option_map S (index_of n l) end.
(** parce/tree.py:480-488, the loop over the ancestors of the other token; the outer option is None where it raises *)
Fixpoint trail_loop (trees : list node) (other : nid) (s_ancestors : list nid) (s_indices o_indices : list nat) (ds : list nat) : option (option (nid * list nat * list nat)) :=
  match ds with
  | [] => Some None
  | d :: ds =>
      match with_index trees other d with
      | None => None
      | Some (n, i) =>
          let o_indices := o_indices ++ [i] in
          match index_of n s_ancestors with
          | None => trail_loop trees other s_ancestors s_indices o_indices ds
          | Some k => Some (Some (n, rev (firstn (S k) s_indices), rev o_indices))
          end
      end
  end.
(** parce/tree.py:464-489 [common_ancestor_with_trail] of the tokens [s] at [self] and [o] at [other].  The first two lines need a parent; [zip] of nothing cannot
    be unpacked. *)
Definition common_ancestor_with_trail (trees : list node) (self : nid) (s : tok) (other : nid) (o : tok) : option (option (nid * list nat * list nat)) :=
  if same_node other self then
    match ancestors (snd self) None with
    | [] => None
    | d :: _ => match with_index trees self d with Some (p, i) => Some (Some (p, [i], [i])) | None => None end
    end
  else if k_pos s <? k_pos o then
    match all_opt (with_index trees self) (ancestors (snd self) None) with
    | None | Some [] => None
    | Some l => trail_loop trees other (map fst l) (map snd l) [] (ancestors (snd other) None)
    end
  else Some None.
(** parce/tree.py:491-500 [Token.range], the tree and the range in it; a context is true if it has children *)
Definition token_range (trees : list node) (self : nid) (s : tok) (other : nid) (o : tok) : option (option (nat * range)) :=
  match common_ancestor_with_trail trees self s other o with
  | None => None
  | Some None => Some None
  | Some (Some (c, st, et)) =>
      match node_of trees c with
      | Some (Ctx _ (_ :: _)) => Some (Some (fst c, Range (snd c) st et))
      | Some _ => Some None
      | None => None
      end
  end.
(** parce/tree.py:456-460 [forward_until_including] *)
Definition forward_until_including (trees : list node) (self : nid) (s : tok) (other : nid) (o : tok) : option (list tok) :=
  match token_range trees self s other o with
  | None => None
  | Some None => Some []
  | Some (Some (k, r)) => match nth_error trees k with Some t => range_tokens t r | None => None end
  end.
(** parce/tree.py:960-974 [Range.pos], [Range.end] *)
Definition range_pos (t : node) (r : range) : option nat := option_map n_pos (node_at t (r_path r ++ r_start r)).
Definition range_end (t : node) (r : range) : option nat := option_map n_end (node_at t (r_path r ++ r_end r)).
(** parce/tree.py:446-455 [forward_including], [backward_including] *)
Definition forward_including (root : node) (path : list nat) (t : tok) (upto : option (list nat)) : option (list tok) := option_map (cons t) (forward root path upto).
Definition backward_including (root : node) (path : list nat) (t : tok) (upto : option (list nat)) : option (list tok) := option_map (cons t) (backward root path upto).
End Ancestors.
Arguments node_of {L A}. Arguments is_context {L A}. Arguments common_ancestor {L A}. Arguments common_ancestor_with_trail {L A}.
Arguments token_range {L A}. Arguments forward_until_including {L A}. Arguments range_pos {L A}. Arguments range_end {L A}. Arguments with_index {L A}. Arguments trail_loop {L A}.
Arguments forward_including {L A}. Arguments backward_including {L A}.
