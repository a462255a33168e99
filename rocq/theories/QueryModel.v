(** Model of parce/query.py: a query over the nodes of one tree [root], where a node is its path. A selection (what a Query yields)
    is a list of nodes; the outer option is None where the code would raise, or a loop would not end. *)
From Verif Require Import Base LexerModel TreeModel.
From Coq Require Import ZArith.

Definition path := list nat.

Section Query.
Variables L A : Type.
Notation node := (node L A).
Variable root : node.

Definition at_ (p : path) : option node := node_at root p.
Definition is_context (p : path) : bool := match at_ p with Some (Ctx _ _) => true | _ => false end.
Definition is_token (p : path) : bool := match at_ p with Some (Tok _) => true | _ => false end.
Definition len (p : path) : nat := match at_ p with Some n => length (children n) | None => 0 end.

(** The children of a node (also [n[i:j]] etc.): paths. *)
Definition kids (p : path) : list path := map (fun i => p ++ [i]) (seq 0 (len p)).

(** [for n in self: yield from f(n)] *)
Fixpoint each (f : path -> option (list path)) (ns : list path) : option (list path) :=
  match ns with
  | [] => Some []
  | n :: ns => match f n, each f ns with Some a, Some b => Some (a ++ b) | _, _ => None end
  end.

(** query.py:386-403 [innergen] of [all], and with [ctxs] true, query.py:421-437 [innergen] of [allcontexts]: the context [n],
    the index [j] where to go on, and the stack of indices. [n = n.parent] is the path without its last index. *)
Fixpoint inner (ctxs : bool) (fuel : nat) (n : path) (j : nat) (stack : list nat) : option (list path) :=
  match fuel with
  | 0 => None
  | S fuel =>
      if j <? len n then
        let m := n ++ [j] in
        if is_context m then match inner ctxs fuel m 0 (j :: stack) with Some r => Some (m :: r) | None => None end
        else match inner ctxs fuel n (j + 1) stack with Some r => Some (if ctxs then r else m :: r) | None => None end
      else match stack with
           | [] => Some []
           | i :: stack => inner ctxs fuel (removelast n) (i + 1) stack
           end
  end.
Definition fuel_for (p : path) : nat := match at_ p with Some n => 2 * size n | None => 0 end.

(** query.py:383-407 [all] *)
Definition q_all (ns : list path) : option (list path) :=
  each (fun n => if is_context n then match inner false (fuel_for n) n 0 [] with Some r => Some (n :: r) | None => None end
                 else Some [n]) ns.

(** query.py:418-442 [allcontexts] *)
Definition q_allcontexts (ns : list path) : option (list path) :=
  each (fun n => if is_context n then match inner true (fuel_for n) n 0 [] with Some r => Some (n :: r) | None => None end
                 else Some []) ns.

(** tree.py:727-748 [Context.tokens], here yielding nodes of this tree: a generator is the list of nodes still to come. *)
Fixpoint tokens_below (fuel : nat) (stack : list (list path)) (gen : list path) : option (list path) :=
  match fuel with
  | 0 => None
  | S fuel =>
      match gen with
      | n :: gen => if is_token n then match tokens_below fuel stack gen with Some r => Some (n :: r) | None => None end
                    else tokens_below fuel (gen :: stack) (kids n)
      | [] => match stack with
              | [] => Some []
              | g :: stack => tokens_below fuel stack g
              end
      end
  end.
(** query.py:409-416 [alltokens] *)
Definition q_alltokens (ns : list path) : option (list path) :=
  each (fun n => if is_token n then Some [n] else tokens_below (fuel_for n) [] (kids n)) ns.

(** query.py:376-381 [children] *)
Definition q_children (ns : list path) : list path := flat_map (fun n => if is_context n then kids n else []) ns.

(** query.py:356-374 [__getitem__] with an integer *)
Definition q_item (key : Z) (ns : list path) : list path :=
  flat_map (fun n => if is_context n then
                       let k := if (key <? 0)%Z then (key + Z.of_nat (len n))%Z else key in
                       if (0 <=? k)%Z && (k <? Z.of_nat (len n))%Z then [n ++ [Z.to_nat k]] else []
                     else []) ns.

(** query.py:462-474 [first] and [last]; an empty context is false, and so is a token without text (tree.py:445-446). *)
Definition truth (p : path) : bool :=
  match at_ p with
  | Some (Ctx _ []) => false
  | Some (Tok t) => match k_text t with [] => false | _ => true end
  | _ => true
  end.
Definition q_first (ns : list path) : list path :=
  flat_map (fun n => if truth n && is_context n then [n ++ [0]] else []) ns.
Definition q_last (ns : list path) : list path :=
  flat_map (fun n => if truth n && is_context n then [n ++ [len n - 1]] else []) ns.

(** query.py:444-454 [parent]: the root has no parent, and a parent is not empty. *)
Definition q_parent (ns : list path) : list path :=
  flat_map (fun n => match n with [] => [] | _ => [removelast n] end) ns.

(** query.py:456-460 [ancestors], tree.py:185-201 without [upto]. *)
Definition ancs (n : path) : list path := map (fun d => firstn d n) (ancestors n None).
Definition q_ancestors (ns : list path) : list path := flat_map ancs ns.

(** tree.py:226-268: the index of the node in its parent is found by [parent_index]. *)
Definition split_path (n : path) : option (path * nat) :=
  match last_opt n with Some i => Some (removelast n, i) | None => None end.
Definition index_of (n : path) : option nat :=
  match split_path n with
  | None => None
  | Some (p, i) => match at_ p with Some m => parent_index (children m) i | None => None end
  end.

(** query.py:504-518 [right] and [left]. For the root, [self.parent[-1]] raises TypeError. *)
Definition q_right (ns : list path) : option (list path) :=
  each (fun n => match split_path n with
                 | None => None
                 | Some (p, i) => if i =? len p - 1 then Some []
                                  else match index_of n with
                                       | None => None
                                       | Some k => if k + 1 <? len p
                                                   then Some (if truth (p ++ [k + 1]) then [p ++ [k + 1]] else [])
                                                   else None
                                       end
                 end) ns.
Definition q_left (ns : list path) : option (list path) :=
  each (fun n => match split_path n with
                 | None => None
                 | Some (p, i) => if i =? 0 then Some []
                                  else match index_of n with
                                       | None => None
                                       | Some 0 => None     (* [parent[-1]]; does not happen *)
                                       | Some (S k) => Some (if truth (p ++ [k]) then [p ++ [k]] else [])
                                       end
                 end) ns.

(** query.py:520-530 [right_siblings] and [left_siblings] *)
Definition q_right_siblings (ns : list path) : option (list path) :=
  each (fun n => match split_path n with
                 | None => None
                 | Some (p, i) => if i =? len p - 1 then Some []
                                  else match index_of n with Some k => Some (skipn (k + 1) (kids p)) | None => None end
                 end) ns.
Definition q_left_siblings (ns : list path) : option (list path) :=
  each (fun n => match split_path n with
                 | None => None
                 | Some (p, i) => if i =? 0 then Some []
                                  else match index_of n with
                                       | Some (S k) => Some (rev (firstn (S k) (kids p)))
                                       | _ => None          (* [parent[-1::-1]]; does not happen *)
                                       end
                 end) ns.

(** query.py:546-558 [tokens], [contexts] *)
Definition q_tokens (ns : list path) : list path := filter is_token ns.
Definition q_contexts (ns : list path) : list path := filter is_context ns.

Definition mem (p : path) (l : list path) : bool := existsb (path_eqb p) l.

(** query.py:560-572 [uniq] *)
Fixpoint uniq_loop (seen ns : list path) : list path :=
  match ns with
  | [] => []
  | n :: ns => if mem n seen then uniq_loop seen ns else n :: uniq_loop (n :: seen) ns
  end.
Definition q_uniq (ns : list path) : list path := uniq_loop [] ns.

(** query.py:591-597 [remove_descendants] *)
Definition q_remove_descendants (ns : list path) : list path :=
  filter (fun n => negb (existsb (fun p => mem p ns) (ancs n))) ns.

(** query.py:599-605 [remove_ancestors] *)
Definition q_remove_ancestors (ns : list path) : list path :=
  filter (fun n => negb (mem n ns && mem n (q_ancestors ns))) ns.

(** * Selectors that can be inverted (query.py:612-702); [inv]: after [is_not] *)

Definition sel_context (inv : bool) (test : path -> bool) (ns : list path) : list path :=
  filter (fun n => is_context n && xorb inv (test n)) ns.
Definition sel_token (inv : bool) (test : tok A -> bool) (ns : list path) : list path :=
  filter (fun n => match at_ n with Some (Tok t) => xorb inv (test t) | _ => false end) ns.

(** query.py:612-622 [len] *)
Definition q_len (inv : bool) (min_length : nat) (max_length : option nat) (ns : list path) : list path :=
  sel_context inv (fun n => match max_length with
                            | None => len n =? min_length
                            | Some m => (min_length <=? len n) && (len n <=? m)
                            end) ns.

Definition pos_of (p : path) : nat := match at_ p with Some n => n_pos n | None => 0 end.
Definition end_of (p : path) : nat := match at_ p with Some n => n_end n | None => 0 end.

(** query.py:624-638 [in_range]; [end_] None is sys.maxsize, which no position exceeds. *)
Definition q_in_range (inv : bool) (start : nat) (end_ : option nat) (ns : list path) : list path :=
  filter (fun n => if inv then (end_of n <=? start) || match end_ with Some e => e <=? pos_of n | None => false end
                   else (start <=? pos_of n) && match end_ with Some e => end_of n <=? e | None => true end) ns.

Variable l_eqb : L -> L -> bool.
Variable a_eqb : A -> A -> bool.

(** query.py:640-655 [__call__]: [what] has texts and lexicons. *)
Definition q_call (inv : bool) (texts : list str) (lexicons : list L) (ns : list path) : list path :=
  filter (fun n => match at_ n with
                   | Some (Tok t) => xorb inv (existsb (str_eqb (k_text t)) texts)
                   | Some (Ctx l _) => xorb inv (existsb (l_eqb l) lexicons)
                   | None => false
                   end) ns.

(** [str.startswith], [str.endswith], [in] *)
Fixpoint starts_with (text s : str) : bool :=
  match text, s with
  | [], _ => true
  | a :: text, b :: s => (a =? b) && starts_with text s
  | _ :: _, [] => false
  end.
Definition ends_with (text s : str) : bool := starts_with (rev text) (rev s).
Fixpoint contains (text s : str) : bool :=
  starts_with text s || match s with [] => false | _ :: s => contains text s end.

(** query.py:657-676 [startingwith], [endingwith], [containing] *)
Definition q_startingwith (inv : bool) (text : str) := sel_token inv (fun t => starts_with text (k_text t)).
Definition q_endingwith (inv : bool) (text : str) := sel_token inv (fun t => ends_with text (k_text t)).
Definition q_containing (inv : bool) (text : str) := sel_token inv (fun t => contains text (k_text t)).

(** query.py:678-689 [matching]: [search] is that of the compiled pattern. *)
Definition q_matching (inv : bool) (search : str -> bool) := sel_token inv (fun t => search (k_text t)).

(** query.py:691-702 [action], [in_action]: [isin] is [action in a] (StandardAction.__contains__). *)
Definition q_action (inv : bool) (actions : list A) := sel_token inv (fun t => existsb (a_eqb (k_act t)) actions).
Definition q_in_action (inv : bool) (isin : A -> A -> bool) (actions : list A) :=
  sel_token inv (fun t => existsb (fun a => isin (k_act t) a) actions).

(** * End points *)

(** query.py:258-260 [count], 271-281 [pick], [pick_last] *)
Definition q_count (ns : list path) : nat := length ns.
Definition q_pick (ns : list path) : option path := hd_error ns.
Definition q_pick_last (ns : list path) : option path := last_opt ns.

(** query.py:283-299 [range] *)
Definition q_range (ns : list path) : Z * Z :=
  match ns with
  | [] => (-1, -1)%Z
  | n :: ns => fold_left (fun '(pos, end_) n => (Z.min pos (Z.of_nat (pos_of n)), Z.max end_ (Z.of_nat (end_of n))))
                 ns (Z.of_nat (pos_of n), Z.of_nat (end_of n))
  end.

(** * delete (query.py:301-353) *)

(** The tree, while nodes are being deleted: the original tree without the nodes in [gone] (and all below them). Nodes keep
    their identity, the path in the original tree. *)
Fixpoint shown (gone : list path) (p : path) (n : node) : node :=
  match n with
  | Tok t => Tok t
  | Ctx l cs => Ctx l ((fix go (i : nat) (cs : list node) : list node :=
                          match cs with
                          | [] => []
                          | c :: cs => if mem (p ++ [i]) gone then go (S i) cs else shown gone (p ++ [i]) c :: go (S i) cs
                          end) 0 cs)
  end.
(** The children that a node has by now: their identities, and the nodes themselves. *)
Definition kids_now (gone : list path) (p : path) : list path := filter (fun q => negb (mem q gone)) (kids p).
Definition nodes_now (gone : list path) (p : path) : list node :=
  match at_ p with Some n => children (shown gone p n) | None => [] end.

(** A dict (insertion order) from contexts to lists of nodes. *)
Definition dict := list (path * list path).
Fixpoint d_append (d : dict) (k n : path) : dict :=
  match d with
  | [] => [(k, [n])]
  | (k', l) :: d => if path_eqb k k' then (k', l ++ [n]) :: d else (k', l) :: d_append d k n
  end.
Definition d_del (d : dict) (k : path) : dict := filter (fun x => negb (path_eqb k (fst x))) d.

(** query.py:331-340: contexts that would lose all children, until there are none. *)
Definition emptied (d : dict) : list path :=
  map fst (filter (fun x => (length (snd x) =? len (fst x)) && match fst x with [] => false | _ => true end) d).
Definition move_up (d : dict) (remove : list path) : dict :=
  fold_left (fun d n => d_append (d_del d n) (removelast n) n) remove d.
Fixpoint move_loop (fuel : nat) (d : dict) : option dict :=
  match fuel with
  | 0 => None
  | S fuel => match emptied d with [] => Some d | remove => move_loop fuel (move_up d remove) end
  end.

(** [l.sort(key=lambda n: n.pos)], stable. *)
Fixpoint insert_pos (n : path) (l : list path) : list path :=
  match l with
  | [] => [n]
  | m :: l => if pos_of n <=? pos_of m then n :: m :: l else m :: insert_pos n l
  end.
Definition sort_pos (l : list path) : list path := fold_right insert_pos [] l.

(** [n.parent_index()], in the tree as it is by now. *)
Fixpoint find_id (n : path) (l : list path) : option nat :=
  match l with
  | [] => None
  | m :: l => if path_eqb n m then Some 0 else match find_id n l with Some i => Some (S i) | None => None end
  end.
Definition index_now (gone : list path) (p n : path) : option nat :=
  match find_id n (kids_now gone p) with
  | None => None
  | Some self => parent_index (nodes_now gone p) self
  end.

(** query.py:346-353: the slices to delete, the last one first; [i]: the index of the node before. *)
Fixpoint slices_loop (gone : list path) (p : path) (slices : list (nat * nat)) (i : nat) (ns : list path) : option (list (nat * nat)) :=
  match ns with
  | [] => Some slices
  | n :: ns =>
      match nth_error (kids_now gone p) (i + 1), slices with
      | None, _ => None         (* IndexError *)
      | _, [] => None           (* does not happen *)
      | Some m, (a, b) :: rest =>
          if path_eqb n m then slices_loop gone p ((a, b + 1) :: rest) (i + 1) ns
          else match index_now gone p n with
               | None => None
               | Some i => slices_loop gone p ((i, i + 1) :: slices) i ns
               end
      end
  end.
Definition slices_of (gone : list path) (p : path) (nodes : list path) : option (list (nat * nat)) :=
  match nodes with
  | [] => None
  | n :: ns =>
      match nth_error (kids_now gone p) 0 with
      | None => None
      | Some m =>
          match (if path_eqb n m then Some 0 else index_now gone p n) with
          | None => None
          | Some i => slices_loop gone p [(i, i + 1)] i ns
          end
      end
  end.

(** [del parent[i:j]] *)
Definition del_slice (p : path) (gone : list path) (ij : nat * nat) : list path :=
  gone ++ slice (kids_now gone p) (fst ij) (snd ij).

Fixpoint delete_all (gone : list path) (d : dict) : option (list path) :=
  match d with
  | [] => Some gone
  | (p, nodes) :: d =>
      match slices_of gone p nodes with
      | None => None
      | Some slices => delete_all (fold_left (del_slice p) slices gone) d
      end
  end.

(** query.py:301-353 [delete]: the tree afterwards and the number that is returned. The nodes of [self] are all in the tree
    [root], so that [d] has the key None only for the root; then no other node is left by [remove_descendants]. The fuel is at
    least the number of rounds: in each round nodes are replaced with their parent. *)
Definition q_delete (ns : list path) : option (node * nat) :=
  let nodes := q_remove_descendants (q_uniq ns) in
  let roots := filter (fun n => match n with [] => true | _ => false end) nodes in
  let d := fold_left (fun d n => match n with [] => d | _ => d_append d (removelast n) n end) nodes [] in
  match roots with
  | _ :: _ => match root, d with
              | Ctx l cs, [] => Some (Ctx l [], length cs)
              | _, _ => None      (* a token has no [clear]; the other case does not happen *)
              end
  | [] =>
      match move_loop (S (list_sum (map (@length nat) nodes))) d with
      | None => None
      | Some d =>
          let d := map (fun x => (fst x, sort_pos (snd x))) d in
          let count := list_sum (map (fun x => length (snd x)) d) in
          match delete_all [] d with
          | None => None
          | Some gone => Some (shown gone [] root, count)
          end
      end
  end.

End Query.
Arguments at_ {L A}. Arguments is_context {L A}. Arguments is_token {L A}. Arguments len {L A}. Arguments kids {L A}.
Arguments inner {L A}. Arguments fuel_for {L A}. Arguments q_all {L A}. Arguments q_allcontexts {L A}. Arguments tokens_below {L A}.
Arguments q_alltokens {L A}. Arguments q_children {L A}. Arguments q_item {L A}. Arguments truth {L A}. Arguments q_first {L A}.
Arguments q_last {L A}. Arguments index_of {L A}. Arguments q_right {L A}. Arguments q_left {L A}. Arguments q_right_siblings {L A}.
Arguments q_left_siblings {L A}. Arguments q_tokens {L A}. Arguments q_contexts {L A}. Arguments sel_context {L A}. Arguments sel_token {L A}.
Arguments q_len {L A}. Arguments pos_of {L A}. Arguments end_of {L A}. Arguments q_in_range {L A}. Arguments q_call {L A}.
Arguments q_startingwith {L A}. Arguments q_endingwith {L A}. Arguments q_containing {L A}. Arguments q_matching {L A}.
Arguments q_action {L A}. Arguments q_in_action {L A}. Arguments q_range {L A}. Arguments shown {L A}. Arguments kids_now {L A}.
Arguments nodes_now {L A}. Arguments emptied {L A}. Arguments move_loop {L A}. Arguments insert_pos {L A}. Arguments sort_pos {L A}.
Arguments index_now {L A}. Arguments slices_loop {L A}. Arguments slices_of {L A}. Arguments del_slice {L A}. Arguments delete_all {L A}.
Arguments q_delete {L A}.
