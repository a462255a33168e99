(** Model of parce/tree.py: tokens, contexts, and the ways to search and walk through them.

    A tree is a value here.  Where the code compares nodes with [is], the model compares paths:
    a node is identified by its path, the list of child indices that leads from the root to it.
    The [parent] attribute of a node is then the node at the path without its last index. *)
From Verif Require Import Base LexerModel.
From Coq Require Import ZArith.

Section Tree.
Variables L A : Type.     (* lexicons, actions *)

(** parce/tree.py:321-400 [Token], 504-525 [GroupToken]: [k_group] is None for a [Token]. *)
Record tok := Token { k_pos : nat; k_text : str; k_act : A; k_group : option Z }.

(** parce/tree.py:391-394 [Token.end] *)
Definition k_end (t : tok) : nat := k_pos t + length (k_text t).

(** parce/tree.py:574-620 [Context]: a list of nodes with a lexicon. *)
Inductive node := Tok (t : tok) | Ctx (l : L) (cs : list node).

Definition children (n : node) : list node := match n with Tok _ => [] | Ctx _ cs => cs end.

(** [n] at the end of a trail of indices. *)
Fixpoint node_at (n : node) (path : list nat) : option node :=
  match path with
  | [] => Some n
  | i :: path => match nth_error (children n) i with Some m => node_at m path | None => None end
  end.

(** parce/tree.py:534-535: the [group] attributes given by [make_group] to the lexemes from index
    [n] on; the last one is multiplied by -1. *)
Fixpoint make_group_from (n : nat) (xs : list (lexeme A)) : list tok :=
  match xs with
  | [] => []
  | [x] => [Token (x_pos x) (x_text x) (x_act x) (Some (Z.of_nat n * -1)%Z)]
  | x :: xs => Token (x_pos x) (x_text x) (x_act x) (Some (Z.of_nat n)) :: make_group_from (S n) xs
  end.

(** parce/tree.py:1073-1088 [make_tokens], 531-536 [GroupToken.make_group]. *)
Definition make_tokens (xs : list (lexeme A)) : list tok :=
  match xs with
  | _ :: _ :: _ => make_group_from 0 xs
  | [x] => [Token (x_pos x) (x_text x) (x_act x) None]
  | [] => []      (* IndexError in Python; events always have a lexeme *)
  end.

(** parce/tree.py:750-758 [first_token] (a token stands for itself, as in the callers). *)
Fixpoint first_token (n : node) : option tok :=
  match n with
  | Tok t => Some t
  | Ctx _ [] => None
  | Ctx _ (c :: _) => first_token c
  end.

(** parce/tree.py:760-768 [last_token] *)
Fixpoint last_token (n : node) : option tok :=
  match n with
  | Tok t => Some t
  | Ctx _ cs => (fix go (cs : list node) := match cs with
                                            | [] => None
                                            | [c] => last_token c
                                            | _ :: cs' => go cs'
                                            end) cs
  end.

(** parce/tree.py:677-686 [pos] and 688-697 [end]: 0 if there is no such token. *)
Definition n_pos (n : node) : nat := match first_token n with Some t => k_pos t | None => 0 end.
Definition n_end (n : node) : nat := match last_token n with Some t => k_end t | None => 0 end.

(** Number of nodes, used as the bound on the number of rounds of loops that descend. *)
Fixpoint size (n : node) : nat :=
  match n with
  | Tok _ => 1
  | Ctx _ cs => S ((fix go cs := match cs with [] => 0 | c :: cs' => size c + go cs' end) cs)
  end.

(** The loop [while lo < hi: mid = (lo + hi) // 2; if below(mid): lo = mid + 1 else: hi = mid].
    [below] gives None where the code would raise. *)
Fixpoint bsearch (below : nat -> option bool) (fuel lo hi : nat) : option nat :=
  match fuel with
  | 0 => None
  | S fuel =>
      if lo <? hi then
        let mid := (lo + hi) / 2 in
        match below mid with
        | None => None
        | Some true => bsearch below fuel (mid + 1) hi
        | Some false => bsearch below fuel lo mid
        end
      else Some lo
  end.

(** The binary search over all children; the test gets the child. *)
Definition bsearch_in (below : node -> option bool) (cs : list node) : option nat :=
  bsearch (fun mid => match nth_error cs mid with Some n => below n | None => None end)
          (S (length cs)) 0 (length cs).

(** Python [l[i]] where [i] may be negative. *)
Definition py_nth {T} (l : list T) (i : Z) : option T :=
  if (0 <=? i)%Z then nth_error l (Z.to_nat i)
  else if (Z.of_nat (length l) + i <? 0)%Z then None
  else nth_error l (Z.to_nat (Z.of_nat (length l) + i)).

(** parce/tree.py:770-785 [find] *)
Definition c_find (pos : nat) (cs : list node) : option Z :=
  match bsearch_in (fun n => Some (n_end n <=? pos)) cs with
  | None => None
  | Some i => Some (if i =? length cs then (-1)%Z else Z.of_nat i)
  end.

(** parce/tree.py:836-851 [find_left] *)
Definition c_find_left (pos : nat) (cs : list node) : option Z :=
  match bsearch_in (fun n => Some (n_pos n <? pos)) cs with
  | None => None
  | Some i => Some (Z.of_nat i - 1)%Z
  end.

(** The loop [while n.is_context: i = n.find..(pos); n = n[i]; trail.append(i)]. *)
Fixpoint descend (pick : list node -> option Z) (fuel : nat) (n : node) (trail : list Z)
  : option (tok * list Z) :=
  match n with
  | Tok t => Some (t, trail)
  | Ctx _ cs =>
      match fuel with
      | 0 => None
      | S fuel =>
          match pick cs with
          | None => None
          | Some i => match py_nth cs i with
                      | None => None
                      | Some m => descend pick fuel m (trail ++ [i])
                      end
          end
      end
  end.

(** parce/tree.py:811-834 [find_token_with_trail] and 866-881 [find_token_left_with_trail].
    The outer option is None where the code would raise, the inner one for the value None. *)
Definition find_with_trail (pick : list node -> option Z) (cs : list node)
  : option (option (tok * list Z)) :=
  match pick cs with
  | None => None
  | Some i =>
      if (i =? -1)%Z then Some None
      else match py_nth cs i with
           | None => None
           | Some n => match descend pick (size n) n [i] with
                       | None => None
                       | Some r => Some (Some r)
                       end
           end
  end.
Definition find_token_with_trail (cs : list node) (pos : nat) := find_with_trail (c_find pos) cs.
Definition find_token_left_with_trail (cs : list node) (pos : nat) := find_with_trail (c_find_left pos) cs.

(** parce/tree.py:798-809 [find_token] and 853-864 [find_token_left]: the same loops as
    [find_token_with_trail] and [find_token_left_with_trail] without recording the trail. *)
Definition drop_trail (r : option (option (tok * list Z))) : option (option tok) :=
  match r with
  | None => None
  | Some None => Some None
  | Some (Some (t, _)) => Some (Some t)
  end.
Definition find_token (cs : list node) (pos : nat) := drop_trail (find_token_with_trail cs pos).
Definition find_token_left (cs : list node) (pos : nat) := drop_trail (find_token_left_with_trail cs pos).

(** parce/tree.py:883-906 [find_token_after] *)
Definition after_below (pos : nat) (n : node) : option bool :=
  match last_token n with Some t => Some (k_pos t <? pos) | None => None end.
Fixpoint find_token_after_loop (fuel : nat) (cs : list node) (pos : nat) : option (option tok) :=
  match fuel with
  | 0 => None
  | S fuel =>
      match bsearch_in (after_below pos) cs with
      | None => None
      | Some i => if length cs <=? i then Some None
                  else match nth_error cs i with
                       | None => None
                       | Some (Tok t) => Some (Some t)
                       | Some (Ctx _ cs') => find_token_after_loop fuel cs' pos
                       end
      end
  end.
Definition find_token_after (l : L) (cs : list node) (pos : nat) :=
  find_token_after_loop (size (Ctx l cs)) cs pos.

(** parce/tree.py:908-931 [find_token_before] *)
Definition before_below (pos : nat) (n : node) : option bool :=
  match first_token n with Some t => Some (negb (pos <? k_end t)) | None => None end.
Fixpoint find_token_before_loop (below : nat -> node -> option bool) (fuel : nat) (cs : list node)
  (pos : nat) : option (option tok) :=
  match fuel with
  | 0 => None
  | S fuel =>
      match bsearch_in (below pos) cs with
      | None => None
      | Some 0 => Some None
      | Some (S i) => match nth_error cs i with
                      | None => None
                      | Some (Tok t) => Some (Some t)
                      | Some (Ctx _ cs') => find_token_before_loop below fuel cs' pos
                      end
      end
  end.
Definition find_token_before (l : L) (cs : list node) (pos : nat) :=
  find_token_before_loop before_below (size (Ctx l cs)) cs pos.

(** parce/tree.py:787-796 [find_context]: the trail from self to the context that is returned. *)
Fixpoint find_context_loop (fuel : nat) (pos : nat) (trail : list nat) (i : Z) (node : node)
  : option (list nat) :=
  (* [n = node[i]; while n.is_context and n.pos <= pos: ...] *)
  match fuel with
  | 0 => None
  | S fuel =>
      match py_nth (children node) i with
      | None => None
      | Some (Tok _) => Some trail
      | Some (Ctx l cs) =>
          if n_pos (Ctx l cs) <=? pos then
            match c_find pos cs with
            | None => None
            | Some j =>
                find_context_loop fuel pos
                  (trail ++ [Z.to_nat (if (0 <=? i)%Z then i else Z.of_nat (length (children node)) + i)])
                  j (Ctx l cs)
            end
          else Some trail
      end
  end.
Definition find_context (n : node) (pos : nat) : option (list nat) :=
  match c_find pos (children n) with
  | None => None
  | Some i => if (i =? -1)%Z then Some [] else find_context_loop (size n) pos [] i n
  end.

(** parce/tree.py:131-153 [parent_index] of the node that is child [self] of a context with
    children [cs]; [pos] is the [pos] of that node. *)
Fixpoint parent_index_loop (cs : list node) (self pos : nat) (fuel lo hi : nat) : option nat :=
  match fuel with
  | 0 => None
  | S fuel =>
      if lo <? hi then
        let mid := (lo + hi) / 2 in
        match nth_error cs mid with
        | None => None
        | Some n => if n_pos n <? pos then parent_index_loop cs self pos fuel (mid + 1) hi
                    else if mid =? self then Some mid
                    else parent_index_loop cs self pos fuel lo mid
        end
      else Some lo
  end.
Definition parent_index (cs : list node) (self : nat) : option nat :=
  match nth_error cs self with
  | None => None
  | Some n => parent_index_loop cs self (n_pos n) (S (length cs)) 0 (length cs)
  end.

(** parce/tree.py:727-748 [Context.tokens]: the loop with a stack of iterators over children;
    an iterator is the list of children still to come.  [rv] turns the children around for
    [reverse=True]. *)
Fixpoint tokens_loop (rv : bool) (fuel : nat) (stack : list (list node)) (gen : list node)
  : option (list tok) :=
  match fuel with
  | 0 => None
  | S fuel =>
      match gen with
      | Tok t :: gen => match tokens_loop rv fuel stack gen with
                        | Some r => Some (t :: r) | None => None end
      | Ctx _ cs :: gen => tokens_loop rv fuel (gen :: stack) (if rv then rev cs else cs)
      | [] => match stack with
              | [] => Some []
              | g :: stack => tokens_loop rv fuel stack g
              end
      end
  end.
Definition c_tokens (rv : bool) (l : L) (cs : list node) : option (list tok) :=
  tokens_loop rv (2 * size (Ctx l cs)) [] (if rv then rev cs else cs).

(** parce/util.py:784-798 [tokens] over a list of nodes *)
Fixpoint u_tokens_in (rv : bool) (ns : list node) : option (list tok) :=
  match ns with
  | [] => Some []
  | n :: ns =>
      match (match n with Tok t => Some [t] | Ctx l cs => c_tokens rv l cs end), u_tokens_in rv ns with
      | Some a, Some b => Some (a ++ b)
      | _, _ => None
      end
  end.
Definition u_tokens (rv : bool) (ns : list node) : option (list tok) :=
  u_tokens_in rv (if rv then rev ns else ns).

(** parce/tree.py:185-201 [ancestors] of the node at [path], as path lengths.  [upto] is the path
    of the argument: iteration stops before the parent of it, if it is not the root. *)
Definition path_eqb : list nat -> list nat -> bool := list_eqb Nat.eqb.
Fixpoint ancestors_from (d : nat) (path : list nat) (stop : option (list nat)) : list nat :=
  (* [d] is one more than the length of the path of the ancestor to consider *)
  match d with
  | 0 => []
  | S d => match stop with
           | Some p => if path_eqb (firstn d path) p then [] else d :: ancestors_from d path stop
           | None => d :: ancestors_from d path stop
           end
  end.
Definition ancestors (path : list nat) (upto : option (list nat)) : list nat :=
  ancestors_from (length path) path
    (match upto with
     | Some (i :: u) => Some (removelast (i :: u))
     | _ => None
     end).

(** parce/tree.py:226-268 [left_sibling], [right_sibling], [left_siblings], [right_siblings] of
    child [self] of a context with children [cs].  The tests [self.parent[0] is not self] and
    [self.parent[-1] is not self] compare identity, here the index. *)
Definition left_sibling (cs : list node) (self : nat) : option (option node) :=
  if self =? 0 then Some None
  else match parent_index cs self with
       | None => None
       | Some i => match py_nth cs (Z.of_nat i - 1) with None => None | Some n => Some (Some n) end
       end.
Definition right_sibling (cs : list node) (self : nat) : option (option node) :=
  if self =? length cs - 1 then Some None
  else match parent_index cs self with
       | None => None
       | Some i => match nth_error cs (i + 1) with None => None | Some n => Some (Some n) end
       end.
(** [parent[i-1::-1]]: from index [i-1] down to 0 (for [i >= 1]; [i = 0] would start at the end). *)
Definition left_siblings (cs : list node) (self : nat) : option (list node) :=
  if self =? 0 then Some []
  else match parent_index cs self with
       | None => None
       | Some 0 => Some (rev cs)
       | Some i => Some (rev (firstn i cs))
       end.
Definition right_siblings (cs : list node) (self : nat) : option (list node) :=
  if self =? length cs - 1 then Some []
  else match parent_index cs self with
       | None => None
       | Some i => Some (skipn (i + 1) cs)
       end.

(** parce/tree.py:203-208 [ancestors_with_index]: the ancestor of the node at [path] whose path has
    length [d], with the index of the next node on the path. *)
Definition ancestor_with_index (root : node) (path : list nat) (d : nat) : option (list node * nat) :=
  match node_at root (firstn d path), nth_error path d with
  | Some (Ctx _ cs), Some self =>
      match parent_index cs self with Some i => Some (cs, i) | None => None end
  | _, _ => None
  end.

Fixpoint concat_opt {T} (l : list (option (list T))) : option (list T) :=
  match l with
  | [] => Some []
  | x :: l => match x, concat_opt l with Some a, Some b => Some (a ++ b) | _, _ => None end
  end.

(** parce/tree.py:280-288 [forward] *)
Definition forward (root : node) (path : list nat) (upto : option (list nat)) : option (list tok) :=
  concat_opt (map (fun d => match ancestor_with_index root path d with
                            | Some (cs, i) => u_tokens false (skipn (i + 1) cs)
                            | None => None
                            end) (ancestors path upto)).

(** parce/tree.py:290-299 [backward] *)
Definition backward (root : node) (path : list nat) (upto : option (list nat)) : option (list tok) :=
  concat_opt (map (fun d => match ancestor_with_index root path d with
                            | Some (cs, i) => if i =? 0 then Some [] else u_tokens true (firstn i cs)
                            | None => None
                            end) (ancestors path upto)).

(** parce/tree.py:270-278 [next_token], [previous_token] *)
Definition next_token (root : node) (path : list nat) : option (option tok) :=
  option_map (@hd_error tok) (forward root path None).
Definition previous_token (root : node) (path : list nat) : option (option tok) :=
  option_map (@hd_error tok) (backward root path None).

(** parce/tree.py:538-571: [p[j].group > 0]; None where that raises. *)
Definition group_positive (cs : list node) (j : nat) : option bool :=
  match nth_error cs j with
  | Some (Tok t) => match k_group t with Some g => Some (0 <? g)%Z | None => None end
  | _ => None
  end.
(** The loop [while j < z and p[j].group > 0: j += 1] *)
Fixpoint group_end_loop (cs : list node) (fuel j z : nat) : option nat :=
  match fuel with
  | 0 => None
  | S fuel => if j <? z then match group_positive cs j with
                             | None => None
                             | Some true => group_end_loop cs fuel (j + 1) z
                             | Some false => Some j
                             end
              else Some j
  end.
(** Python [l[i:j]], where a negative start counts from the end. *)
Definition py_slice {T} (l : list T) (i : Z) (j : nat) : list T :=
  if (0 <=? i)%Z then slice l (Z.to_nat i) j
  else slice l (Z.to_nat (Z.max 0 (Z.of_nat (length l) + i))) j.

(** parce/tree.py:538-551 [get_group] of child [self] of a context with children [cs]. *)
Definition get_group (cs : list node) (self : nat) (group : Z) : option (list node) :=
  match parent_index cs self with
  | None => None
  | Some i =>
      if (group <? 0)%Z then Some (py_slice cs (Z.of_nat i + group) (i + 1))
      else match group_end_loop cs (length cs) (i + 1) (length cs - 1) with
           | None => None
           | Some j => Some (py_slice cs (Z.of_nat i - group) (j + 1))
           end
  end.

(** parce/tree.py:553-560 [get_group_start] *)
Definition get_group_start (cs : list node) (self : nat) (group : Z) : option node :=
  match parent_index cs self with
  | None => None
  | Some i => py_nth cs (if (group <? 0)%Z then Z.of_nat i + group else Z.of_nat i - group)
  end.

(** parce/tree.py:562-571 [get_group_end] *)
Definition get_group_end (cs : list node) (self : nat) (group : Z) : option node :=
  match parent_index cs self with
  | None => None
  | Some i =>
      if (0 <=? group)%Z
      then match group_end_loop cs (length cs) (i + 1) (length cs - 1) with
           | None => None
           | Some j => nth_error cs j
           end
      else nth_error cs i
  end.

(** parce/tree.py:650-675 [Context.copy].  The variable [copy] walks down and up in the copied
    tree, while [n] does so in the original: a frame holds the children of [n], the lexicon of the
    copied context and the children it has by now; the innermost frame comes first.  Adding a new
    context to [copy] and moving into it opens a frame, [copy = copy.parent] closes it. *)
Definition copy_frame := (list node * L * list node)%type.
Fixpoint copy_loop (fuel : nat) (stack : list copy_frame) (n : list node) (l : L) (copy : list node)
  (i : nat) : option node :=
  match fuel with
  | 0 => None
  | S fuel =>
      match nth_error n i with      (* [while i < z: m = n[i]] *)
      | Some (Ctx ml mcs) => copy_loop fuel ((n, l, copy) :: stack) mcs ml [] 0
      | Some (Tok t) => copy_loop fuel stack n l (copy ++ [Tok (Token (k_pos t) (k_text t) (k_act t) (k_group t))]) (i + 1)
      | None =>
          match stack with
          | [] => Some (Ctx l copy)
          | (pn, pl, pcopy) :: stack =>
              let pcopy := pcopy ++ [Ctx l copy] in
              copy_loop fuel stack pn pl pcopy (length pcopy)
          end
      end
  end.
Definition c_copy (l : L) (cs : list node) : option node :=
  copy_loop (2 * size (Ctx l cs)) [] cs l [] 0.

(** parce/tree.py:703-725 [height] *)
Fixpoint height_loop (fuel : nat) (stack : list (list node * nat)) (n : list node) (i height : nat)
  : option nat :=
  match fuel with
  | 0 => None
  | S fuel =>
      match nth_error n i with      (* [for i in range(i, len(n)): m = n[i]] *)
      | Some (Ctx _ mcs) => height_loop fuel ((n, i) :: stack) mcs 0 (Nat.max height (S (length stack)))
      | Some (Tok _) => height_loop fuel stack n (i + 1) height
      | None =>
          match stack with
          | [] => Some (height + 1)
          | (pn, pi) :: stack => height_loop fuel stack pn (pi + 1) height
          end
      end
  end.
Definition c_height (l : L) (cs : list node) : option nat :=
  match cs with [] => Some 0 | _ => height_loop (2 * size (Ctx l cs)) [] cs 0 0 end.

(** parce/tree.py:979-1017 [Range.from_tree]: the path of the ancestor and the two trails. *)
Record range := Range { r_path : list nat; r_start : list nat; r_end : list nat }.

(** parce/tree.py:1008-1014: number [n] of steps that both trails have in common, while that step
    leads to a context. *)
Fixpoint common_steps (c : node) (a b : list nat) : nat :=
  match a, b with
  | i :: a', j :: b' =>
      match nth_error (children c) i with
      | Some (Ctx l cs) => if i =? j then
                             match a', b' with
                             | _ :: _, _ :: _ => S (common_steps (Ctx l cs) a' b')
                             | _, _ => 0    (* loop exhausted: [n] stays at this round *)
                             end
                           else 0
      | _ => 0
      end
  | _, _ => 0
  end.

Definition nat_trail (t : list Z) : list nat := map Z.to_nat t.

Definition range_from_tree (tree : node) (start : nat) (end_ : option nat) : option (option range) :=
  match children tree with
  | [] => Some None
  | cs =>
      let et :=  (* the end trail; None: raise, Some None: return *)
        match end_ with
        | Some e =>
            if e <? n_end tree then
              if e <=? start then Some None
              else match find_token_left_with_trail cs e with
                   | None => None
                   | Some None => Some None
                   | Some (Some (_, t)) => Some (Some (nat_trail t))
                   end
            else Some (Some [])
        | None => Some (Some [])
        end in
      match et with
      | None => None
      | Some None => Some None
      | Some (Some et) =>
          if start =? 0 then Some (Some (Range [] [] et))
          else match find_token_with_trail cs start with
               | None => None
               | Some None => Some None
               | Some (Some (_, t)) =>
                   let st := nat_trail t in
                   let n := match et with [] => 0 | _ => common_steps tree st et end in
                   Some (Some (Range (firstn n st) (skipn n st) (skipn n et)))
               end
      end
  end.

(** parce/tree.py:1019-1060 [slices], giving the nodes of each slice.  The first list has the
    contexts met on the start trail below the ancestor, with the index taken in them. *)
Fixpoint trail_ancestors (n : node) (trail : list nat) : option (list (list node * nat)) :=
  match trail with
  | [] => Some []
  | i :: trail => match nth_error (children n) i with
                  | None => None
                  | Some m => match trail_ancestors m trail with
                              | None => None
                              | Some r => Some ((children n, i) :: r)
                              end
                  end
  end.

(** parce/tree.py:1030-1045: slices of the start trail, and the value of [start] afterwards. *)
Definition start_slices (anc : list node) (trail : list nat) : option (list (list node) * nat) :=
  match trail with
  | [] => Some ([], 0)
  | [i] => Some ([], i)
  | i :: trail =>
      match nth_error anc i with
      | None => None
      | Some n =>
          match trail_ancestors n trail with
          | None => None
          | Some l =>
              match rev l with
              | [] => None
              | (cs, j) :: up => Some (skipn j cs :: map (fun '(cs, j) => skipn (j + 1) cs) up, i + 1)
              end
          end
      end
  end.

(** parce/tree.py:1052-1058: slices below the ancestor, on the end trail. *)
Fixpoint end_slices (n : node) (trail : list nat) : option (list (list node)) :=
  match trail with
  | [] => None
  | [i] => Some [firstn (i + 1) (children n)]
  | i :: trail =>
      match nth_error (children n) i with
      | None => None
      | Some m => match end_slices m trail with
                  | None => None
                  | Some r => Some (firstn i (children n) :: r)
                  end
      end
  end.

Definition range_slices (tree : node) (r : range) : option (list (list node)) :=
  match node_at tree (r_path r) with
  | None => None
  | Some c =>
      let anc := children c in
      match start_slices anc (r_start r) with
      | None => None
      | Some (s, start) =>
          match r_end r with
          | [] => Some (s ++ [skipn start anc])
          | [e] => Some (s ++ [slice anc start (e + 1)])
          | e :: et =>
              match nth_error anc e with
              | None => None
              | Some n => match end_slices n et with
                          | None => None
                          | Some l => Some (s ++ [slice anc start e] ++ l)
                          end
              end
          end
      end
  end.

(** parce/tree.py:1062-1069 [Range.tokens] *)
Definition range_tokens (tree : node) (r : range) : option (list tok) :=
  match range_slices tree r with
  | None => None
  | Some ss => concat_opt (map (u_tokens false) ss)
  end.

(** parce/tree.py:308-318 [delete] of the node at [path].  [del_at] is [del parent[index]] for the
    parent at a path. *)
Definition remove_nth {T} (i : nat) (l : list T) : list T := firstn i l ++ skipn (S i) l.
Fixpoint update_at (n : node) (path : list nat) (f : list node -> list node) : node :=
  match n with
  | Tok t => Tok t
  | Ctx l cs =>
      match path with
      | [] => Ctx l (f cs)
      | i :: path => match nth_error cs i with
                     | None => Ctx l cs
                     | Some m => Ctx l (firstn i cs ++ [update_at m path f] ++ skipn (S i) cs)
                     end
      end
  end.
(** The rounds of the loop, for the ancestors whose path has the given lengths. *)
Fixpoint delete_loop (ds : list nat) (root : node) (path : list nat) : option node :=
  match ds with
  | [] => Some root
  | d :: ds =>
      match ancestor_with_index root path d with
      | None => None
      | Some (cs, i) =>
          let root' := update_at root (firstn d path) (remove_nth i) in
          if length (remove_nth i cs) =? 0 then delete_loop ds root' path else Some root'
      end
  end.
Definition n_delete (root : node) (path : list nat) : option node :=
  delete_loop (ancestors path None) root path.

End Tree.
Arguments Token {A}. Arguments k_pos {A}. Arguments k_text {A}. Arguments k_act {A}.
Arguments k_group {A}. Arguments k_end {A}.
Arguments Tok {L A}. Arguments Ctx {L A}. Arguments children {L A}. Arguments node_at {L A}.
Arguments make_group_from {A}. Arguments make_tokens {A}.
Arguments first_token {L A}. Arguments last_token {L A}. Arguments n_pos {L A}. Arguments n_end {L A}.
Arguments size {L A}. Arguments bsearch_in {L A}. Arguments c_find {L A}. Arguments c_find_left {L A}.
Arguments descend {L A}. Arguments find_with_trail {L A}.
Arguments find_token_with_trail {L A}. Arguments find_token_left_with_trail {L A}.
Arguments drop_trail {A}. Arguments find_token {L A}. Arguments find_token_left {L A}.
Arguments after_below {L A}. Arguments find_token_after_loop {L A}. Arguments find_token_after {L A}.
Arguments before_below {L A}. Arguments find_token_before_loop {L A}. Arguments find_token_before {L A}.
Arguments find_context_loop {L A}. Arguments find_context {L A}.
Arguments parent_index_loop {L A}. Arguments parent_index {L A}.
Arguments left_sibling {L A}. Arguments right_sibling {L A}.
Arguments left_siblings {L A}. Arguments right_siblings {L A}.
Arguments tokens_loop {L A}. Arguments c_tokens {L A}. Arguments u_tokens_in {L A}. Arguments u_tokens {L A}.
Arguments ancestor_with_index {L A}. Arguments forward {L A}. Arguments backward {L A}.
Arguments next_token {L A}. Arguments previous_token {L A}.
Arguments group_positive {L A}. Arguments group_end_loop {L A}.
Arguments get_group {L A}. Arguments get_group_start {L A}. Arguments get_group_end {L A}.
Arguments copy_loop {L A}. Arguments c_copy {L A}. Arguments height_loop {L A}. Arguments c_height {L A}.
Arguments common_steps {L A}. Arguments range_from_tree {L A}. Arguments trail_ancestors {L A}.
Arguments start_slices {L A}. Arguments end_slices {L A}. Arguments range_slices {L A}.
Arguments range_tokens {L A}. Arguments update_at {L A}. Arguments delete_loop {L A}. Arguments n_delete {L A}.
